(** Proofs that sampled configurations can be measured. *)
From Verif Require Import RPrelude Arr ModelSupport ModelTct ModelCsd ModelJumps ModelDistortions ModelSampling ModelSensor ModelSimulation ModelInstance
  ModelNoise ModelConfig ModelConfigCsd ModelScanInstance ModelDefault ModelDefaultNoise ModelScanNoise ModelSampledSim
  SpecSupport SpecTct SpecCsd SpecSensor SpecSampling SpecConfig SpecConfigCsd SpecSimulation SpecDistortions SpecInstance SpecNoise SpecDefaultNoise SpecScanInstance SpecScanNoise SpecSampledSim
  ProofsJumps ProofsDistortions ProofsCsd ProofsOcc ProofsRegions ProofsDriver ProofsScan ProofsSimulation ProofsInstance ProofsScanSensor ProofsSensorMore ProofsNoise ProofsReplay ProofsSuccess ProofsDefault ProofsDefaultNoise
  ProofsScanInstance ProofsScanCsd ProofsScanNoise ProofsScanNoise2 ProofsScanNoise3 ProofsScanNoise4 ProofsConfig ProofsShape ProofsOrder ProofsCover ProofsConfigCsd ProofsSampledSim.
Local Open Scope R_scope.

Lemma sensor_made p : exists s ks, sensor_of p = Ok s /\
  ss_peaks s = Some ks /\ (Forall (fun k => 0 < lz_gamma k) (sp_peaks p) -> Forall2 has_shape (sp_peaks p) ks) /\ ss_barrier1 s = sp_barrier1 p /\ ss_barrier2 s = sp_barrier2 p /\
  ss_sensor s = sp_sensor_gate p /\ ss_gate s = mk_rows3 (sp_gates p) (sp_gates p) (sp_gates p) /\
  ss_dot s = mk_rows3 (sp_dots p) (sp_dots p) (sp_dots p) /\ ss_offset s = mk_three 0 0 0 /\
  ss_rise s = Some (rise_function (sp_rise p)) /\ ss_deform s = [].
Proof. eexists _, _. split; [reflexivity|]. split; [reflexivity|]. split; [exact (shapes _)|]. repeat split. Qed.
Lemma sensor_parts p s : sensor_of p = Ok s -> ss_deform s = [] /\ ss_peaks s = Some (map lorentz_peak (sp_peaks p)).
Proof. cbn. intros E. injection E as <-. auto. Qed.

Section Sampled.
Context {G H : Type}.
Variable src : sources G.
Hypothesis Sok : sources_ok src.
Variable label : arr2 nat -> arr2 nat.
Hypothesis Lab : forall m, is_labelling m (label m).
Variables (r : rng H) (choice : nat -> nat -> H -> nat * H).
Hypothesis Uok : uniform_ok r.
Hypothesis Cok : choice_ok choice.
Variable draw : sampler_args -> R * R -> param G.
Hypothesis Dok : drawn_within draw.
Variables (kernel : R -> Z -> R) (radius : R -> nat).
Variables (x : geometric) (c : sampled_config).
Hypothesis Smp : sampled r choice label x c.
Notation fine := (fine (-0.06) (-0.06) 0.0119).

Let sigma : param G := draw (ANormal ((2 * 0.03 / 100 - 0.25 * 0.03 / 100) / 6) None) (0.25 * 0.03 / 100, 2 * 0.03 / 100).
Let pink : param G := draw (AExponential (exponential_scale 1)) (1e-10, 0.0005).
Definition sampled_occs : list (occ_noise G) :=
  [Blur 0 sigma kernel radius;
   Jumps 1 0 0.01 (given (100 * 0.03 / 100)) (given (6 * 0.03 / 100));
   Jumps 2 1 (0.01 / 6) (given (100 * 0.03 / 100)) (given (6 * 0.03 / 100))].
Definition sampled_pots : list (image_noise G) :=
  [Pink pink 0; Telegraph (1 / 6 * 1) (given (74.56704 * 0.03 / 100)) (given 3.491734e-05) (given 2.53855325e-05)].
Definition sampled_resps : list (image_noise G) :=
  [Telegraph (0.01 * 1) (given (10000 * 0.03 / 100)) (given 0.047453767599999995) (given 0.0152373696); White pink].
Lemma pink_positive g : 0 <= fst (pink g).
Proof. destruct (Dok (AExponential (exponential_scale 1)) (1e-10, 0.0005) g) as [L _]; cbn [fst snd] in *; [lra|]. unfold pink. lra. Qed.

(** What was sampled *)
Lemma sampled_fields : (exists fuel g g1, sample_ideal_csd r fuel label g = (Ok x, g1)) /\
  sc_limits_g1 c = (-0.2, -0.06) /\ sc_limits_g2 c = (-0.2, -0.06) /\ sc_limits_sensor_g1 c = (-1, 0) /\ sc_limits_sensor_g2 c = (-1, 0) /\
  occupation_objects draw kernel radius 0 (sc_occupation c) = sampled_occs /\ image_objects draw (sc_potential c) = sampled_pots /\
  image_objects draw (sc_response c) = sampled_resps /\
  (forall s, sc_sensor c = SampledGeneric s -> exists ps, gs_peaks s = Some ps /\ ps <> []).
Proof.
  destruct Smp as (fuel & fuel' & kind & q & comp & steep & g & g1 & E).
  destruct (config_result _ _ _ _ _ _ _ _ _ _ _ _ E) as (Q & (g2 & g3 & Es & K) & L1 & L2 & L3 & L4 & A & B & D).
  split; [eauto|]. do 4 (split; [assumption|]). rewrite A, B, D. do 3 (split; [reflexivity|]).
  intros s Hs. rewrite Hs in K. destruct K as [_ K]. destruct (sensor_generic_spec _ _ _ _ _ _ _ _ _ Uok Cok Q K) as (ps & Hp & _ & Len & _).
  exists (map lorentz_peak ps). split; [exact Hp|]. destruct ps; [cbn in Len; lia|discriminate].
Qed.
Lemma generic_is s : sampled_generic src label draw kernel radius x c s =
  limited src label (Some (-0.2, -0.06)) (Some (-0.2, -0.06)) (Some (-1, 0)) (Some (-1, 0)) x s sampled_occs sampled_pots sampled_resps.
Proof. destruct sampled_fields as (_ & L1 & L2 & L3 & L4 & A & B & D & _). unfold sampled_generic, limited. rewrite L1, L2, L3, L4, A, B, D. reflexivity. Qed.
Lemma scan_is s : sampled_scan src label draw kernel radius x c s =
  noisy_scan_config src label (Some (-0.2, -0.06)) (Some (-0.2, -0.06)) (Some (-1, 0)) (Some (-1, 0)) (Some x) s sampled_occs sampled_pots sampled_resps.
Proof. destruct sampled_fields as (_ & L1 & L2 & L3 & L4 & A & B & D & _). unfold sampled_scan. rewrite L1, L2, L3, L4, A, B, D. reflexivity. Qed.

Lemma sampled_draws sh l1 l2 k : rtn_px_per_volt sh l1 l2 = Ok k -> 44.71 <= k ->
  Forall (fun d => forall g, exists z g', drawn src d sh l1 l2 g = Ok (z, g')) sampled_pots.
Proof.
  intros Hk Hb. apply Forall_cons; [|apply Forall_cons; [|apply Forall_nil]]; intros g.
  - apply pink_drawn.
  - eapply telegraph_drawn; [exact Hk|]. intros g'. cbn [given fst]. lra.
Qed.
Lemma response_draws sh l1 l2 k : rtn_px_per_volt sh l1 l2 = Ok k -> 0.34 <= k ->
  Forall (fun d => forall g, exists z g', drawn src d sh l1 l2 g = Ok (z, g')) sampled_resps.
Proof.
  intros Hk Hb. apply Forall_cons; [|apply Forall_cons; [|apply Forall_nil]]; intros g.
  - eapply telegraph_drawn; [exact Hk|]. intros g'. cbn [given fst]. lra.
  - apply white_drawn, pink_positive.
Qed.

(** ** Diagrams *)
Lemma both_outcomes a1 b1 a2 b2 u1 u2 res sh d (r0 : result (occupation * lead_mask)) : well_formed_request [a1; b1] [a2; b2] (res_list res) ->
  in_range (a1, a2) -> in_range (b1, b2) -> sensor_volt u1 -> sensor_volt u2 ->
  ideal_of label x a1 b1 a2 b2 res = Ok d -> fine (a1, b1) (a2, b2) sh ->
  (exists k, rtn_px_per_volt sh (a1, b1) (a2, b2) = Ok k /\ 45 <= k) ->
  (forall ol, r0 = Ok ol -> fits ol sh) ->
  (forall s n, sc_sensor c = SampledGeneric s ->
    (exists n1, occupation_loop (map (occ_object src) sampled_occs) (get_csd_data label x) (a1, b1) (a2, b2) (csd_arrays d) n = (r0, n1)) ->
    let m := measure (sampled_generic src label draw kernel radius x c s) [a1; b1] [a2; b2] (Some u1) (Some u2) res n in
    match r0 with Err e => raised m e | Ok _ => returned m sh end) /\
  (forall s w, ss_deform s = [] ->
    (exists n1, occupation_loop (map (occ_object src) sampled_occs) (get_csd_data label x) (a1, b1) (a2, b2) (csd_arrays d) (fst w) = (r0, n1)) ->
    let m := measure (sampled_scan src label draw kernel radius x c s) [a1; b1] [a2; b2] (Some u1) (Some u2) res w in
    match r0 with Err e => raised m e | Ok _ => returned_csd m sh end).
Proof.
  intros Wf [A1 A2] [B1 B2] U1 U2 Ed F (k & Hk & Hb) Ft. cbn [fst snd] in A1, A2, B1, B2.
  assert (S1 : sweep_within (Some (-0.2, -0.06)) a1 b1) by (cbn [sweep_within]; lra).
  assert (S2 : sweep_within (Some (-0.2, -0.06)) a2 b2) by (cbn [sweep_within]; lra).
  assert (Sz : shape_size sh <> 0%nat). { destruct F as (_ & _ & _ & _ & Sh). destruct sh; cbn [shape_size]; [lia|]. nia. }
  pose proof (sampled_draws sh (a1, b1) (a2, b2) k Hk ltac:(lra)) as Dp. pose proof (response_draws sh (a1, b1) (a2, b2) k Hk ltac:(lra)) as Dr.
  assert (Nn : Some u1 = None <-> Some u2 = None) by (split; discriminate).
  split.
  - intros s n Hs (n1 & Eo). destruct sampled_fields as (_ & _ & _ & _ & _ & _ & _ & _ & Ps). destruct (Ps s Hs) as (ps & Hp & Hn).
    rewrite generic_is. exact (limited_outcome src Sok label (Some (-0.2, -0.06)) (Some (-0.2, -0.06)) (Some (-1, 0)) (Some (-1, 0)) x s ps sampled_occs sampled_pots sampled_resps
      a1 b1 a2 b2 (Some u1) (Some u2) res n d r0 n1 sh Hp Hn Wf S1 S2 U1 U2 Nn Ed Eo Ft Sz (all_drawn src _ _ _ _ Dp) (all_drawn src _ _ _ _ Dr)).
  - intros s w Hd (n1 & Eo). rewrite scan_is.
    pose proof (noisy_csd_outcome src Sok label (Some (-0.2, -0.06)) (Some (-0.2, -0.06)) (Some (-1, 0)) (Some (-1, 0)) x s sampled_occs sampled_pots sampled_resps
      a1 b1 a2 b2 (Some u1) (Some u2) res w d r0 n1 sh (or_introl Hd) Wf S1 S2 U1 U2 Nn Ed Eo Ft Sz) as O. cbv zeta in O |- *.
    destruct r0 as [ol|e]; [|exact O].
    destruct (three_drawn src _ _ _ _ Dp (w_rng n1)) as (z0 & z1 & z2 & g & D). rewrite D in O.
    destruct (all_drawn src _ _ _ _ Dr g) as (z & g' & D'). rewrite D' in O. exact O.
Qed.

Lemma sampled_loop a1 b1 a2 b2 res sh d n : ideal_of label x a1 b1 a2 b2 res = Ok d -> requested res sh -> fine (a1, b1) (a2, b2) sh ->
  (jumps_g2 src draw (w_rng n) = true -> a2 <> b2) -> (a1 = b1 -> forall g, fst (src_binomial src (0.01 / 6) g) = false) ->
  exists ol n1, occupation_loop (map (occ_object src) sampled_occs) (get_csd_data label x) (a1, b1) (a2, b2) (csd_arrays d) n = (Ok ol, n1) /\ fits ol sh.
Proof.
  intros Ed Hr F J2 J1. destruct sampled_fields as ((fuel & g & g1 & Es) & _).
  exact (triple_success src Sok (-0.06) (-0.06) 0.0119 (get_csd_data label x) (fun w l1 l2 sh => sampled_served r fuel Uok label Lab g x g1 w l1 l2 sh Es) 0 1 2 sigma kernel radius
    0.01 (0.01 / 6) (given (100 * 0.03 / 100)) (given (6 * 0.03 / 100)) (given (100 * 0.03 / 100)) (given (6 * 0.03 / 100)) ltac:(discriminate)
    n (a1, b1) (a2, b2) sh (csd_arrays d) F J2 J1 (sampled_fits r fuel Uok label Lab g x g1 _ _ _ _ _ _ _ Es Ed Hr)).
Qed.
Lemma range_fine a1 b1 a2 b2 : in_range (a1, a2) -> in_range (b1, b2) ->
  a1 <= -0.06 /\ b1 <= -0.06 /\ a2 <= -0.06 /\ b2 <= -0.06 /\ Rabs (b1 - a1) <= 0.155 /\ Rabs (b2 - a2) <= 0.155.
Proof. intros [A1 A2] [B1 B2]. cbn [fst snd] in *. repeat split; try lra; apply Rabs_le; lra. Qed.
Definition fits_request a1 b1 a2 b2 res sh : Prop :=
  match sh with
  | Shape1 n => res_list res = [Z.of_nat n] /\ (7 <= n)%nat /\ (a1 <> b1 \/ a2 <> b2)
  | Shape2 ny nx => res = ResArray [Z.of_nat nx; Z.of_nat ny] /\ a1 <> b1 /\ a2 <> b2 /\ (2 <= nx)%nat /\ (2 <= ny)%nat /\
      Rabs (b1 - a1) <= 0.0119 * INR (nx - 1) /\ Rabs (b2 - a2) <= 0.0119 * INR (ny - 1)
  end.
Lemma request_facts a1 b1 a2 b2 res sh : in_range (a1, a2) -> in_range (b1, b2) -> fits_request a1 b1 a2 b2 res sh ->
  well_formed_request [a1; b1] [a2; b2] (res_list res) /\ requested res sh /\ fine (a1, b1) (a2, b2) sh /\
  (exists d, ideal_of label x a1 b1 a2 b2 res = Ok d) /\ (exists k, rtn_px_per_volt sh (a1, b1) (a2, b2) = Ok k /\ 45 <= k).
Proof.
  intros Ha Hb Hr. destruct (range_fine _ _ _ _ Ha Hb) as (A1 & B1 & A2 & B2 & P1 & P2). destruct sampled_fields as ((fuel & g & g1 & Es) & _).
  destruct sh as [n|ny nx]; cbn [fits_request] in Hr.
  - destruct Hr as (Hr & Hn & D). split; [exact (request_1d _ _ _ _ _ _ Hr)|]. split; [exact Hr|].
    split; [unfold ProofsSuccess.fine; cbn [fst snd]; repeat split; auto; lia|]. split; [exact (sampled_1d r fuel Uok label Lab g x g1 _ _ _ _ _ _ Es Hr)|].
    apply rtn_1d; auto.
  - destruct Hr as (-> & D1 & D2 & Nx & Ny & Q1 & Q2).
    assert (F : fine (a1, b1) (a2, b2) (Shape2 ny nx)) by (unfold ProofsSuccess.fine; cbn [fst snd]; auto 12).
    split. { exists a1, b1, a2, b2. split; [reflexivity|]. split; [reflexivity|]. split; [simpl; lia|]. intros _. split; [auto|]. split; [auto|]. repeat constructor; lia. }
    split; [reflexivity|]. split; [exact F|]. split; [|exact (rtn_fine _ _ _ _ _ _ F)].
    destruct (sampled_scan_ok r fuel Uok label Lab g x g1 a1 b1 a2 b2 nx ny Es A1 B1 A2 B2 D1 D2 Nx Ny Q1 Q2) as (occ & lead & E). eauto.
Qed.

Lemma sampled_generic_ok s a1 b1 a2 b2 u1 u2 res sh n : sc_sensor c = SampledGeneric s -> in_range (a1, a2) -> in_range (b1, b2) -> sensor_volt u1 -> sensor_volt u2 ->
  fits_request a1 b1 a2 b2 res sh ->
  (jumps_g2 src draw (w_rng n) = true -> a2 <> b2) -> (a1 = b1 -> forall g, fst (src_binomial src (0.01 / 6) g) = false) ->
  returned (measure (sampled_generic src label draw kernel radius x c s) [a1; b1] [a2; b2] (Some u1) (Some u2) res n) sh.
Proof.
  intros Hs Ha Hb U1 U2 Hr J2 J1. destruct (request_facts _ _ _ _ _ _ Ha Hb Hr) as (Wf & Rq & F & (d & Ed) & K).
  destruct (sampled_loop _ _ _ _ _ _ d n Ed Rq F J2 J1) as (ol & n1 & Eo & Ft).
  exact (proj1 (both_outcomes a1 b1 a2 b2 u1 u2 res sh d (Ok ol) Wf Ha Hb U1 U2 Ed F K ltac:(intros ? [= <-]; exact Ft)) s n Hs (ex_intro _ n1 Eo)).
Qed.
Lemma sampled_scan_csd s a1 b1 a2 b2 u1 u2 res sh w : ss_deform s = [] -> in_range (a1, a2) -> in_range (b1, b2) -> sensor_volt u1 -> sensor_volt u2 ->
  fits_request a1 b1 a2 b2 res sh ->
  (jumps_g2 src draw (w_rng (fst w)) = true -> a2 <> b2) -> (a1 = b1 -> forall g, fst (src_binomial src (0.01 / 6) g) = false) ->
  returned_csd (measure (sampled_scan src label draw kernel radius x c s) [a1; b1] [a2; b2] (Some u1) (Some u2) res w) sh.
Proof.
  intros Hs Ha Hb U1 U2 Hr J2 J1. destruct (request_facts _ _ _ _ _ _ Ha Hb Hr) as (Wf & Rq & F & (d & Ed) & K).
  destruct (sampled_loop _ _ _ _ _ _ d (fst w) Ed Rq F J2 J1) as (ol & n1 & Eo & Ft).
  exact (proj2 (both_outcomes a1 b1 a2 b2 u1 u2 res sh d (Ok ol) Wf Ha Hb U1 U2 Ed F K ltac:(intros ? [= <-]; exact Ft)) s w Hs (ex_intro _ n1 Eo)).
Qed.

(** ** Lines along one gate *)
Lemma loop_g1_fails a1 b1 v2 res k d n : ideal_of label x a1 b1 v2 v2 res = Ok d -> requested res (Shape1 k) -> fine (a1, b1) (v2, v2) (Shape1 k) ->
  jumps_g2 src draw (w_rng n) = true ->
  exists n1, occupation_loop (map (occ_object src) sampled_occs) (get_csd_data label x) (a1, b1) (v2, v2) (csd_arrays d) n = (Err ValueError, n1).
Proof.
  intros Ed Hr F J. destruct sampled_fields as ((fuel & g & g1 & Es) & _).
  pose proof (sampled_fits r fuel Uok label Lab g x g1 _ _ _ _ _ _ _ Es Ed Hr) as Ft.
  destruct (blur_fine _ _ _ _ _ _ F) as [q Q].
  destruct (blur_success src 0 sigma kernel radius (csd_arrays d) (Shape1 k) (a1, b1) (v2, v2) (get_csd_data label x) false n q Ft Q ltac:(discriminate)) as (ol1 & sg & g3 & E1 & Ft1 & _ & G1).
  specialize (G1 eq_refl). subst g3.
  eexists. unfold sampled_occs. cbn [map occupation_loop]. unfold mbind at 1. rewrite E1.
  unfold mbind at 1. cbn [fst snd]. erewrite jumps_fail; [reflexivity|exact Ft1|exact J|]. cbn [jump_px_per_volt Z.eqb]. apply zero_range. reflexivity.
Qed.
Lemma sampled_generic_fails s a1 b1 a2 b2 u1 u2 res k n : sc_sensor c = SampledGeneric s -> in_range (a1, a2) -> in_range (b1, b2) -> sensor_volt u1 -> sensor_volt u2 ->
  fits_request a1 b1 a2 b2 res (Shape1 k) ->
  jumps_g2 src draw (w_rng n) = true /\ a2 = b2 ->
  raised (measure (sampled_generic src label draw kernel radius x c s) [a1; b1] [a2; b2] (Some u1) (Some u2) res n) ValueError.
Proof.
  intros Hs Ha Hb U1 U2 Hr J. destruct (request_facts _ _ _ _ _ _ Ha Hb Hr) as (Wf & Rq & F & (d & Ed) & K).
  apply (proj1 (both_outcomes a1 b1 a2 b2 u1 u2 res (Shape1 k) d (Err ValueError) Wf Ha Hb U1 U2 Ed F K ltac:(discriminate)) s n Hs).
  destruct J as [J <-]. eapply loop_g1_fails; eauto.
Qed.
Lemma sampled_scan_fails s a1 b1 a2 b2 u1 u2 res k w : ss_deform s = [] -> in_range (a1, a2) -> in_range (b1, b2) -> sensor_volt u1 -> sensor_volt u2 ->
  fits_request a1 b1 a2 b2 res (Shape1 k) -> let n := fst w in
  jumps_g2 src draw (w_rng n) = true /\ a2 = b2 ->
  raised (measure (sampled_scan src label draw kernel radius x c s) [a1; b1] [a2; b2] (Some u1) (Some u2) res w) ValueError.
Proof.
  intros Hs Ha Hb U1 U2 Hr n J. destruct (request_facts _ _ _ _ _ _ Ha Hb Hr) as (Wf & Rq & F & (d & Ed) & K).
  apply (proj2 (both_outcomes a1 b1 a2 b2 u1 u2 res (Shape1 k) d (Err ValueError) Wf Ha Hb U1 U2 Ed F K ltac:(discriminate)) s w Hs). fold n.
  destruct J as [J <-]. eapply loop_g1_fails; eauto.
Qed.

(** ** Without sensor voltages *)
Lemma sampled_without s a1 b1 a2 b2 v2 res n : in_range (a1, a2) -> in_range (b1, b2) ->
  measure (sampled_generic src label draw kernel radius x c s) [a1; b1] [a2; b2] None v2 res n = (Err TypeError, n).
Proof.
  intros [A1 A2] [B1 B2]. cbn [fst snd] in *. rewrite generic_is. apply limited_without; cbn [sweep_within]; lra.
Qed.
Lemma sampled_scan_without s a1 b1 a2 b2 v2 res w : in_range (a1, a2) -> in_range (b1, b2) ->
  measure (sampled_scan src label draw kernel radius x c s) [a1; b1] [a2; b2] None v2 res w = (Err TypeError, w).
Proof.
  intros [A1 A2] [B1 B2]. cbn [fst snd] in *. rewrite scan_is. unfold measure, check_measure, noisy_scan_config.
  cbn [ideal_csd_config option_map volt_limits_g1 volt_limits_g2 volt_limits_sensor_g1 volt_limits_sensor_g2].
  rewrite !inside_limits by (cbn [sweep_within]; lra). reflexivity.
Qed.
End Sampled.
