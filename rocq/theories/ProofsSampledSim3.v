(** Proofs about sensor scans of sampled configurations; the theorems as stated. *)
From Verif Require Import RPrelude Arr ModelSupport ModelTct ModelCsd ModelJumps ModelDistortions ModelSampling ModelSensor ModelSimulation ModelInstance
  ModelNoise ModelConfig ModelConfigCsd ModelScanInstance ModelDefault ModelDefaultNoise ModelScanNoise ModelSampledSim
  SpecSupport SpecTct SpecCsd SpecSensor SpecSampling SpecConfig SpecConfigCsd SpecSimulation SpecDistortions SpecInstance SpecNoise SpecDefaultNoise SpecScanInstance SpecScanNoise SpecSampledSim
  ProofsJumps ProofsDistortions ProofsCsd ProofsOcc ProofsRegions ProofsDriver ProofsScan ProofsSimulation ProofsInstance ProofsScanSensor ProofsLabelScan ProofsSensorMore ProofsNoise ProofsReplay ProofsSuccess ProofsDefault ProofsDefaultNoise
  ProofsScanInstance ProofsScanCsd ProofsScanNoise ProofsScanNoise2 ProofsScanNoise3 ProofsScanNoise4 ProofsConfig ProofsOrder ProofsCover ProofsConfigCsd ProofsSampledSim ProofsSampledSim2.
Local Open Scope R_scope.

Section Scans.
Context {G H : Type}.
Variable src : sources G.
Hypothesis Sok : sources_ok src.
Variable label : arr2 nat -> arr2 nat.
Hypothesis Lab : forall m, is_labelling m (label m).
Variables (r : rng H) (choice : nat -> nat -> H -> nat * H).
Hypothesis Uok : uniform_ok r.
Hypothesis Cok : choice_ok choice.
Variable draw : sampler_args -> R * R -> param G.
Hypothesis Dok : drawn_within draw.
Variables (kernel : R -> Z -> R) (radius : R -> nat).
Variables (x : geometric) (c : sampled_config).
Hypothesis Smp : sampled r choice label x c.
Variables (p : scan_sample) (s : scan_sensor).
Hypothesis Made : sensor_of p = Ok s.
Notation cfg := (sampled_scan src label draw kernel radius x c s).

Lemma sampled_clean a1 b1 a2 b2 v1 v2 res : valid_scan cfg [a1; b1] [a2; b2] v1 v2 res -> scannable (Some x) v1 v2 res ->
  exists m0 st', measure_sensor_scan (scan_config label (Some (-0.2, -0.06)) (Some (-0.2, -0.06)) (Some (-1, 0)) (Some (-1, 0)) (Some x) s)
    [a1; b1] [a2; b2] v1 v2 res None = (Ok m0, st') /\ requested res (image_shape (sc_scan m0)).
Proof.
  rewrite (scan_is src label r choice Uok Cok draw kernel radius x c Smp).
  intros V Sc. destruct (sensor_parts p s Made) as [Hd Hps].
  destruct (sampled_fields label r choice Uok Cok draw kernel radius x c Smp) as ((fuel & g & g1 & Es) & _).
  destruct (measured_outcome label (Some (-0.2, -0.06)) (Some (-0.2, -0.06)) (Some (-1, 0)) (Some (-1, 0)) (Some x) s (map ModelConfig.lorentz_peak (sp_peaks p)) a1 b1 a2 b2 v1 v2 res None) as (m0 & st' & M).
  - destruct V. constructor; assumption.
  - exact Sc.
  - intros g' [= <-]. exact (proj1 (sampled_ordered r fuel Uok label Lab _ _ _ Es)).
  - exact Hps.
  - left. exact Hd.
  - exists m0, st'. split; [exact M|].
    destruct (scan_inv _ _ _ _ _ _ _ _ _ _ _ _ _ _ _ M) as (l1 & l2 & o & occ & pp & h & h1 & ps' & h2 & E1 & E2 & Ho & Hc & Ep & El & Er & _).
    destruct (scan_cell s res o occ v1 v2 l1 l2 pp h Hc Ep) as [Rs _].
    destruct (scan_potential_pot _ _ _ _ _ _ _ _ Ep) as (Eh & Hn & (o0 & Ho0) & _).
    assert (Hf : first_occ (h_occ h) = Ok o0) by (rewrite Eh; exact Ho0).
    destruct (labels_hidden _ _ _ _ _ _ _ _ _ _ Hn Hf El) as (Ho2 & _ & _).
    destruct (response_any s h1 pp o0 (or_introl Hd) Hn Ho2) as (off & im & h3 & E3 & C & _). rewrite E3 in Er. injection Er as <- _ _.
    rewrite (combined_shape _ _ _ _ C). destruct pp as [a|a]; cbn [pot_shape requested]; [exact Rs|]. rewrite Rs. reflexivity.
Qed.
Lemma swept_or_line a1 b1 a2 b2 v1 v2 res : valid_scan cfg [a1; b1] [a2; b2] v1 v2 res -> fine_scan a1 b1 a2 b2 res ->
  a1 <> b1 /\ a2 <> b2 \/ length (res_list res) = 1%nat.
Proof.
  intros V F. destruct res as [n|[|n [|n' [|]]]]; try (right; reflexivity); try (unfold fine_scan in F; cbn [res_list] in F; contradiction).
  left. destruct (vs_2d _ _ _ _ _ _ V n n' eq_refl) as (N1 & N2 & _). split; intros ->; [inversion N1 as [|? ? X]|inversion N2 as [|? ? X]]; apply X; left; reflexivity.
Qed.
Lemma response_px a1 b1 a2 b2 res sh : requested res sh -> a1 <> b1 -> fine_scan a1 b1 a2 b2 res ->
  exists k, rtn_px_per_volt sh (a1, b1) (a1, b1) = Ok k /\ 44.71 <= k.
Proof.
  intros Hr D F. unfold fine_scan in F. assert (R1 : 0 < Rabs (b1 - a1)) by (apply Rabs_pos_lt; lra). destruct sh as [n|rr cc]; cbn [requested] in Hr; rewrite Hr in F.
  - destruct F as (_ & P1 & _). rewrite <- INR_IZR_INZ in P1. cbn [rtn_px_per_volt]. rewrite !range_abs. cbn [fst snd]. rewrite Rmax_left by lra.
    rewrite Reqb_false by lra. eexists. split; [reflexivity|].
    apply Rmult_le_reg_r with (Rabs (b1 - a1)); [lra|]. replace (INR n / Rabs (b1 - a1) * Rabs (b1 - a1)) with (INR n) by (field; lra). lra.
  - destruct F as [P1 _]. rewrite <- INR_IZR_INZ in P1. cbn [rtn_px_per_volt].
    destruct (fixed_gate_dec (a1, b1)) as [[_ F1]|[-> _]]; [contradiction|].
    rewrite !div_range_ok by auto. cbn [bind fst snd]. eexists. split; [reflexivity|].
    apply Rle_trans with (INR cc / Rabs (b1 - a1)); [|apply Rmax_r].
    apply Rmult_le_reg_r with (Rabs (b1 - a1)); [lra|]. replace (INR cc / Rabs (b1 - a1) * Rabs (b1 - a1)) with (INR cc) by (field; lra). lra.
Qed.

Lemma scan_outcome a1 b1 a2 b2 v1 v2 res sh w : valid_scan cfg [a1; b1] [a2; b2] v1 v2 res -> scannable (Some x) v1 v2 res ->
  requested res sh -> fine_scan a1 b1 a2 b2 res ->
  let m := measure_sensor_scan cfg [a1; b1] [a2; b2] v1 v2 res w in
  exists g, match drawn_all src (sampled_resps draw) sh (a1, b1) (a1, b1) g with Err e => raised m e | Ok _ => returned_scan m sh end.
Proof.
  intros V Sc Hr F m. destruct (sampled_clean a1 b1 a2 b2 v1 v2 res V Sc) as (m0 & st' & M & Hr0).
  pose proof (noisy_scan_outcome src Sok label (Some (-0.2, -0.06)) (Some (-0.2, -0.06)) (Some (-1, 0)) (Some (-1, 0)) (Some x) s
    (sampled_occs draw kernel radius) (sampled_pots draw) (sampled_resps draw) a1 b1 a2 b2 v1 v2 res None m0 st' w (proj1 (sensor_parts p s Made)) M) as O.
  cbv zeta in O. rewrite (requested_unique _ _ _ Hr0 Hr) in O.
  destruct (rtn_scan a1 b1 a2 b2 res sh Hr (swept_or_line _ _ _ _ _ _ _ V F) F) as (k & Hk & Hb).
  destruct (three_drawn src _ _ _ _ (sampled_draws src draw sh (a1, b1) (a2, b2) k Hk Hb) (w_rng (fst w))) as (z0 & z1 & z2 & g & D). rewrite D in O.
  exists g. unfold m. rewrite (scan_is src label r choice Uok Cok draw kernel radius x c Smp). exact O.
Qed.
Lemma scan_gate1 a1 b1 a2 b2 v1 v2 res sh w : valid_scan cfg [a1; b1] [a2; b2] v1 v2 res -> scannable (Some x) v1 v2 res ->
  requested res sh -> fine_scan a1 b1 a2 b2 res -> a1 <> b1 ->
  returned_scan (measure_sensor_scan cfg [a1; b1] [a2; b2] v1 v2 res w) sh.
Proof.
  intros V Sc Hr F D. destruct (scan_outcome a1 b1 a2 b2 v1 v2 res sh w V Sc Hr F) as (g & O).
  destruct (response_px a1 b1 a2 b2 res sh Hr D F) as (k & Hk & Hb).
  destruct (all_drawn src _ _ _ _ (response_draws src draw Dok sh (a1, b1) (a1, b1) k Hk ltac:(lra)) g) as (z & g' & E). rewrite E in O. exact O.
Qed.
Lemma scan_gate2 a a2 b2 v1 v2 res n w (b : bool) : valid_scan cfg [a; a] [a2; b2] v1 v2 res -> scannable (Some x) v1 v2 res ->
  requested res (Shape1 n) -> fine_scan a a a2 b2 res -> (forall g, fst (src_binomial src 0.01 g) = b) ->
  let m := measure_sensor_scan cfg [a; a] [a2; b2] v1 v2 res w in
  if b then raised m ValueError else returned_scan m (Shape1 n).
Proof.
  intros V Sc Hr F A m. destruct (scan_outcome a a a2 b2 v1 v2 res (Shape1 n) w V Sc Hr F) as (g & O).
  assert (Rm : 0.01 * 1 = 0.01) by lra.
  unfold sampled_resps in O. rewrite Rm in O. cbn [drawn_all drawn] in O. fold m in O. specialize (A g). destruct (src_binomial src 0.01 g) as [act g1]. cbn [fst] in A. subst act.
  destruct b; cbn [negb] in O.
  - cbn [given rtn_px_per_volt] in O. rewrite !range_abs in O. cbn [fst snd] in O.
    rewrite Rminus_diag_eq, Rabs_R0, Rmax_left in O by (try reflexivity; lra). rewrite Reqb_true in O by reflexivity. exact O.
  - cbn [bind fst snd] in O. pose proof (pink_positive draw Dok g1) as P.
    destruct (draw (AExponential (exponential_scale 1)) (1e-10, 0.0005) g1) as [sg g2]. cbn [fst] in P.
    rewrite Rltb_false in O by lra. destruct (src_standard src _ _) as [z g3]. cbn [bind fst snd] in O. exact O.
Qed.
End Scans.

(** ** Lines along one gate *)
Section Lines.
Context {G H : Type}.
Variable src : sources G.
Variables (label : arr2 nat -> arr2 nat) (r : rng H) (choice : nat -> nat -> H -> nat * H) (draw : sampler_args -> R * R -> param G).
Variables (kernel : R -> Z -> R) (radius : R -> nat) (x : geometric) (c : sampled_config).
Hypothesis Sok : sources_ok src.
Hypothesis Lab : forall m, is_labelling m (label m).
Hypothesis Uok : uniform_ok r.
Hypothesis Cok : choice_ok choice.
Hypothesis Dok : drawn_within draw.
Hypothesis Smp : sampled r choice label x c.

Lemma generic_line1 s a1 b1 v2 u1 u2 res n w : sc_sensor c = SampledGeneric s ->
  res_list res = [Z.of_nat n] -> (7 <= n)%nat -> a1 <> b1 -> in_range (a1, v2) -> in_range (b1, v2) -> sensor_volt u1 -> sensor_volt u2 ->
  let m := measure (sampled_generic src label draw kernel radius x c s) [a1; b1] [v2; v2] (Some u1) (Some u2) res w in
  if jumps_g2 src draw (w_rng w) then raised m ValueError else returned m (Shape1 n).
Proof.
  intros Hs Hr Hn D Ha Hb U1 U2 m. assert (F : fits_request a1 b1 v2 v2 res (Shape1 n)) by (repeat split; auto). destruct (jumps_g2 src draw (w_rng w)) eqn:J.
  - exact (sampled_generic_fails src Sok label Lab r choice Uok Cok draw Dok kernel radius x c Smp s a1 b1 v2 v2 u1 u2 res n w Hs Ha Hb U1 U2 F (conj J eq_refl)).
  - apply (sampled_generic_ok src Sok label Lab r choice Uok Cok draw Dok kernel radius x c Smp s a1 b1 v2 v2 u1 u2 res (Shape1 n) w Hs Ha Hb U1 U2 F); [congruence|contradiction].
Qed.
Lemma scan_line1 s a1 b1 v2 u1 u2 res n w : ss_deform s = [] ->
  res_list res = [Z.of_nat n] -> (7 <= n)%nat -> a1 <> b1 -> in_range (a1, v2) -> in_range (b1, v2) -> sensor_volt u1 -> sensor_volt u2 ->
  let m := measure (sampled_scan src label draw kernel radius x c s) [a1; b1] [v2; v2] (Some u1) (Some u2) res w in
  if jumps_g2 src draw (w_rng (fst w)) then raised m ValueError else returned_csd m (Shape1 n).
Proof.
  intros Hs Hr Hn D Ha Hb U1 U2 m. assert (F : fits_request a1 b1 v2 v2 res (Shape1 n)) by (repeat split; auto). destruct (jumps_g2 src draw (w_rng (fst w))) eqn:J.
  - exact (sampled_scan_fails src Sok label Lab r choice Uok Cok draw Dok kernel radius x c Smp s a1 b1 v2 v2 u1 u2 res n w Hs Ha Hb U1 U2 F (conj J eq_refl)).
  - apply (sampled_scan_csd src Sok label Lab r choice Uok Cok draw Dok kernel radius x c Smp s a1 b1 v2 v2 u1 u2 res (Shape1 n) w Hs Ha Hb U1 U2 F); [congruence|contradiction].
Qed.
Lemma generic_2d s a1 b1 a2 b2 u1 u2 nx ny w : sc_sensor c = SampledGeneric s ->
  a1 <> b1 -> a2 <> b2 -> (2 <= nx)%nat -> (2 <= ny)%nat -> in_range (a1, a2) -> in_range (b1, b2) -> sensor_volt u1 -> sensor_volt u2 ->
  Rabs (b1 - a1) <= 0.0119 * INR (nx - 1) -> Rabs (b2 - a2) <= 0.0119 * INR (ny - 1) ->
  returned (measure (sampled_generic src label draw kernel radius x c s) [a1; b1] [a2; b2] (Some u1) (Some u2) (ResArray [Z.of_nat nx; Z.of_nat ny]) w) (Shape2 ny nx).
Proof.
  intros Hs D1 D2 N1 N2 Ha Hb U1 U2 P1 P2. assert (F : fits_request a1 b1 a2 b2 (ResArray [Z.of_nat nx; Z.of_nat ny]) (Shape2 ny nx)) by (repeat split; auto).
  apply (sampled_generic_ok src Sok label Lab r choice Uok Cok draw Dok kernel radius x c Smp s a1 b1 a2 b2 u1 u2 _ _ w Hs Ha Hb U1 U2 F); [auto|contradiction].
Qed.
Lemma generic_diagonal s a1 b1 a2 b2 u1 u2 res n w : sc_sensor c = SampledGeneric s ->
  res_list res = [Z.of_nat n] -> (7 <= n)%nat -> a1 <> b1 -> a2 <> b2 -> in_range (a1, a2) -> in_range (b1, b2) -> sensor_volt u1 -> sensor_volt u2 ->
  returned (measure (sampled_generic src label draw kernel radius x c s) [a1; b1] [a2; b2] (Some u1) (Some u2) res w) (Shape1 n).
Proof.
  intros Hs Hr Hn D1 D2 Ha Hb U1 U2. assert (F : fits_request a1 b1 a2 b2 res (Shape1 n)) by (repeat split; auto).
  apply (sampled_generic_ok src Sok label Lab r choice Uok Cok draw Dok kernel radius x c Smp s a1 b1 a2 b2 u1 u2 _ _ w Hs Ha Hb U1 U2 F); [auto|contradiction].
Qed.
Lemma scan_2d s a1 b1 a2 b2 u1 u2 nx ny w : ss_deform s = [] ->
  a1 <> b1 -> a2 <> b2 -> (2 <= nx)%nat -> (2 <= ny)%nat -> in_range (a1, a2) -> in_range (b1, b2) -> sensor_volt u1 -> sensor_volt u2 ->
  Rabs (b1 - a1) <= 0.0119 * INR (nx - 1) -> Rabs (b2 - a2) <= 0.0119 * INR (ny - 1) ->
  returned_csd (measure (sampled_scan src label draw kernel radius x c s) [a1; b1] [a2; b2] (Some u1) (Some u2) (ResArray [Z.of_nat nx; Z.of_nat ny]) w) (Shape2 ny nx).
Proof.
  intros Hs D1 D2 N1 N2 Ha Hb U1 U2 P1 P2. assert (F : fits_request a1 b1 a2 b2 (ResArray [Z.of_nat nx; Z.of_nat ny]) (Shape2 ny nx)) by (repeat split; auto).
  apply (sampled_scan_csd src Sok label Lab r choice Uok Cok draw Dok kernel radius x c Smp s a1 b1 a2 b2 u1 u2 _ _ w Hs Ha Hb U1 U2 F); [auto|contradiction].
Qed.
Lemma scan_diagonal s a1 b1 a2 b2 u1 u2 res n w : ss_deform s = [] ->
  res_list res = [Z.of_nat n] -> (7 <= n)%nat -> a1 <> b1 -> a2 <> b2 -> in_range (a1, a2) -> in_range (b1, b2) -> sensor_volt u1 -> sensor_volt u2 ->
  returned_csd (measure (sampled_scan src label draw kernel radius x c s) [a1; b1] [a2; b2] (Some u1) (Some u2) res w) (Shape1 n).
Proof.
  intros Hs Hr Hn D1 D2 Ha Hb U1 U2. assert (F : fits_request a1 b1 a2 b2 res (Shape1 n)) by (repeat split; auto).
  apply (sampled_scan_csd src Sok label Lab r choice Uok Cok draw Dok kernel radius x c Smp s a1 b1 a2 b2 u1 u2 _ _ w Hs Ha Hb U1 U2 F); [auto|contradiction].
Qed.
End Lines.
