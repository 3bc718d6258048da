(** Proofs about the default configuration GaAs_v2_extended_sensor with its distortions. *)
From Verif Require Import RPrelude Arr ModelSupport ModelTct ModelCsd ModelJumps ModelDistortions ModelSensor ModelSimulation ModelInstance
  ModelNoise ModelScanInstance ModelDefault ModelDefaultNoise ModelScanNoise SpecSupport SpecTct SpecCsd SpecSensor SpecSimulation SpecDistortions SpecInstance SpecNoise SpecDefaultNoise
  SpecScanInstance SpecScanNoise ProofsJumps ProofsCsd ProofsDriver ProofsScan ProofsDistortions ProofsSimulation ProofsInstance ProofsScanSensor ProofsLabelScan ProofsSensorMore ProofsNoise ProofsReplay ProofsSuccess ProofsDefault
  ProofsDefaultNoise ProofsScanInstance ProofsScanCsd ProofsScanNoise ProofsScanNoise2 ProofsScanNoise3.
Local Open Scope R_scope.

Lemma default_peaks_made : exists ps, mapM (fun mg : R * R => sensor_peak_lorentzian (fst mg) (snd mg) 0.09 0) default_peaks_v2 = Ok ps.
Proof.
  unfold default_peaks_v2. cbn [mapM fst snd]. unfold sensor_peak_lorentzian, raise_if.
  repeat (rewrite Rleb_false by lra; cbn [bind]). eexists. reflexivity.
Qed.
Lemma default_v2_made : exists s, default_sensor_v2 = Ok s.
Proof.
  unfold default_sensor_v2, barrier_glf, raise_if. rewrite !Rleb_false by (cbn [asymmetry default_barrier1 default_barrier2]; lra). cbn [bind].
  destruct default_peaks_made as [ps ->]. cbn [bind]. eexists. reflexivity.
Qed.
Lemma default_v2_parts s : default_sensor_v2 = Ok s -> ss_deform s = [] /\ exists ps, ss_peaks s = Some ps.
Proof.
  unfold default_sensor_v2, barrier_glf, raise_if. rewrite !Rleb_false by (cbn [asymmetry default_barrier1 default_barrier2]; lra). cbn [bind].
  destruct default_peaks_made as [ps ->]. cbn [bind set_alpha_sensor set_alpha]. intros E. injection E as <-. cbn [ss_deform ss_peaks]. eauto.
Qed.

Section V2.
Context {G : Type}.
Variable src : sources G.
Hypothesis Sok : sources_ok src.
Variable label : arr2 nat -> arr2 nat.
Hypothesis Lab : forall m, is_labelling m (label m).
Variables (kernel : R -> Z -> R) (radius : R -> nat) (pink white : param G).
Hypothesis Wpos : forall g, 0 <= fst (white g).
Variable s : scan_sensor.
Hypothesis Made : default_sensor_v2 = Ok s.
Notation cfg := (default_noisy_v2 src label kernel radius pink white s).
Notation fine := (fine (snd limits_g1) (snd limits_g2) 0.004).

(** ** Diagrams *)
Lemma v2_draws sh l1 l2 k : rtn_px_per_volt sh l1 l2 = Ok k -> 44.71 <= k ->
  (forall g, exists z0 z1 z2 g', drawn3_all src (default_potential pink) sh l1 l2 g = Ok (z0, z1, z2, g')).
Proof.
  intros Hk Hb. apply three_drawn. apply Forall_cons; [|apply Forall_cons; [|apply Forall_nil]]; intros g.
  - apply pink_drawn.
  - eapply telegraph_drawn; [exact Hk|]. intros g'. cbn [given fst]. lra.
Qed.
Lemma v2_response sh l1 l2 g : exists z g', drawn_all src [White white] sh l1 l2 g = Ok (z, g').
Proof. apply all_drawn. apply Forall_cons; [|apply Forall_nil]. intros g'. apply white_drawn, Wpos. Qed.
Lemma v2_csd a1 b1 a2 b2 u1 u2 res sh (w : scan_world G) d : well_formed_request [a1; b1] [a2; b2] (res_list res) ->
  sweep_within (Some limits_g1) a1 b1 -> sweep_within (Some limits_g2) a2 b2 -> sensor_within u1 -> sensor_within u2 ->
  requested res sh -> ideal_of label default_csd a1 b1 a2 b2 res = Ok d -> fine (a1, b1) (a2, b2) sh ->
  (exists k, rtn_px_per_volt sh (a1, b1) (a2, b2) = Ok k /\ 45 <= k) ->
  (fst (src_binomial src 0.01 (w_rng (fst w))) = true -> a2 <> b2) -> (a1 = b1 -> forall g, fst (src_binomial src (0.01 / 6) g) = false) ->
  returned_csd (measure cfg [a1; b1] [a2; b2] (Some u1) (Some u2) res w) sh.
Proof.
  intros Wf S1 S2 U1 U2 Hr Ed F (k & Hk & Hb) J2 J1.
  destruct (triple_success src Sok (snd limits_g1) (snd limits_g2) 0.004 (get_csd_data label default_csd) (default_served label Lab) 0 1 2 (given (0.75 * 0.03 / 100)) kernel radius
    0.01 (0.01 / 6) (given (100 * 0.03 / 100)) (given (6 * 0.03 / 100)) (given (100 * 0.03 / 100)) (given (6 * 0.03 / 100)) ltac:(discriminate)
    (fst w) (a1, b1) (a2, b2) sh (csd_arrays d) F J2 J1 (ideal_fits label Lab _ _ _ _ _ _ _ Ed Hr)) as (ol & w1 & Eo & Ft).
  assert (Sz : shape_size sh <> 0%nat). { destruct F as (_ & _ & _ & _ & Sh). destruct sh; cbn [shape_size]; [lia|]. nia. }
  pose proof (noisy_csd_outcome src Sok label (Some limits_g1) (Some limits_g2) (Some limits_sensor) (Some limits_sensor) default_csd s (default_occupation kernel radius)
    (default_potential pink) [White white] a1 b1 a2 b2 (Some u1) (Some u2) res w d (Ok ol) w1 sh (or_introl (proj1 (default_v2_parts s Made))) Wf S1 S2 U1 U2) as O.
  cbv zeta in O. specialize (O ltac:(split; discriminate) Ed Eo ltac:(intros ol' [= <-]; exact Ft) Sz). cbv iota in O.
  destruct (v2_draws sh (a1, b1) (a2, b2) k Hk ltac:(lra) (w_rng w1)) as (z0 & z1 & z2 & g & D). rewrite D in O.
  destruct (v2_response sh (a1, b1) (a2, b2) g) as (z & g' & D'). rewrite D' in O. exact O.
Qed.
Lemma v2_csd_2d a1 b1 a2 b2 u1 u2 nx ny w : a1 <> b1 -> a2 <> b2 -> (2 <= nx)%nat -> (2 <= ny)%nat ->
  sweep_within (Some limits_g1) a1 b1 -> sweep_within (Some limits_g2) a2 b2 -> sensor_within u1 -> sensor_within u2 ->
  Rabs (b1 - a1) <= 0.004 * INR (nx - 1) -> Rabs (b2 - a2) <= 0.004 * INR (ny - 1) ->
  returned_csd (measure cfg [a1; b1] [a2; b2] (Some u1) (Some u2) (ResArray [Z.of_nat nx; Z.of_nat ny]) w) (Shape2 ny nx).
Proof.
  intros N1 N2 Hx Hy S1 S2 U1 U2 P1 P2. destruct (sweep_fine _ _ _ _ S1 S2) as (A1 & B1 & A2 & B2 & _).
  destruct (default_scan_ok label Lab a1 b1 a2 b2 nx ny N1 N2 Hx Hy A1 B1 A2 B2 P1 P2) as (occ & lead & E).
  assert (F : fine (a1, b1) (a2, b2) (Shape2 ny nx)) by (unfold ProofsSuccess.fine; cbn [fst snd]; auto 12).
  eapply v2_csd; eauto.
  - exists a1, b1, a2, b2. split; [reflexivity|]. split; [reflexivity|]. split; [simpl; lia|]. intros _. split; [auto|]. split; [auto|]. repeat constructor; lia.
  - reflexivity.
  - exact (rtn_2d _ _ _ _ F).
  - contradiction.
Qed.
Lemma v2_csd_both a1 b1 a2 b2 u1 u2 res n w : res_list res = [Z.of_nat n] -> (7 <= n)%nat -> a1 <> b1 -> a2 <> b2 ->
  sweep_within (Some limits_g1) a1 b1 -> sweep_within (Some limits_g2) a2 b2 -> sensor_within u1 -> sensor_within u2 ->
  returned_csd (measure cfg [a1; b1] [a2; b2] (Some u1) (Some u2) res w) (Shape1 n).
Proof.
  intros Hr Hn D1 D2 S1 S2 U1 U2. destruct (sweep_fine _ _ _ _ S1 S2) as (A1 & B1 & A2 & B2 & P1 & P2).
  destruct (default_1d label Lab a1 b1 a2 b2 res n Hr) as [d E].
  assert (F : fine (a1, b1) (a2, b2) (Shape1 n)) by (unfold ProofsSuccess.fine; cbn [fst snd]; repeat split; auto; lia).
  eapply v2_csd; eauto.
  - exact (request_1d _ _ _ _ _ _ Hr).
  - apply rtn_1d; auto.
  - contradiction.
Qed.

(** ** Sensor scans *)
Lemma v2_clean a1 b1 a2 b2 v1 v2 res : valid_scan cfg [a1; b1] [a2; b2] v1 v2 res -> scannable (Some default_csd) v1 v2 res ->
  exists m0 st', measure_sensor_scan (scan_config label (Some limits_g1) (Some limits_g2) (Some limits_sensor) (Some limits_sensor) (Some default_csd) s)
    [a1; b1] [a2; b2] v1 v2 res None = (Ok m0, st') /\ requested res (image_shape (sc_scan m0)).
Proof.
  intros V Sc. destruct (default_v2_parts s Made) as [Hd [ps Hps]].
  destruct (measured_outcome label (Some limits_g1) (Some limits_g2) (Some limits_sensor) (Some limits_sensor) (Some default_csd) s ps a1 b1 a2 b2 v1 v2 res None) as (m0 & st' & M).
  - destruct V. constructor; assumption.
  - exact Sc.
  - intros g [= <-]. apply default_config, Lab.
  - exact Hps.
  - left. exact Hd.
  - exists m0, st'. split; [exact M|].
    destruct (scan_inv _ _ _ _ _ _ _ _ _ _ _ _ _ _ _ M) as (l1 & l2 & o & occ & p & h & h1 & ps' & h2 & E1 & E2 & Ho & Hc & Ep & El & Er & _).
    destruct (scan_cell s res o occ v1 v2 l1 l2 p h Hc Ep) as [Rs _].
    destruct (scan_potential_pot _ _ _ _ _ _ _ _ Ep) as (Eh & Hn & (o0 & Ho0) & _).
    assert (Hf : first_occ (h_occ h) = Ok o0) by (rewrite Eh; exact Ho0).
    destruct (labels_hidden _ _ _ _ _ _ _ _ _ _ Hn Hf El) as (Ho2 & _ & _).
    destruct (response_any s h1 p o0 (or_introl Hd) Hn Ho2) as (off & im & h3 & E3 & C & _). rewrite E3 in Er. injection Er as <- _ _.
    rewrite (combined_shape _ _ _ _ C). destruct p as [a|a]; cbn [pot_shape requested]; [exact Rs|]. rewrite Rs. reflexivity.
Qed.
Lemma rtn_scan a1 b1 a2 b2 res sh : requested res sh -> (a1 <> b1 /\ a2 <> b2 \/ length (res_list res) = 1%nat) -> fine_scan a1 b1 a2 b2 res ->
  exists k, rtn_px_per_volt sh (a1, b1) (a2, b2) = Ok k /\ 44.71 <= k.
Proof.
  intros Hr Hd F. unfold fine_scan in F. destruct sh as [n|r c]; cbn [requested] in Hr; rewrite Hr in *.
  - destruct F as (D & P1 & P2). cbn [rtn_px_per_volt]. rewrite !range_abs. cbn [fst snd]. rewrite <- INR_IZR_INZ in P1, P2.
    set (x := Rabs (b1 - a1)) in *. set (y := Rabs (b2 - a2)) in *.
    assert (M : 0 < Rmax x y).
    { destruct D as [D|D]; [apply Rlt_le_trans with x; [apply Rabs_pos_lt; lra|apply Rmax_l]|apply Rlt_le_trans with y; [apply Rabs_pos_lt; lra|apply Rmax_r]]. }
    rewrite Reqb_false by lra. eexists. split; [reflexivity|].
    assert (U : Rmax x y <= 0.022 * INR n) by (apply Rmax_lub; assumption).
    apply Rmult_le_reg_r with (Rmax x y); [lra|]. replace (INR n / Rmax x y * Rmax x y) with (INR n) by (field; lra). lra.
  - destruct F as [P1 P2]. rewrite <- INR_IZR_INZ in P1, P2. destruct Hd as [[D1 D2]|Hd]; [|discriminate]. cbn [rtn_px_per_volt].
    destruct (fixed_gate_dec (a1, b1)) as [[_ F1]|[-> _]]; [contradiction|]. destruct (fixed_gate_dec (a2, b2)) as [[_ F2]|[-> _]]; [contradiction|].
    rewrite !div_range_ok by auto. cbn [bind fst snd]. eexists. split; [reflexivity|].
    assert (R1 : 0 < Rabs (b1 - a1)) by (apply Rabs_pos_lt; lra). assert (R2 : 0 < Rabs (b2 - a2)) by (apply Rabs_pos_lt; lra).
    set (x := Rabs (b1 - a1)) in *. set (y := Rabs (b2 - a2)) in *.
    destruct (Rle_or_lt x y) as [L|L].
    + apply Rle_trans with (INR r / x); [|apply Rmax_l]. apply Rmult_le_reg_r with x; [lra|]. replace (INR r / x * x) with (INR r) by (field; lra). lra.
    + apply Rle_trans with (INR c / y); [|apply Rmax_r]. apply Rmult_le_reg_r with y; [lra|]. replace (INR c / y * y) with (INR c) by (field; lra). lra.
Qed.

Lemma v2_scan a1 b1 a2 b2 v1 v2 res sh (w : scan_world G) : valid_scan cfg [a1; b1] [a2; b2] v1 v2 res -> scannable (Some default_csd) v1 v2 res ->
  requested res sh -> fine_scan a1 b1 a2 b2 res ->
  returned_scan (measure_sensor_scan cfg [a1; b1] [a2; b2] v1 v2 res w) sh.
Proof.
  intros V Sc Hr F. destruct (v2_clean a1 b1 a2 b2 v1 v2 res V Sc) as (m0 & st' & M & Hr0).
  pose proof (noisy_scan_outcome src Sok label (Some limits_g1) (Some limits_g2) (Some limits_sensor) (Some limits_sensor) (Some default_csd) s
    (default_occupation kernel radius) (default_potential pink) [White white] a1 b1 a2 b2 v1 v2 res None m0 st' w (proj1 (default_v2_parts s Made)) M) as O.
  cbv zeta in O. rewrite (requested_unique _ _ _ Hr0 Hr) in O.
  destruct (rtn_scan a1 b1 a2 b2 res sh Hr) as (k & Hk & Hb); [|exact F|].
  { destruct res as [n|[|n [|n' [|]]]]; try (right; reflexivity); try (unfold fine_scan in F; cbn [res_list] in F; contradiction).
    left. destruct (vs_2d _ _ _ _ _ _ V n n' eq_refl) as (N1 & N2 & _). split; intros ->; [inversion N1 as [|? ? X]|inversion N2 as [|? ? X]]; apply X; left; reflexivity. }
  destruct (v2_draws sh (a1, b1) (a2, b2) k Hk Hb (w_rng (fst w))) as (z0 & z1 & z2 & g & D). rewrite D in O.
  destruct (v2_response sh (a1, b1) (a1, b1) g) as (z & g' & D'). rewrite D' in O. exact O.
Qed.

(** coarse scans *)
Lemma telegraph_coarse sh l1 l2 k ratio std height g : rtn_px_per_volt sh l1 l2 = Ok k -> 0 < k <= 44.7 ->
  drawn src (Telegraph ratio (given (74.56704 * 0.03 / 100)) std height) sh l1 l2 g =
  (if fst (src_binomial src ratio g) then Err ValueError else Ok (repeat 0 (shape_size sh), snd (src_binomial src ratio g))).
Proof.
  intros Hk Hb. cbn [drawn]. destruct (src_binomial src ratio g) as [act g1]. cbn [fst snd]. destruct act; cbn [negb]; [|reflexivity].
  cbn [given]. rewrite Hk. cbn [bind]. destruct (std g1) as [sd g3]. destruct (height g3) as [h g4].
  rewrite Reqb_false by lra. rewrite Rltb_true by lra. reflexivity.
Qed.
Lemma telegraph3_coarse sh l1 l2 k ratio std height g : rtn_px_per_volt sh l1 l2 = Ok k -> 0 < k <= 44.7 ->
  if one_of_three src ratio g then drawn3 src (Telegraph ratio (given (74.56704 * 0.03 / 100)) std height) sh l1 l2 g = Err ValueError
  else exists z0 z1 z2 g', drawn3 src (Telegraph ratio (given (74.56704 * 0.03 / 100)) std height) sh l1 l2 g = Ok (z0, z1, z2, g').
Proof.
  intros Hk Hb. unfold drawn3, one_of_three. rewrite (telegraph_coarse sh l1 l2 k ratio std height g Hk Hb).
  destruct (src_binomial src ratio g) as [b0 g0]. cbn [fst snd]. destruct b0.
  { destruct (src_binomial src ratio g0) as [b1 g1]. destruct (src_binomial src ratio g1) as [b2 g2]. reflexivity. }
  cbn [bind snd fst]. rewrite (telegraph_coarse sh l1 l2 k ratio std height g0 Hk Hb). destruct (src_binomial src ratio g0) as [b1 g1]. cbn [fst snd]. destruct b1.
  { destruct (src_binomial src ratio g1) as [b2 g2]. reflexivity. }
  cbn [bind snd fst]. rewrite (telegraph_coarse sh l1 l2 k ratio std height g1 Hk Hb). destruct (src_binomial src ratio g1) as [b2 g2]. cbn [fst snd orb]. destruct b2; [reflexivity|].
  cbn [bind snd fst]. eauto 6.
Qed.
Lemma pink3 sh l1 l2 g : exists z0 z1 z2, drawn3 src (Pink pink 0) sh l1 l2 g = Ok (z0, z1, z2, after_pink3 src pink (shape_size sh) g).
Proof.
  assert (P : forall g, exists z, drawn src (Pink pink 0) sh l1 l2 g = Ok (z, after_pink src pink (shape_size sh) g)).
  { intros g'. cbn [drawn]. unfold after_pink. destruct (pink g') as [sg g1]. cbn [snd]. destruct (src_powerlaw src (shape_size sh) 0 g1) as [z g2]. eauto. }
  unfold drawn3, after_pink3. destruct (P g) as [z0 ->]. cbn [bind snd fst]. destruct (P (after_pink src pink (shape_size sh) g)) as [z1 ->]. cbn [bind snd fst].
  destruct (P (after_pink src pink (shape_size sh) (after_pink src pink (shape_size sh) g))) as [z2 ->]. cbn [bind snd fst]. eauto.
Qed.
Lemma v2_coarse a1 b1 a2 b2 v1 v2 nx ny (w : scan_world G) : let res := ResArray [Z.of_nat nx; Z.of_nat ny] in
  valid_scan cfg [a1; b1] [a2; b2] v1 v2 res -> coarse_scan a1 b1 a2 b2 nx ny ->
  let r := measure_sensor_scan cfg [a1; b1] [a2; b2] v1 v2 res w in
  if one_of_three src (1 / 6) (after_pink3 src pink (ny * nx) (w_rng (fst w))) then raised r ValueError else returned_scan r (Shape2 ny nx).
Proof.
  intros res V (D1 & D2 & Nx & Ny & P1 & P2) r.
  assert (Sc : scannable (Some default_csd) v1 v2 res).
  { split; [|reflexivity]. cbn [res res_list]. apply Forall_cons; [lia|]. apply Forall_cons; [lia|]. apply Forall_nil. }
  destruct (v2_clean a1 b1 a2 b2 v1 v2 res V Sc) as (m0 & st' & M & Hr0).
  assert (Hr : requested res (Shape2 ny nx)) by reflexivity.
  pose proof (noisy_scan_outcome src Sok label (Some limits_g1) (Some limits_g2) (Some limits_sensor) (Some limits_sensor) (Some default_csd) s
    (default_occupation kernel radius) (default_potential pink) [White white] a1 b1 a2 b2 v1 v2 res None m0 st' w (proj1 (default_v2_parts s Made)) M) as O.
  cbv zeta in O. rewrite (requested_unique _ _ _ Hr0 Hr) in O.
  assert (K : exists k, rtn_px_per_volt (Shape2 ny nx) (a1, b1) (a2, b2) = Ok k /\ 0 < k <= 44.7).
  { cbn [rtn_px_per_volt].
    destruct (fixed_gate_dec (a1, b1)) as [[_ F1]|[-> _]]; [contradiction|]. destruct (fixed_gate_dec (a2, b2)) as [[_ F2]|[-> _]]; [contradiction|].
    rewrite !div_range_ok by auto. cbn [bind fst snd]. eexists. split; [reflexivity|].
    assert (R1 : 0 < Rabs (b1 - a1)) by (apply Rabs_pos_lt; lra). assert (R2 : 0 < Rabs (b2 - a2)) by (apply Rabs_pos_lt; lra).
    assert (Q : forall n x, 0 < x -> INR n <= 44.7 * x -> INR n / x <= 44.7).
    { intros n x Hx Hn. apply Rmult_le_reg_r with x; [lra|]. replace (INR n / x * x) with (INR n) by (field; lra). exact Hn. }
    split; [|apply Rmax_lub; apply Q; assumption].
    apply Rlt_le_trans with (INR ny / Rabs (b1 - a1)); [|apply Rmax_l]. apply Rdiv_lt_0_compat; [|exact R1]. apply lt_0_INR. lia. }
  destruct K as (k & Hk & Hb).
  destruct (pink3 (Shape2 ny nx) (a1, b1) (a2, b2) (w_rng (fst w))) as (p0 & p1 & p2 & Ep).
  cbn [default_potential drawn3_all] in O. rewrite Ep in O. cbn [bind] in O.
  pose proof (telegraph3_coarse (Shape2 ny nx) (a1, b1) (a2, b2) k (1 / 6) (given 3.491734e-05) (given 2.53855325e-05)
    (after_pink3 src pink (shape_size (Shape2 ny nx)) (w_rng (fst w))) Hk Hb) as T.
  change (shape_size (Shape2 ny nx)) with (ny * nx)%nat in *.
  destruct (one_of_three src (1 / 6) (after_pink3 src pink (ny * nx) (w_rng (fst w)))).
  - rewrite T in O. cbn [bind] in O. exact O.
  - destruct T as (z0 & z1 & z2 & g & T). rewrite T in O. cbn [bind] in O.
    destruct (v2_response (Shape2 ny nx) (a1, b1) (a1, b1) g) as (z & g' & D'). rewrite D' in O. exact O.
Qed.
End V2.
