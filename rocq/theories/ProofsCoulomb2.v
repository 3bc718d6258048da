(** Proofs about the Coulomb peaks labelled in sensor scans of the default configuration. *)
From Verif Require Import RPrelude Arr ModelSupport ModelTct ModelCsd ModelJumps ModelDistortions ModelSensor ModelSimulation ModelInstance
  ModelNoise ModelScanInstance ModelDefault ModelDefaultNoise ModelScanNoise SpecSupport SpecTct SpecCsd SpecSensor SpecSimulation SpecInstance SpecScanInstance SpecAreas SpecCoulomb ProofsSupport
  ProofsOcc ProofsSensor ProofsLabelScan ProofsInstance ProofsScanInstance ProofsDefault ProofsScanNoise4 ProofsAreas ProofsAreas2 ProofsCoulomb.
Local Open Scope R_scope.

Lemma exp_10616 : exp 10.616 <= 41100.
Proof.
  high 5.308 202.64235353. high 2.654 14.235250385. high 1.327 3.7729630775. high 0.6635 1.9424116653. high 0.33175 1.3937042962. high 0.165875 1.1805525385. high 0.0829375 1.0865323458. high 0.04146875 1.0423686228. high 0.020734375 1.0209645551. high 0.0103671875 1.0104279069. high 0.00518359375 1.0052004312. high 0.002591796875 1.0025968438. high 0.0012958984375 1.00129758.
  apply Rle_trans with (1 := exp_top 0.0012958984375 ltac:(lra)). apply Rmult_le_reg_r with (1 - 0.0012958984375); [lra|]. unfold Rdiv. rewrite Rmult_assoc, Rinv_l; lra.
Qed.
Lemma exp_120816 : exp 12.0816 <= 180000.
Proof.
  high 6.0408 423.99720149. high 3.0204 20.591192328. high 1.5102 4.5377519024. high 0.7551 2.1301999677. high 0.37755 1.4595204581. high 0.188775 1.2081061452. high 0.0943875 1.0991388198. high 0.04719375 1.0483982162. high 0.023596875 1.0239131878. high 0.0117984375 1.0118859559. high 0.00589921875 1.0059254226. high 0.002949609375 1.0029583354.
  apply Rle_trans with (1 := exp_top 0.002949609375 ltac:(lra)). apply Rmult_le_reg_r with (1 - 0.002949609375); [lra|]. unfold Rdiv. rewrite Rmult_assoc, Rinv_l; lra.
Qed.
Lemma exp_1072 : 43000 <= exp 10.72.
Proof.
  low 5.36 209.77186233. low 2.68 14.48350311. low 1.34 3.8057197888. low 0.67 1.9508254122. low 0.335 1.3967195181. low 0.1675 1.181828887. low 0.08375 1.0871195367. low 0.041875 1.0426502466. low 0.0209375 1.0211024663. low 0.01046875 1.0104961486. low 0.005234375 1.005234375.
  pose proof (exp_ge 0.005234375). lra.
Qed.
Lemma exp_1224 : 189000 <= exp 12.24.
Proof.
  low 6.12 438.65458866. low 3.06 20.944082426. low 1.53 4.5764705207. low 0.765 2.1392686883. low 0.3825 1.4626239053. low 0.19125 1.2093898897. low 0.095625 1.0997226422. low 0.0478125 1.0486766147. low 0.02390625 1.0240491271. low 0.011953125 1.011953125.
  pose proof (exp_ge 0.011953125). lra.
Qed.
Lemma exp_188 : exp 18.8 <= 270000000.
Proof.
  high 9.4 14427.950066. high 4.7 120.11640215. high 2.35 10.959762869. high 1.175 3.3105532571. high 0.5875 1.8194925823. high 0.29375 1.3488856817. high 0.146875 1.1614153786. high 0.0734375 1.0776898341. high 0.03671875 1.0381184104.
  apply Rle_trans with (1 := exp_top 0.03671875 ltac:(lra)). apply Rmult_le_reg_r with (1 - 0.03671875); [lra|]. unfold Rdiv. rewrite Rmult_assoc, Rinv_l; lra.
Qed.
Lemma exp_2016 : exp 20.16 <= 1180000000.
Proof.
  high 10.08 29255.362634. high 5.04 171.04199085. high 2.52 13.078302292. high 1.26 3.6163935476. high 0.63 1.9016817682. high 0.315 1.3790147817. high 0.1575 1.1743146008. high 0.07875 1.0836579722. high 0.039375 1.0409889395.
  apply Rle_trans with (1 := exp_top 0.039375 ltac:(lra)). apply Rmult_le_reg_r with (1 - 0.039375); [lra|]. unfold Rdiv. rewrite Rmult_assoc, Rinv_l; lra.
Qed.
Lemma exp_695 : 1000.5 <= exp 6.95.
Proof.
  low 3.475 31.920882796. low 1.7375 5.6498568828. low 0.86875 2.3769427597. low 0.434375 1.5417336864. low 0.2171875 1.2416656903. low 0.10859375 1.1143005386. low 0.054296875 1.0556043476. low 0.0271484375 1.0274260789. low 0.01357421875 1.0136202834. low 0.006787109375 1.0067871093.
  pose proof (exp_ge 0.006787109375). lra.
Qed.
Lemma exp_67 : exp 6.7 <= 950.
Proof.
  high 3.35 29.803270191. high 1.675 5.4592371436. high 0.8375 2.3365010472. high 0.41875 1.5285617577. high 0.209375 1.236350176. high 0.1046875 1.1119128455. high 0.05234375 1.0544727808. high 0.026171875 1.0268752508.
  apply Rle_trans with (1 := exp_top 0.026171875 ltac:(lra)). apply Rmult_le_reg_r with (1 - 0.026171875); [lra|]. unfold Rdiv. rewrite Rmult_assoc, Rinv_l; lra.
Qed.

(** ** The barriers *)
Lemma first_shut : glf default_barrier1 (-0.6473) < 0.0003.
Proof.
  apply Rle_lt_trans with (asymptote_right default_barrier1 * exp (Ropp 6.95)).
  - assert (E : growth_rate default_barrier1 * (-0.6473 - offset default_barrier1) = 10.616) by (cbn; lra).
    apply (glf_under default_barrier1 _ 41100); [reflexivity|reflexivity|cbn; lra|cbn; lra|cbn; lra|rewrite E; exact exp_10616|cbn; lra|lra].
  - cbn [asymptote_right default_barrier1]. pose proof exp_695 as X. rewrite exp_Ropp.
    assert (/ exp 6.95 <= / 1000.5) by (apply Rinv_le_contravar; lra). lra.
Qed.
Lemma second_shut : glf default_barrier2 (-0.7122) < 0.0003.
Proof.
  apply Rle_lt_trans with (asymptote_right default_barrier2 * exp (Ropp 6.95)).
  - assert (E : growth_rate default_barrier2 * (-0.7122 - offset default_barrier2) = 12.0816) by (cbn; lra).
    apply (glf_under default_barrier2 _ 180000); [reflexivity|reflexivity|cbn; lra|cbn; lra|cbn; lra|rewrite E; exact exp_120816|cbn; lra|lra].
  - cbn [asymptote_right default_barrier2]. pose proof exp_695 as X. rewrite exp_Ropp.
    assert (/ exp 6.95 <= / 1000.5) by (apply Rinv_le_contravar; lra). lra.
Qed.
Lemma first_ajar : 0.0003 < glf default_barrier1 (-0.646).
Proof.
  apply Rlt_le_trans with (asymptote_right default_barrier1 * exp (Ropp 6.7)).
  - cbn [asymptote_right default_barrier1]. pose proof exp_67 as X. rewrite exp_Ropp. pose proof (exp_pos 6.7).
    assert (/ 950 <= / exp 6.7) by (apply Rinv_le_contravar; lra). lra.
  - assert (E : growth_rate default_barrier1 * (-0.646 - offset default_barrier1) = 10.72) by (cbn; lra).
    apply (glf_above default_barrier1 _ 43000); [reflexivity|reflexivity|cbn; lra|cbn; lra|cbn; lra|lra|rewrite E; exact exp_1072|cbn; lra].
Qed.
Lemma second_ajar : 0.0003 < glf default_barrier2 (-0.71).
Proof.
  apply Rlt_le_trans with (asymptote_right default_barrier2 * exp (Ropp 6.7)).
  - cbn [asymptote_right default_barrier2]. pose proof exp_67 as X. rewrite exp_Ropp. pose proof (exp_pos 6.7).
    assert (/ 950 <= / exp 6.7) by (apply Rinv_le_contravar; lra). lra.
  - assert (E : growth_rate default_barrier2 * (-0.71 - offset default_barrier2) = 12.24) by (cbn; lra).
    apply (glf_above default_barrier2 _ 189000); [reflexivity|reflexivity|cbn; lra|cbn; lra|cbn; lra|lra|rewrite E; exact exp_1224|cbn; lra].
Qed.
Lemma small_exp : exp (Ropp 0.00105) < 0.999.
Proof.
  rewrite exp_Ropp. pose proof (exp_ge 0.00105). assert (/ exp 0.00105 <= / 1.00105) by (apply Rinv_le_contravar; lra). lra.
Qed.
Lemma first_not_full : glf default_barrier1 (-0.545) < 0.999 * 0.3.
Proof.
  apply Rle_lt_trans with (asymptote_right default_barrier1 * exp (Ropp 0.00105)).
  - assert (E : growth_rate default_barrier1 * (-0.545 - offset default_barrier1) = 18.8) by (cbn; lra).
    apply (glf_under default_barrier1 _ 270000000); [reflexivity|reflexivity|cbn; lra|cbn; lra|cbn; lra|rewrite E; exact exp_188|cbn; lra|lra].
  - cbn [asymptote_right default_barrier1]. pose proof small_exp. lra.
Qed.
Lemma second_not_full : glf default_barrier2 (-0.6) < 0.999 * 0.3.
Proof.
  apply Rle_lt_trans with (asymptote_right default_barrier2 * exp (Ropp 0.00105)).
  - assert (E : growth_rate default_barrier2 * (-0.6 - offset default_barrier2) = 20.16) by (cbn; lra).
    apply (glf_under default_barrier2 _ 1180000000); [reflexivity|reflexivity|cbn; lra|cbn; lra|cbn; lra|rewrite E; exact exp_2016|cbn; lra|lra].
  - cbn [asymptote_right default_barrier2]. pose proof small_exp. lra.
Qed.
Lemma default_barriers s : default_sensor_v2 = Ok s ->
  -0.6473 <= pinch_off (ss_barrier1 s) < -0.646 /\ -0.545 <= fully_conductive (ss_barrier1 s) < -0.5 /\
  -0.7122 <= pinch_off (ss_barrier2 s) < -0.71 /\ -0.6 <= fully_conductive (ss_barrier2 s) < -0.5.
Proof.
  intros Made. destruct (default_conducting s Made) as ((B1 & B2 & _) & _).
  destruct (rising_value _ _ _ _ B1) as (_ & _ & P1 & F1). destruct (rising_value _ _ _ _ B2) as (_ & _ & P2 & F2).
  change (asymptote_right default_barrier1) with 0.3 in *. change (asymptote_right default_barrier2) with 0.3 in *.
  pose proof first_shut. pose proof second_shut. pose proof first_ajar. pose proof second_ajar. pose proof first_not_full. pose proof second_not_full.
  pose proof first_wide. pose proof second_wide.
  repeat split.
  - apply Rnot_lt_le. intros L. apply P1 in L. lra.
  - apply P1. lra.
  - apply Rnot_lt_le. intros L. apply F1 in L. lra.
  - apply F1. lra.
  - apply Rnot_lt_le. intros L. apply P2 in L. lra.
  - apply P2. lra.
  - apply Rnot_lt_le. intros L. apply F2 in L. lra.
  - apply F2. lra.
Qed.

(** ** The peaks *)
Lemma made_positions l ps : mapM (fun mg : R * R => sensor_peak_lorentzian (fst mg) (snd mg) 0.09 0) l = Ok ps -> map mu0 ps = map fst l.
Proof.
  revert ps. induction l as [|[m g] t IH]; intros ps H; cbn [mapM] in H.
  - injection H as <-. reflexivity.
  - unfold sensor_peak_lorentzian at 1, raise_if in H. cbn [fst snd] in H. destruct (Rleb g 0) eqn:E; [discriminate|]. cbn [bind] in H.
    destruct (mapM _ t) as [ps'|] eqn:Et; [|discriminate]. cbn [bind] in H. injection H as <-. cbn [map fst mu0]. f_equal. apply IH. reflexivity.
Qed.
Lemma default_positions s : default_sensor_v2 = Ok s -> exists ps, ss_peaks s = Some ps /\ length ps = 19%nat /\
  forall i pk, nth_error ps i = Some pk -> mu0 pk = -0.151 + 0.003 * INR i.
Proof.
  unfold default_sensor_v2.
  destruct (barrier_glf default_barrier1 0.001 0.999) as [b1|] eqn:B1; [|discriminate].
  destruct (barrier_glf default_barrier2 0.001 0.999) as [b2|] eqn:B2; [|discriminate]. cbn [bind].
  destruct (mapM _ default_peaks_v2) as [ps|] eqn:Ep; [|discriminate]. cbn [bind set_alpha_sensor set_alpha]. intros E. injection E as <-.
  apply made_positions in Ep. exists ps. split; [reflexivity|]. split; [rewrite <- (map_length mu0), Ep; reflexivity|].
  intros i pk Hi. pose proof (map_nth_error mu0 i ps Hi) as N. rewrite Ep in N.
  do 19 (destruct i as [|i]; [cbn in N; injection N as N; rewrite <- N, INR_IZR_INZ; cbn; lra|]). destruct i; discriminate.
Qed.

(** ** Scans without plunger voltages *)
Section Default.
Variable label : arr2 nat -> arr2 nat.

Lemma default_window lim1 lim2 lims1 lims2 x s a1 b1 a2 b2 res st m st' w y c k : default_sensor_v2 = Ok s ->
  measure_sensor_scan (scan_config label lim1 lim2 lims1 lims2 x s) [a1; b1] [a2; b2] None None res st = (Ok m, st') ->
  labelled_value (sc_scan m) (sc_labels m) (a1, b1) (a2, b2) w y c k ->
  exists q t, pot_spec s (0, 0) (0, 0) w q /\ area_of s t q c /\ -0.099 <= t /\ (is_open s q -> -0.11745 < at_sensor q) /\
    at_sensor q = 0.096754 * fst w + 0.1 * snd w /\ at_barrier1 q = 0.99 * fst w + 0.15 * snd w /\ at_barrier2 q = 0.15 * fst w + 0.99 * snd w.
Proof.
  intros Made M Hl. destruct (default_conducting s Made) as (C & _ & Es & Eo). pose proof C as (_ & _ & _ & Hr & Hd & _).
  destruct (default_barriers s Made) as (P1 & F1 & P2 & F2).
  destruct (pixel_label label _ _ _ _ _ _ _ _ _ _ _ _ _ _ _ _ _ _ _ _ _ Hd Hr M Hl) as (o & q & t & mf & Ho & Hq & A & _ & Eq).
  destruct (Eq eq_refl) as [_ Full]. assert (o = (0, 0)) by (destruct x; exact Ho). subst o. clear Ho Eq.
  destruct Full as (full & qf & Hf & Hqf & Et).
  { unfold points_exist, barrier_det. rewrite Es. cbn. split; [lra|]. split; [right; rewrite Rabs_pos_eq; lra|left; reflexivity]. }
  destruct (Hf qf Hqf) as [Q1 Q2]. destruct Hqf as (T0 & T1 & T2). rewrite Q1 in T1. rewrite Q2 in T2.
  exists q, t. split; [exact Hq|]. split; [exact A|]. destruct Hq as (S0 & S1 & S2).
  rewrite Es, Eo in *. unfold affine_scan, affine in *. cbn in T0, T1, T2, S0, S1, S2.
  split; [rewrite <- Et; lra|]. split; [intros [O1 O2]; lra|]. repeat split; lra.
Qed.

Lemma default_regions lim1 lim2 lims1 lims2 x s a1 b1 a2 b2 res st m st' w y c k : default_sensor_v2 = Ok s ->
  measure_sensor_scan (scan_config label lim1 lim2 lims1 lims2 x s) [a1; b1] [a2; b2] None None res st = (Ok m, st') ->
  labelled_value (sc_scan m) (sc_labels m) (a1, b1) (a2, b2) w y c k -> -1 <= fst w <= 0.4 -> -1 <= snd w <= 0.4 ->
  (fst w <= -0.72 \/ snd w <= -0.79 -> c = 0%nat /\ y < 0.0003) /\
  (-0.35 <= fst w -> -0.35 <= snd w -> c = 2%nat /\ 0.0598 < y).
Proof.
  intros Made M Hl W1 W2. destruct (default_window _ _ _ _ _ _ _ _ _ _ _ _ _ _ _ _ _ _ Made M Hl) as (q & t & Hq & (A0 & _) & _ & _ & E0 & E1 & E2).
  destruct (default_areas label _ _ _ _ _ _ _ _ _ _ _ _ _ _ _ _ _ _ _ _ Made M Hl) as (_ & Y0 & Y2).
  destruct (default_barriers s Made) as (P1 & F1 & P2 & F2). split.
  - intros Low. assert (c = 0%nat) by (apply A0; intros [O1 O2]; destruct Low; lra). split; [assumption|apply Y0; assumption].
  - intros L1 L2. apply (Y2 eq_refl eq_refl q Hq); lra.
Qed.

Lemma default_numbers lim1 lim2 lims1 lims2 x s a1 b1 a2 b2 res st m st' w y c k : default_sensor_v2 = Ok s ->
  measure_sensor_scan (scan_config label lim1 lim2 lims1 lims2 x s) [a1; b1] [a2; b2] None None res st = (Ok m, st') ->
  Rabs (row_step s (sc_scan m) (a1, b1) (a2, b2)) <= 0.0005 ->
  labelled_value (sc_scan m) (sc_labels m) (a1, b1) (a2, b2) w y c k -> k = 0%nat \/ (13 <= k <= 19)%nat.
Proof.
  intros Made M St Hl. destruct k as [|i]; [left; reflexivity|right].
  destruct (default_window _ _ _ _ _ _ _ _ _ _ _ _ _ _ _ _ _ _ Made M Hl) as (q & t & Hq & (A0 & A1 & A2) & _ & Op & _).
  destruct (default_positions s Made) as (ps & Hps & Len & Pos). destruct (default_v2_parts s Made) as [Hd _].
  destruct (label_near label _ _ _ _ _ _ _ _ _ _ _ _ _ _ _ _ _ _ _ _ _ Hd Hps M Hl) as (-> & o & q' & pk & Ho & Hq' & Hk & Near).
  assert (o = (0, 0)) by (destruct x; exact Ho). subst o.
  assert (O : is_open s q).
  { destruct (Rlt_dec (pinch_off (ss_barrier1 s)) (at_barrier1 q)) as [L1|L1]; [destruct (Rlt_dec (pinch_off (ss_barrier2 s)) (at_barrier2 q)) as [L2|L2]|];
    [split; assumption| |]; exfalso; assert (1%nat = 0%nat) by (apply A0; intros []; tauto); discriminate. }
  specialize (Op O). destruct Hq as (S0 & _), Hq' as (S0' & _). cbn [plunger] in S0'. rewrite <- S0 in S0'. rewrite S0' in Near.
  pose proof (Pos i pk Hk) as Pi. assert (Hi : (i < 19)%nat) by (rewrite <- Len; apply nth_error_Some; congruence).
  split; [|lia]. destruct (le_lt_dec 12 i) as [L|L]; [lia|exfalso]. apply le_INR in L. rewrite S_INR in L. change 12 with (INR 12) in *.
  assert (INR i <= 11) by (rewrite INR_IZR_INZ in *; cbn in L; lra). unfold Rabs in Near, St.
  destruct (Rcase_abs (at_sensor q - mu0 pk)), (Rcase_abs (row_step s (sc_scan m) (a1, b1) (a2, b2))); lra.
Qed.

Lemma grid_below N t : 0 <= t <= INR N -> exists r, (r <= N)%nat /\ INR r <= t < INR r + 1.
Proof.
  induction N as [|N IH]; intros [H0 H1].
  - exists 0%nat. cbn in *. split; [lia|lra].
  - rewrite S_INR in H1. destruct (Rle_dec t (INR N)) as [L|L].
    + destruct IH as (r & Hr & Q); [lra|]. exists r. split; [lia|exact Q].
    + destruct (Req_EM_T t (INR N + 1)) as [E|E].
      * exists (S N). rewrite S_INR. split; [lia|lra].
      * exists N. split; [lia|]. lra.
Qed.
Lemma grid_near N t : 0 <= t <= INR N -> exists j, (j <= N)%nat /\ - (1 / 2) <= INR j - t < 1 / 2.
Proof.
  intros H. destruct (grid_below N t H) as (r & Hr & Q). destruct (Rle_dec t (INR r + 1 / 2)) as [L|L].
  - exists r. split; [exact Hr|lra].
  - exists (S r). assert (r <> N) by (intros ->; lra). rewrite S_INR. split; [lia|lra].
Qed.

(** *** A row that crosses all of these peaks *)
Lemma default_whole s nx ny st : (forall i, is_labelling i (label i)) -> default_sensor_v2 = Ok s -> (300 <= nx)%nat -> (300 <= ny)%nat ->
  exists m st', measure_sensor_scan (scan_config label (Some limits_g1) (Some limits_g2) (Some limits_sensor) (Some limits_sensor) (Some default_csd) s)
      [-1; 0.4] [-1; 0.4] None None (ResArray [Z.of_nat nx; Z.of_nat ny]) st = (Ok m, st') /\
  exists u, forall k, (13 <= k <= 18)%nat -> exists w y, snd w = u /\ labelled_value (sc_scan m) (sc_labels m) (-1, 0.4) (-1, 0.4) w y 1 k.
Proof.
  intros Lab Made Hx Hy. destruct (default_positions s Made) as (ps & Hps & Len & Pos). destruct (default_v2_parts s Made) as [Hd _].
  destruct (default_conducting s Made) as (C & _ & Es & Eo). pose proof C as (_ & _ & _ & Hr & _ & _).
  destruct (measured_outcome label (Some limits_g1) (Some limits_g2) (Some limits_sensor) (Some limits_sensor) (Some default_csd) s ps
    (-1) 0.4 (-1) 0.4 None None (ResArray [Z.of_nat nx; Z.of_nat ny]) st) as (m & st' & M).
  { constructor; cbn [scan_config sensor scan_object so_scan volt_limits_sensor_g1 volt_limits_sensor_g2 volt_limits_g1 volt_limits_g2]; try reflexivity; try discriminate.
    - repeat apply Forall_cons; try apply Forall_nil; unfold limits_sensor; cbn; lra.
    - repeat apply Forall_cons; try apply Forall_nil; unfold limits_sensor; cbn; lra.
    - intros l [= <-]. cbn. lia.
    - intros n k [= <- <-]. repeat split; try lia; (apply NoDup_cons; [cbn; lra|apply NoDup_cons; [cbn; tauto|apply NoDup_nil]]). }
  { split; [cbn; repeat apply Forall_cons; try apply Forall_nil; lia|]. cbn. auto. }
  { intros g [= <-]. apply default_config, Lab. }
  { exact Hps. }
  { left. exact Hd. }
  exists m, st'. split; [exact M|].
  destruct (measured_rise label _ _ _ _ _ _ _ _ _ _ _ _ _ _ _ _ _ Hd Hr M) as [Sh _].
  destruct (measured_labels label _ _ _ _ _ _ _ _ _ _ _ _ _ _ _ _ M) as [Every _].
  unfold requested_shape in Sh. destruct (sc_scan m) as [a|a] eqn:Ea; [discriminate|]. injection Sh as Sc Sr.
  assert (Cx : cols a = nx) by lia. assert (Ry : rows a = ny) by lia. clear Sc Sr.
  assert (Nx : 299 <= INR (nx - 1)) by (replace 299 with (INR 299) by (rewrite INR_IZR_INZ; reflexivity); apply le_INR; lia).
  assert (Ny : 299 <= INR (ny - 1)) by (replace 299 with (INR 299) by (rewrite INR_IZR_INZ; reflexivity); apply le_INR; lia).
  assert (Dx : INR (nx - 1) * / INR (nx - 1) = 1) by (apply Rinv_r; lra). assert (Dy : INR (ny - 1) * / INR (ny - 1) = 1) by (apply Rinv_r; lra).
  set (X := INR (nx - 1)) in *. set (Y := INR (ny - 1)) in *.
  assert (Ix : 0 < / X <= / 299) by (split; [apply Rinv_0_lt_compat|apply Rinv_le_contravar]; lra).
  assert (Iy : 0 < / Y <= / 299) by (split; [apply Rinv_0_lt_compat|apply Rinv_le_contravar]; lra).
  destruct (grid_below (ny - 1) (0.38 / 1.4 * Y)) as (r & Hr' & Qr); [change (INR (ny - 1)) with Y; lra|].
  assert (Er : volt_at (-1, 0.4) ny r = -1 + 1.4 * (INR r * / Y)).
  { unfold volt_at. replace (ny =? 1)%nat with false by (symmetry; apply Nat.eqb_neq; lia). cbn [fst snd]. change (INR (ny - 1)) with Y. unfold Rdiv. lra. }
  set (u := volt_at (-1, 0.4) ny r) in *.
  assert (U : -0.6247 < u <= -0.62).
  { rewrite Er. assert (A1 : INR r * / Y <= 0.38 / 1.4 * Y * / Y) by (apply Rmult_le_compat_r; lra).
    assert (A2 : 0.38 / 1.4 * Y * / Y < (INR r + 1) * / Y) by (apply Rmult_lt_compat_r; lra).
    rewrite Rmult_assoc, Dy, Rmult_1_r in A1, A2. lra. }
  exists u. intros k Hk. destruct (nth_error ps (k - 1)) as [pk|] eqn:Ek; [|exfalso; apply nth_error_None in Ek; lia].
  pose proof (Pos _ _ Ek) as Pk. rewrite minus_INR in Pk by lia. change (INR 1) with 1 in Pk.
  assert (K : 13 <= INR k <= 18).
  { split; [replace 13 with (INR 13) by (rewrite INR_IZR_INZ; reflexivity)|replace 18 with (INR 18) by (rewrite INR_IZR_INZ; reflexivity)]; apply le_INR; lia. }
  set (z := (mu0 pk - 0.1 * u) / 0.096754) in *. assert (Z : -0.56 <= z <= -0.38) by (unfold z; lra).
  destruct (grid_near (nx - 1) ((z + 1) / 1.4 * X)) as (j & Hj & Qj).
  { change (INR (nx - 1)) with X. split; [apply Rmult_le_pos; lra|]. apply Rle_trans with (1 * X); [apply Rmult_le_compat_r; lra|lra]. }
  assert (Ej : volt_at (-1, 0.4) nx j = -1 + 1.4 * (INR j * / X)).
  { unfold volt_at. replace (nx =? 1)%nat with false by (symmetry; apply Nat.eqb_neq; lia). cbn [fst snd]. change (INR (nx - 1)) with X. unfold Rdiv. lra. }
  set (v := volt_at (-1, 0.4) nx j) in *. set (g := INR j - (z + 1) / 1.4 * X) in *.
  assert (V : v = z + 1.4 * (g * / X)).
  { rewrite Ej. unfold g. replace (INR j * / X) with ((INR j - (z + 1) / 1.4 * X) * / X + (z + 1) / 1.4 * (X * / X)) by ring. rewrite Dx. lra. }
  assert (G : - (1 / 2 * / 299) <= g * / X <= 1 / 2 * / 299).
  { assert (1 / 2 * / X <= 1 / 2 * / 299) by lra. assert (- (1 / 2) * / X <= g * / X) by (apply Rmult_le_compat_r; lra).
    assert (g * / X <= 1 / 2 * / X) by (apply Rmult_le_compat_r; lra). lra. }
  destruct (Every (v, u) (cell a r j)) as (c & k' & Hl).
  { exists r, j. rewrite Cx, Ry. split; [lia|]. split; [lia|]. split; reflexivity. }
  exists (v, u), (cell a r j). split; [reflexivity|].
  rewrite <- Ea in *.
  destruct (default_window _ _ _ _ _ _ _ _ _ _ _ _ _ _ _ _ _ _ Made M Hl) as (q & t & Hq & (_ & A1 & _) & T & _ & E0 & E1 & E2).
  cbn [fst snd] in E0, E1, E2. destruct (default_barriers s Made) as (P1 & _ & P2 & _).
  assert (Mu : at_sensor q - mu0 pk = 0.096754 * (1.4 * (g * / X))) by (rewrite E0, V; unfold z; lra).
  assert (c = 1%nat) by (apply A1; [split|]; lra). subst c.
  assert (St : row_step s (sc_scan m) (-1, 0.4) (-1, 0.4) = 0.096754 * 1.4 * / X).
  { unfold row_step. rewrite Ea, Es, Cx. cbn [fst snd row0]. change (INR (nx - 1)) with X. unfold Rdiv. lra. }
  assert (k' = S (k - 1)).
  { apply (label_shown_at label _ _ _ _ _ _ _ _ _ _ _ _ _ _ _ _ _ _ _ _ _ pk Hd Hps M Hl Ek).
    - intros o q' Ho (S0' & _). cbn in Ho. subst o. destruct Hq as (S0 & _). cbn [plunger] in S0'. rewrite <- S0 in S0'. rewrite S0', Mu, St.
      destruct (Req_EM_T g (- (1 / 2))) as [->|N].
      + right. split; lra.
      + left. rewrite (Rabs_pos_eq (0.096754 * 1.4 * / X)) by lra. apply Rabs_def1.
        * assert (g * / X < 1 / 2 * / X) by (apply Rmult_lt_compat_r; lra). lra.
        * assert (- (1 / 2) * / X < g * / X) by (apply Rmult_lt_compat_r; lra). lra.
    - intros i' pk' Ni Hi. rewrite St, (Rabs_pos_eq (0.096754 * 1.4 * / X)) by lra. rewrite (Pos _ _ Hi), Pk.
      replace (-0.151 + 0.003 * INR i' - (-0.151 + 0.003 * (INR k - 1))) with (0.003 * (INR i' - (INR k - 1))) by ring.
      rewrite Rabs_mult, (Rabs_pos_eq 0.003) by lra. assert (1 <= Rabs (INR i' - (INR k - 1))); [|lra].
      replace (INR k - 1) with (INR (k - 1)) by (rewrite minus_INR by lia; cbn; ring). destruct (le_lt_dec i' (k - 1)) as [L|L].
      + assert (S i' <= k - 1)%nat as L' by lia. apply le_INR in L'. rewrite S_INR in L'. rewrite <- Rabs_Ropp, Rabs_pos_eq; lra.
      + apply le_INR in L. rewrite S_INR in L. rewrite Rabs_pos_eq; lra. }
  replace k with k' by lia. exact Hl.
Qed.
End Default.
