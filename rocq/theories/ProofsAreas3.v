(** Proofs about the label areas of sensor scans of sampled sensors. *)
From Verif Require Import RPrelude Arr ModelSupport ModelTct ModelCsd ModelDistortions ModelSampling ModelSensor ModelSimulation ModelInstance
  ModelScanInstance ModelConfig ModelSampledSim SpecSupport SpecTct SpecCsd SpecSampling SpecSensor SpecSimulation SpecInstance SpecScanInstance SpecConfig SpecAreas
  ProofsSupport ProofsSensor ProofsConfig ProofsAreas.
Local Open Scope R_scope.

Section Sampled.
Context {G : Type}.
Variable r : rng G.
Variable fuel : nat.
Hypothesis U : uniform_ok r.

Lemma sampled_barrier off height q g p b g' : 0 < height * q -> sample_barrier r fuel off height q g = (Ok (p, b), g') ->
  rising_barrier p 0.001 0.999 b /\ asymptote_right p = height * q.
Proof.
  intros Hh H. unfold sample_barrier, sample_simple_barrier in H.
  apply bind_ok in H. destruct H as (gr & g1 & H1 & H). apply (sample_uniform_range _ _ U) in H1.
  apply bind_ok in H. destruct H as (asy & g2 & H2 & H). apply (sample_uniform_range _ _ U) in H2.
  apply bind_ok in H. destruct H as (sh & g3 & H3 & H). apply (sample_uniform_range _ _ U) in H3.
  apply bind_ok in H. destruct H as (b0 & g4 & H4 & H). apply ret_inv in H. destruct H as [H _]. apply pair_equal_spec in H. destruct H as [<- <-].
  unfold lift in H4. apply (f_equal fst) in H4. cbn [fst] in H4. split; [|reflexivity].
  split; [exact H4|]. unfold glf_admissible. cbn. repeat split; lra.
Qed.
Lemma peak_positive ps x pk : Forall (fun p => 0 < lz_gamma p /\ 0 <= lz_height p /\ lz_offset p = 0) ps -> In pk ps -> 0 < lz_height pk ->
  0 < sum_peaks (map lorentz_peak ps) x.
Proof.
  intros F. unfold sum_peaks. induction F as [|p ps (A & B & C) F IH]; intros I H; [destruct I|]. cbn [map Rsum].
  pose proof (sum_peaks_nonneg ps x F) as N. unfold sum_peaks in N.
  assert (V : sensor_function (lorentz_peak p) x = lz_height p * lz_gamma p ^ 2 / (lz_gamma p ^ 2 + (x - lz_mu0 p) ^ 2)).
  { unfold sensor_function, lorentz_peak, sensor_response_lorentz. cbn [peak_fun mu0]. rewrite C. ring. }
  assert (D : 0 < lz_gamma p ^ 2 + (x - lz_mu0 p) ^ 2) by (pose proof (pow_lt _ 2 A); pose proof (pow2_ge_0 (x - lz_mu0 p)); lra).
  rewrite V. destruct I as [->|I].
  - assert (0 < lz_height pk * lz_gamma pk ^ 2 / (lz_gamma pk ^ 2 + (x - lz_mu0 pk) ^ 2)).
    { apply Rdiv_lt_0_compat; [|exact D]. apply Rmult_lt_0_compat; [exact H|]. apply pow_lt. exact A. }
    lra.
  - assert (0 <= lz_height p * lz_gamma p ^ 2 / (lz_gamma p ^ 2 + (x - lz_mu0 p) ^ 2)).
    { apply Rmult_le_pos; [apply Rmult_le_pos; [exact B|apply pow2_ge_0]|]. left. apply Rinv_0_lt_compat. exact D. }
    specialize (IH I H). lra.
Qed.
Lemma sampled_end off q g ps rise g' pk : sample_sensor_function r fuel off q g = (Ok (ps, rise), g') -> In pk ps -> 0 < lz_height pk ->
  rising_end rise /\ rise_percentage rise = 0.95 /\ (forall mu, 0 <= sum_peaks (map lorentz_peak ps) mu).
Proof.
  intros H I P. pose proof (sensor_function_spec r fuel U _ _ _ _ _ _ H) as (K & _ & (_ & i & Hi & E) & A & _ & D & Gr & As & Sh & Pc).
  pose proof (peak_positive ps (grid (-5, 5) (Z.to_nat 500000) i) pk (proj1 K) I P) as Pos.
  split; [|split; [exact Pc|intros mu; exact (sum_peaks_nonneg ps mu (proj1 K))]].
  assert (M : rise_mu0 rise = 0).
  { unfold sample_sensor_function in H. do 6 (apply bind_ok in H; destruct H as (? & ? & _ & H)).
    apply ret_inv in H. destruct H as [H _]. apply pair_equal_spec in H. destruct H as [_ <-]. reflexivity. }
  unfold rising_end, glf_admissible. rewrite A, D, M, E, Pc. repeat split; lra.
Qed.
Lemma sampled_conducting q compensated g p g' s pk : 0 < q <= 1 -> sample_scan_sensor r fuel q compensated g = (Ok p, g') -> sensor_of p = Ok s ->
  In pk (sp_peaks p) -> 0 < lz_height pk ->
  exists p1 p2, conducting p1 p2 0.001 0.999 0.001 0.999 (sp_rise p) s /\ asymptote_right p1 = 0.25 * q /\ asymptote_right p2 = 0.25 * q /\
    rise_percentage (sp_rise p) = 0.95 /\ ss_sensor s = sp_sensor_gate p.
Proof.
  intros Q H Made I P. unfold sample_scan_sensor in H.
  apply bind_ok in H. destruct H as (ratio & g1 & H1 & H).
  apply bind_ok in H. destruct H as (u & g2 & H2 & H).
  apply bind_ok in H. destruct H as (c1 & g3 & H3 & H).
  apply bind_ok in H. destruct H as (c2 & g4 & H4 & H).
  apply bind_ok in H. destruct H as ([gates dots] & g5 & H5 & H).
  apply bind_ok in H. destruct H as (b1 & g6 & H6 & H).
  apply bind_ok in H. destruct H as (b2 & g7 & H7 & H).
  apply bind_ok in H. destruct H as ([ps rise] & g8 & H8 & H).
  apply bind_ok in H. destruct H as ([p1 bar1] & g9 & H9 & H). apply bind_ok in H. destruct H as ([p2 bar2] & g10 & H10 & H).
  apply ret_inv in H. destruct H as [<- _]. unfold sensor_of in Made. cbn in Made. injection Made as <-. cbn [sp_peaks sp_rise sp_sensor_gate] in *.
  apply sampled_barrier in H9; [|lra]. apply sampled_barrier in H10; [|lra]. destruct H9 as [B1 R1], H10 as [B2 R2].
  destruct (sampled_end _ _ _ _ _ _ _ H8 I P) as (E & Pc & N).
  exists p1, p2. split; [|repeat split; auto].
  split; [exact B1|]. split; [exact B2|]. split; [exact E|]. split; [reflexivity|]. split; [reflexivity|].
  intros mu. unfold base_dot. cbn [ss_peaks]. exact (N mu).
Qed.
Lemma arms_between a s : scan_lever_arms a -> ss_sensor s = a -> 0.31 * fst (row0 a) <= snd (row0 a) -> 0.31 * snd (row0 a) <= fst (row0 a) ->
  dot_between_barriers s.
Proof.
  intros (A1 & A2 & _ & A3 & A4 & A5 & A6) E L1 L2. unfold dot_between_barriers. rewrite E, A3, A6.
  set (x := fst (row0 a)) in *. set (y := snd (row0 a)) in *. set (c := snd (row1 a)) in *. set (d := fst (row2 a)) in *.
  assert (D : 0 < 0.99 * 0.99 - c * d). { assert (c * d <= 0.3 * 0.3) by (apply Rmult_le_compat; lra). lra. }
  exists ((0.99 * x - d * y) / (0.99 * 0.99 - c * d)), ((0.99 * y - c * x) / (0.99 * 0.99 - c * d)).
  assert (d * y <= 0.3 * y) by (apply Rmult_le_compat_r; lra). assert (c * x <= 0.3 * x) by (apply Rmult_le_compat_r; lra).
  split; [apply Rdiv_lt_0_compat; lra|]. split; [apply Rdiv_lt_0_compat; lra|]. split; field; lra.
Qed.
Lemma arms_points a s o : scan_lever_arms a -> ss_sensor s = a -> fst o = snd o -> points_exist s o.
Proof.
  intros (A1 & A2 & _ & A3 & A4 & A5 & A6) E Z. unfold points_exist, barrier_det. rewrite E, A3, A6. split.
  - assert (snd (row1 a) * fst (row2 a) <= 0.3 * 0.3) by (apply Rmult_le_compat; lra). lra.
  - split; [right; rewrite Rabs_pos_eq; lra|left; exact Z].
Qed.
Lemma sampled_areas label lim1 lim2 lims1 lims2 x q compensated g p g' s pk a1 b1 a2 b2 v1 v2 res st m st' w y c k :
  0 < q <= 1 -> sample_scan_sensor r fuel q compensated g = (Ok p, g') -> sensor_of p = Ok s -> In pk (sp_peaks p) -> 0 < lz_height pk ->
  measure_sensor_scan (scan_config label lim1 lim2 lims1 lims2 x s) [a1; b1] [a2; b2] v1 v2 res st = (Ok m, st') ->
  labelled_value (sc_scan m) (sc_labels m) (a1, b1) (a2, b2) w y c k ->
  0 < y < 0.25 * q /\ (c = 0%nat -> y < 0.00025 * q) /\
  exists o po, plunger_occupation label x v1 v2 o /\ pot_spec s o (plunger v1, plunger v2) w po /\
    (c = 0%nat <-> at_barrier1 po <= pinch_off (ss_barrier1 s) \/ at_barrier2 po <= pinch_off (ss_barrier2 s)) /\
    (plunger v1 = plunger v2 -> fst o = snd o -> 0.31 <= snd (row0 (ss_sensor s)) / fst (row0 (ss_sensor s)) <= 1 / 0.31 ->
     fully_conductive (ss_barrier1 s) < at_barrier1 po -> fully_conductive (ss_barrier2 s) < at_barrier2 po ->
     c = 2%nat /\ 1 / (1 / (0.95 * asymptote_right (rise_glf (sp_rise p))) + 2 / (0.24975 * q)) < y).
Proof.
  intros Q S Made I P M Hl.
  destruct (sampled_conducting q compensated g p g' s pk Q S Made I P) as (p1 & p2 & C & R1 & R2 & Pc & Es).
  destruct (scan_sensor_spec r fuel U q compensated g p g' Q S) as (Arms & _).
  pose proof C as (B1 & B2 & Re & _).
  destruct (areas label _ _ _ _ _ _ _ _ _ _ _ _ _ _ _ _ _ _ _ _ _ _ _ _ _ _ _ C M Hl) as (o & po & Ho & Hq & Y). cbv zeta in Y.
  destruct Y as (Y & Y0 & Y2 & Yo).
  destruct (rising_value _ _ _ _ B1) as (_ & G1 & P1 & F1). destruct (rising_value _ _ _ _ B2) as (_ & G2 & P2 & F2).
  specialize (G1 (at_barrier1 po)). specialize (G2 (at_barrier2 po)).
  pose proof (Rmin_l (glf p1 (at_barrier1 po)) (glf p2 (at_barrier2 po))) as M1.
  pose proof (Rmin_r (glf p1 (at_barrier1 po)) (glf p2 (at_barrier2 po))) as M2.
  rewrite R1 in *. rewrite R2 in *.
  split; [lra|]. split; [intros H; apply Y0 in H; lra|]. exists o, po. split; [exact Ho|]. split; [exact Hq|].
  split.
  { rewrite Y0. specialize (P1 (at_barrier1 po)). specialize (P2 (at_barrier2 po)). split; (intros [T|T]; [left|right]; apply Rnot_lt_le; intros L; [apply P1 in L|apply P2 in L]; lra). }
  intros Ev Ed [L1 L2] O1 O2. apply F1 in O1. apply F2 in O2.
  pose proof Arms as (Ax & Ay & _). rewrite <- Es in Ax, Ay.
  assert (C2 : c = 2%nat).
  { apply Yo; [exact Ev|exact (arms_points _ _ _ Arms Es Ed)| |lra|lra|lra|lra].
    apply (arms_between _ s Arms Es); rewrite <- Es; set (u := fst (row0 _)) in *; set (t := snd (row0 _)) in *; assert (E : t / u * u = t) by (field; lra).
    - rewrite <- E at 1. apply Rmult_le_compat_r; lra.
    - rewrite <- E. assert (t / u * u <= 1 / 0.31 * u) by (apply Rmult_le_compat_r; lra). lra. }
  split; [exact C2|]. specialize (Y2 Ev C2). rewrite Pc in Y2. destruct Re as (_ & _ & _ & Rp & _).
  apply Rlt_trans with (2 := Y2). set (z := asymptote_right (rise_glf (sp_rise p))) in *.
  set (y1 := glf p1 (at_barrier1 po)) in *; set (y2 := glf p2 (at_barrier2 po)) in *.
  assert (I1 : 1 / y1 < 1 / (0.24975 * q)) by (unfold Rdiv; rewrite !Rmult_1_l; apply Rinv_lt_contravar; [apply Rmult_lt_0_compat; lra|lra]).
  assert (I2 : 1 / y2 < 1 / (0.24975 * q)) by (unfold Rdiv; rewrite !Rmult_1_l; apply Rinv_lt_contravar; [apply Rmult_lt_0_compat; lra|lra]).
  assert (J1 : 0 < 1 / y1) by (apply Rdiv_lt_0_compat; lra). assert (J2 : 0 < 1 / y2) by (apply Rdiv_lt_0_compat; lra).
  assert (J3 : 0 < 1 / (0.95 * z)) by (apply Rdiv_lt_0_compat; lra).
  replace (2 / (0.24975 * q)) with (1 / (0.24975 * q) + 1 / (0.24975 * q)) by (field; lra).
  unfold Rdiv at 1 5. rewrite !Rmult_1_l. apply Rinv_lt_contravar; [apply Rmult_lt_0_compat|]; lra.
Qed.
End Sampled.
