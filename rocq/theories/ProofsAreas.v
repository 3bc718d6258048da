(** Proofs about the label areas of sensor scans. *)
From Verif Require Import RPrelude Arr ModelSupport ModelTct ModelCsd ModelDistortions ModelSensor ModelSimulation ModelInstance
  ModelScanInstance SpecSupport SpecTct SpecCsd SpecSensor SpecSimulation SpecInstance SpecScanInstance SpecAreas ProofsSupport ProofsCsd ProofsDriver ProofsScan ProofsSensor ProofsScanSensor
  ProofsLabelScan ProofsSensorMore ProofsSimulation ProofsInstance ProofsScanInstance.
Local Open Scope R_scope.

Section Areas.
Variable label : arr2 nat -> arr2 nat.

Lemma pixel_label lim1 lim2 lims1 lims2 x s rise a1 b1 a2 b2 v1 v2 res st m st' w y c k :
  ss_deform s = [] -> ss_rise s = Some rise ->
  measure_sensor_scan (scan_config label lim1 lim2 lims1 lims2 x s) [a1; b1] [a2; b2] v1 v2 res st = (Ok m, st') ->
  labelled_value (sc_scan m) (sc_labels m) (a1, b1) (a2, b2) w y c k ->
  exists o q t mf, plunger_occupation label x v1 v2 o /\ pot_spec s o (plunger v1, plunger v2) w q /\ area_of s t q c /\
    series_of y (Rmax (base_dot s (at_sensor q)) (rise (at_sensor q) mf))
      (get_value (ss_barrier1 s) (at_barrier1 q)) (get_value (ss_barrier2 s) (at_barrier2 q)) /\
    (plunger v1 = plunger v2 -> t = mf /\
       (points_exist s o -> exists full qf, full_point s o (plunger v1, plunger v2) full /\ pot_spec s o (plunger v1, plunger v2) full qf /\ at_sensor qf = t)).
Proof.
  intros Hd Hr H Hl. destruct (scan_inv _ _ _ _ _ _ _ _ _ _ _ _ _ _ _ H) as (l1 & l2 & o & occ & p & h & h1 & ps' & h2 & E1 & E2 & Ho & Hc & Ep & El & Er & _).
  injection E1 as -> ->. injection E2 as -> ->. rewrite <- !surjective_pairing in *.
  destruct (scan_potential_pot _ _ _ _ _ _ _ _ Ep) as (Eh & Hn & _).
  assert (Ho1 : first_occ (h_occ h) = Ok o) by (rewrite Eh; exact (constant_first _ _ _ _ _ _ _ _ _ _ Hc Ep)).
  destruct (labels_hidden _ _ _ _ _ _ _ _ _ _ Hn Ho1 El) as (Ho2 & G1 & G2).
  rewrite limits_plunger in G1, G2. cbn [fst snd] in G1, G2.
  destruct (labels_areas s h _ _ _ _ p (sc_labels m) h1 Hn El) as (o' & pt & qt & Eo & Hpt & Hqt & A).
  assert (o' = o) by congruence. subst o'. rewrite limits_plunger in Hqt. cbn [fst snd] in Hqt.
  destruct (response_rise_shown s h1 p rise o (or_introl Hd) Hr Hn Ho2) as (full & qf & im & h' & Hf & Hq & E & C).
  rewrite E in Er. injection Er as Er _ _. subst im. rewrite G1, G2 in Hq. cbn [fst snd] in Hq.
  destruct C as [Sh C].
  assert (exists i j, (i < nrows p)%nat /\ (j < ncols p)%nat /\ w = volt_pix p l1 l2 i j /\ img_pix (sc_scan m) i j y /\ at_ 0%nat (conductive (sc_labels m)) i j = c) as (i & j & Hi & Hj & Ew & Iy & Ec).
  { unfold labelled_value in Hl. destruct (sc_scan m) as [a|a], p as [b|b]; try (destruct Sh; fail); cbn [same_shape_pot nrows ncols volt_pix] in *.
    - destruct Hl as (i & Hi & Ew & Ey & C1 & _). exists 0%nat, i. rewrite <- Sh. split; [lia|]. split; [lia|]. split; [exact Ew|].
      split; [cbn; auto|]. apply nth_error_at, C1.
    - destruct Hl as (i & j & Hi & Hj & Ew & Ey & C1 & _). destruct Sh as [Sh1 Sh2]. exists i, j. rewrite <- Sh1, <- Sh2. split; [lia|]. split; [lia|]. split; [exact Ew|].
      split; [cbn; auto|]. apply nth_error_at, C1. }
  exists o, (pcell p i j), (at_sensor qt), (at_sensor qf). split; [exact Ho|]. split.
  { rewrite Ew. apply (scan_cell s res o occ v1 v2 l1 l2 p h); auto. }
  split; [rewrite <- Ec; apply A; assumption|].
  split; [apply (C i j y (pcell p i j) Iy); apply pot_pix_spec; auto|].
  intros Ev. rewrite <- Ev in *.
  assert (Sw : sensor_is_swept h1 = true).
  { unfold sensor_is_swept. rewrite G1. unfold equal_ends. cbn [fst snd]. unfold Reqb. destruct (Req_EM_T _ _); [reflexivity|congruence]. }
  rewrite Sw in Hf.
  assert (full = pt).
  { rewrite (calc_point_swept_same s h1 h _ _ o Ho2 Ho1) in Hf.
    - congruence.
    - rewrite G1, Eh. cbn [h_g1]. rewrite limits_plunger. reflexivity.
    - rewrite G2, Eh. cbn [h_g2]. rewrite limits_plunger. cbn. exact Ev. }
  subst full. split.
  - destruct Hqt as [-> _], Hq as [-> _]. reflexivity.
  - intros Pe. exists pt, qt. split; [|split; [exact Hqt|reflexivity]].
    apply (solved s h1); auto. rewrite G1, G2. reflexivity.
Qed.

Lemma rising_value p x f b : rising_barrier p x f b ->
  (forall u, get_value b u = glf p u) /\ (forall u, 0 < glf p u < asymptote_right p) /\
  (forall u, pinch_off b < u <-> x * asymptote_right p < glf p u) /\ (forall u, fully_conductive b < u <-> f * asymptote_right p < glf p u).
Proof.
  intros (Hb & Ha & Hc & Hl & Hr & Hg & Hx & Hf). destruct (barrier_exact p x f b Ha Hc Hx Hf Hb) as (P1 & P2 & V & M).
  destruct (M Hg ltac:(lra)) as (M1 & M2 & _). unfold percentage_reached in P1, P2. rewrite Hl in P1, P2. rewrite Rmin_left, Rabs_pos_eq in P1, P2 by lra.
  replace (0 + x * (asymptote_right p - 0)) with (x * asymptote_right p) in P1 by ring.
  replace (0 + f * (asymptote_right p - 0)) with (f * asymptote_right p) in P2 by ring.
  rewrite P1 in M1. rewrite P2 in M2. split; [exact V|]. split; [|split; intros u; [rewrite M1, V|rewrite M2, V]; reflexivity].
  intros u. destruct (glf_growth p Ha Hg ltac:(lra)) as (_ & B & _). specialize (B u). rewrite (glf_far_asymptote_1 p Hc) in B. lra.
Qed.
Lemma rising_reached r u v : rising_end r -> v < u ->
  rise_percentage r * asymptote_right (rise_glf r) < rise_function r u v.
Proof.
  intros (Ha & Hc & Hl & Hr & Hg & Hm & Hp) L. pose proof (rise_reached r v Ha Hc Hp) as E. rewrite Hl, Hm in E.
  replace (v - 0) with v in E by ring. replace (0 + rise_percentage r * (asymptote_right (rise_glf r) - 0)) with (rise_percentage r * asymptote_right (rise_glf r)) in E by ring.
  rewrite <- E. unfold rise_function.
  destruct (glf_growth (with_offset (rise_glf r) (- rise_fully_conductive r + v))) as (M & _); [apply with_offset_adm, Ha|exact Hg|cbn; lra|]. apply M, L.
Qed.
Lemma rising_nonneg r u v : rising_end r -> 0 < rise_function r u v.
Proof.
  intros (Ha & Hc & Hl & Hr & Hg & Hm & Hp). unfold rise_function.
  destruct (glf_growth (with_offset (rise_glf r) (- rise_fully_conductive r + v))) as (_ & B & _); [apply with_offset_adm, Ha|exact Hg|cbn; lra|].
  specialize (B u). cbn in B. rewrite Hl in B. lra.
Qed.

Lemma areas lim1 lim2 lims1 lims2 x p1 p2 x1 f1 x2 f2 r s a1 b1 a2 b2 v1 v2 res st m st' w y c k :
  conducting p1 p2 x1 f1 x2 f2 r s ->
  measure_sensor_scan (scan_config label lim1 lim2 lims1 lims2 x s) [a1; b1] [a2; b2] v1 v2 res st = (Ok m, st') ->
  labelled_value (sc_scan m) (sc_labels m) (a1, b1) (a2, b2) w y c k ->
  exists o q, plunger_occupation label x v1 v2 o /\ pot_spec s o (plunger v1, plunger v2) w q /\
    let g1 := glf p1 (at_barrier1 q) in let g2 := glf p2 (at_barrier2 q) in
    0 < y < Rmin g1 g2 /\
    (c = 0%nat <-> g1 <= x1 * asymptote_right p1 \/ g2 <= x2 * asymptote_right p2) /\
    (plunger v1 = plunger v2 -> c = 2%nat ->
       1 / (1 / (rise_percentage r * asymptote_right (rise_glf r)) + 1 / g1 + 1 / g2) < y) /\
    (plunger v1 = plunger v2 -> points_exist s o -> dot_between_barriers s ->
       f1 * asymptote_right p1 < g1 -> f2 * asymptote_right p2 < g2 -> x1 < f1 -> x2 < f2 -> c = 2%nat).
Proof.
  intros (B1 & B2 & Re & Hr & Hd & Nn) H Hl.
  destruct (pixel_label _ _ _ _ _ _ _ _ _ _ _ _ _ _ _ _ _ _ _ _ _ Hd Hr H Hl) as (o & q & t & mf & Ho & Hq & A & Sy & Eq).
  destruct (rising_value _ _ _ _ B1) as (V1 & G1 & P1 & F1). destruct (rising_value _ _ _ _ B2) as (V2 & G2 & P2 & F2).
  rewrite V1, V2 in Sy. exists o, q. split; [exact Ho|]. split; [exact Hq|]. cbv zeta.
  specialize (G1 (at_barrier1 q)). specialize (G2 (at_barrier2 q)). specialize (P1 (at_barrier1 q)). specialize (P2 (at_barrier2 q)).
  specialize (F1 (at_barrier1 q)). specialize (F2 (at_barrier2 q)).
  set (g1 := glf p1 (at_barrier1 q)) in *. set (g2 := glf p2 (at_barrier2 q)) in *.
  pose proof (rising_nonneg r (at_sensor q) mf Re) as Rp. set (d := Rmax (base_dot s (at_sensor q)) (rise_function r (at_sensor q) mf)) in *.
  assert (Dp : 0 < d) by (apply Rlt_le_trans with (1 := Rp), Rmax_r).
  assert (Ey : y = 1 / (1 / d + 1 / g1 + 1 / g2)).
  { destruct Sy as [S1 _]. rewrite S1; [field; repeat split; try lra|].
    - assert (0 < g1 * g2) by (apply Rmult_lt_0_compat; lra). assert (0 < d * g1) by (apply Rmult_lt_0_compat; lra). assert (0 < d * g2) by (apply Rmult_lt_0_compat; lra). lra.
    - assert (0 < g1 * g2) by (apply Rmult_lt_0_compat; lra). assert (0 < d * g1) by (apply Rmult_lt_0_compat; lra). assert (0 < d * g2) by (apply Rmult_lt_0_compat; lra). lra. }
  assert (I1 : 0 < 1 / d) by (apply Rdiv_lt_0_compat; lra). assert (I2 : 0 < 1 / g1) by (apply Rdiv_lt_0_compat; lra). assert (I3 : 0 < 1 / g2) by (apply Rdiv_lt_0_compat; lra).
  assert (inv_lt : forall z u, 0 < z -> z < u -> 1 / u < 1 / z).
  { intros z u Hz Hu. unfold Rdiv. rewrite !Rmult_1_l. apply Rinv_lt_contravar; [apply Rmult_lt_0_compat; lra|lra]. }
  split; [|split; [|split]].
  - rewrite Ey. split; [apply Rdiv_lt_0_compat; lra|]. apply Rmin_glb_lt.
    + replace g1 with (1 / (1 / g1)) at 2 by (field; lra). apply inv_lt; lra.
    + replace g2 with (1 / (1 / g2)) at 2 by (field; lra). apply inv_lt; lra.
  - destruct A as (A0 & A1 & A2). split.
    + intros ->. destruct (Rle_or_lt g1 (x1 * asymptote_right p1)) as [L1|L1]; [auto|]. destruct (Rle_or_lt g2 (x2 * asymptote_right p2)) as [L2|L2]; [auto|].
      exfalso. assert (O : is_open s q) by (split; [apply P1|apply P2]; assumption).
      destruct (Rle_or_lt (at_sensor q) t) as [T|T]; [specialize (A1 O T)|specialize (A2 O T)]; discriminate.
    + intros L. apply A0. intros [O1 O2]. apply P1 in O1. apply P2 in O2. lra.
  - intros Ev ->. destruct (Eq Ev) as [<- _]. destruct A as (A0 & A1 & A2).
    assert (T : t < at_sensor q).
    { destruct (Rle_or_lt (at_sensor q) t) as [T|T]; [|exact T]. exfalso.
      assert (O : is_open s q \/ ~ is_open s q) by (unfold is_open; lra). destruct O as [O|O]; [specialize (A1 O T)|specialize (A0 O)]; discriminate. }
    pose proof (rising_reached r (at_sensor q) t Re T) as L.
    assert (L' : rise_percentage r * asymptote_right (rise_glf r) < d) by (apply Rlt_le_trans with (1 := L), Rmax_r).
    destruct Re as (_ & _ & _ & Ra & _ & _ & Rpc). assert (0 < rise_percentage r * asymptote_right (rise_glf r)) by (apply Rmult_lt_0_compat; lra).
    rewrite Ey. apply inv_lt; [lra|]. assert (1 / d < 1 / (rise_percentage r * asymptote_right (rise_glf r))) by (apply inv_lt; lra). lra.
  - intros Ev Pe (c1 & c2 & C1 & C2 & E1 & E2) L1 L2 X1 X2. destruct (Eq Ev) as [_ Full]. destruct (Full Pe) as (full & qf & Hf & Hqf & Et).
    destruct (Hf qf Hqf) as [Q1 Q2]. apply F1 in L1. apply F2 in L2. destruct A as (_ & _ & A2). apply A2.
    + destruct B1 as (_ & _ & _ & _ & Ar1 & _), B2 as (_ & _ & _ & _ & Ar2 & _).
      assert (x1 * asymptote_right p1 < f1 * asymptote_right p1) by (apply Rmult_lt_compat_r; lra).
      assert (x2 * asymptote_right p2 < f2 * asymptote_right p2) by (apply Rmult_lt_compat_r; lra).
      split; [apply P1; apply F1 in L1; lra|apply P2; apply F2 in L2; lra].
    + rewrite <- Et. destruct Hq as (S0 & S1 & S2), Hqf as (T0 & T1 & T2). rewrite Q1 in T1. rewrite Q2 in T2.
      set (A1w := fst (row1 (ss_sensor s)) * fst w + snd (row1 (ss_sensor s)) * snd w) in *.
      assert (D1 : at_barrier1 q - fully_conductive (ss_barrier1 s) = fst (row1 (ss_sensor s)) * (fst w - fst full) + snd (row1 (ss_sensor s)) * (snd w - snd full)).
      { rewrite S1, T1. unfold affine_scan. unfold A1w. ring. }
      assert (D2 : at_barrier2 q - fully_conductive (ss_barrier2 s) = fst (row2 (ss_sensor s)) * (fst w - fst full) + snd (row2 (ss_sensor s)) * (snd w - snd full)).
      { rewrite S2, T2. unfold affine_scan. ring. }
      assert (D0 : at_sensor q - at_sensor qf = c1 * (at_barrier1 q - fully_conductive (ss_barrier1 s)) + c2 * (at_barrier2 q - fully_conductive (ss_barrier2 s))).
      { rewrite D1, D2, S0, T0. unfold affine_scan. rewrite E1, E2. ring. }
      assert (0 < c1 * (at_barrier1 q - fully_conductive (ss_barrier1 s))) by (apply Rmult_lt_0_compat; lra).
      assert (0 < c2 * (at_barrier2 q - fully_conductive (ss_barrier2 s))) by (apply Rmult_lt_0_compat; lra). lra.
Qed.
End Areas.
