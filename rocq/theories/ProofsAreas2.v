(** Proofs about the label areas of sensor scans of the default configuration. *)
From Verif Require Import RPrelude Arr ModelSupport ModelTct ModelCsd ModelDistortions ModelSensor ModelSimulation ModelInstance
  ModelScanInstance ModelDefault ModelScanNoise SpecSupport SpecTct SpecCsd SpecSensor SpecSimulation SpecInstance SpecScanInstance SpecAreas
  ProofsSupport ProofsOcc ProofsQuant ProofsDefault ProofsSensor ProofsScanInstance ProofsScanNoise4 ProofsAreas.
Local Open Scope R_scope.

Lemma exp_pos_le a b : a <= b -> exp a <= exp b.
Proof. intros [L | ->]; [left; apply exp_increasing, L|right; reflexivity]. Qed.
Lemma twice_low a b l l' : b = 2 * a -> 0 <= l -> l <= exp a -> l' <= l * l -> l' <= exp b.
Proof.
  intros -> L H Q. replace (2 * a) with (a + a) by ring. rewrite exp_plus. apply Rle_trans with (1 := Q). apply Rmult_le_compat; lra.
Qed.
Lemma twice_high a b u u' : b = 2 * a -> exp a <= u -> u * u <= u' -> exp b <= u'.
Proof.
  intros -> H Q. replace (2 * a) with (a + a) by ring. rewrite exp_plus. pose proof (exp_pos a). apply Rle_trans with (2 := Q). apply Rmult_le_compat; lra.
Qed.
Lemma exp_top x : x < 1 -> exp x <= 1 / (1 - x).
Proof.
  intros H. pose proof (exp_ge (- x)) as E. rewrite exp_Ropp in E. pose proof (exp_pos x).
  apply Rmult_le_reg_r with (1 - x); [lra|]. replace (1 / (1 - x) * (1 - x)) with 1 by (field; lra).
  apply Rle_trans with (exp x * / exp x); [apply Rmult_le_compat_l; lra|]. rewrite Rinv_r; lra.
Qed.
Ltac low a l := match goal with |- _ <= exp _ => apply (twice_low a _ l); [lra|lra| |lra] end.
Ltac high a u := match goal with |- exp _ <= _ => apply (twice_high a _ u); [lra| |lra] end.
Lemma exp_1104_low : 49000 <= exp 11.04.
Proof.
  low 5.52 222.35712. low 2.76 14.911644. low 1.38 3.8615598. low 0.69 1.9650852. low 0.345 1.401815. low 0.1725 1.1839827. low 0.08625 1.0881097. low 0.043125 1.043125.
  pose proof (exp_ge 0.043125). lra.
Qed.
Lemma exp_1104_high : exp 11.04 <= 80500.
Proof.
  high 5.52 282.18655. high 2.76 16.798409. high 1.38 4.0985861. high 0.69 2.0244965. high 0.345 1.422848. high 0.1725 1.1928319. high 0.08625 1.0921684. high 0.043125 1.0450686.
  apply Rle_trans with (1 := exp_top 0.043125 ltac:(lra)). apply Rmult_le_reg_r with (1 - 0.043125); [lra|]. unfold Rdiv. rewrite Rmult_assoc, Rinv_l; lra.
Qed.
Lemma exp_224_low : 400000000 <= exp 22.4.
Proof.
  low 11.2 46019.692. low 5.6 214.52201. low 2.8 14.64657. low 1.4 3.8270838. low 0.7 1.9562934. low 0.35 1.3986756. low 0.175 1.1826562. low 0.0875 1.0875.
  pose proof (exp_ge 0.0875). lra.
Qed.
Lemma exp_2736_low : 2000000000 <= exp 27.36.
Proof.
  low 13.68 441180.19. low 6.84 664.21397. low 3.42 25.772349. low 1.71 5.0766475. low 0.855 2.2531417. low 0.4275 1.5010469. low 0.21375 1.2251722. low 0.106875 1.106875.
  pose proof (exp_ge 0.106875). lra.
Qed.

(** Values of a curve with left asymptote 0 and denominator offset 1 *)
Lemma glf_exp p u : asymptote_left p = 0 -> denominator_offset p = 1 ->
  glf p u = asymptote_right p * exp (- (1 / asymmetry p * ln (1 + shape_factor p * / exp (growth_rate p * (u - offset p))))).
Proof.
  intros E1 E2. unfold glf, Rpower. rewrite E1, E2, exp_Ropp. unfold Rdiv at 1. rewrite Rplus_0_l, Rminus_0_r. do 6 f_equal.
  rewrite <- exp_Ropp. do 2 f_equal. ring.
Qed.
Lemma ln_high z : 0 < z -> ln (1 + z) <= z.
Proof. intros H. rewrite <- (ln_exp z) at 2. pose proof (exp_ge z). destruct (Rle_lt_or_eq_dec _ _ H0) as [L|L]; [left; apply ln_increasing; lra|rewrite L; lra]. Qed.
Lemma ln_low z : 0 < z -> z / (1 + z) <= ln (1 + z).
Proof.
  intros H. assert (E : ln (1 + z) = - ln (/ (1 + z))) by (rewrite ln_Rinv by lra; ring). rewrite E.
  assert (Z : 0 < z / (1 + z) < 1).
  { split; [apply Rdiv_lt_0_compat; lra|]. apply Rmult_lt_reg_r with (1 + z); [lra|]. unfold Rdiv. rewrite Rmult_assoc, Rinv_l; lra. }
  assert (L : ln (/ (1 + z)) <= - (z / (1 + z))).
  { rewrite <- (ln_exp (- (z / (1 + z)))). pose proof (exp_ge (- (z / (1 + z)))) as X.
    replace (1 + - (z / (1 + z))) with (/ (1 + z)) in X by (field; lra). assert (0 < / (1 + z)) by (apply Rinv_0_lt_compat; lra).
    destruct (Rle_lt_or_eq_dec _ _ X) as [Q|Q]; [left; apply ln_increasing; lra|rewrite Q; lra]. }
  lra.
Qed.
(** Bounds of the value from bounds of the exponential *)
Lemma glf_above p u E l : asymptote_left p = 0 -> denominator_offset p = 1 -> 0 < asymptote_right p -> 0 < asymmetry p -> 0 < shape_factor p -> 0 < E ->
  E <= exp (growth_rate p * (u - offset p)) -> shape_factor p <= l * asymmetry p * E ->
  asymptote_right p * exp (- l) <= glf p u.
Proof.
  intros E1 E2 Hr Hn Hs HE H1 H2. rewrite glf_exp by assumption. apply Rmult_le_compat_l; [lra|]. apply exp_pos_le, Ropp_le_contravar.
  set (e := exp (growth_rate p * (u - offset p))) in *.
  assert (Z : 0 < shape_factor p * / e) by (apply Rmult_lt_0_compat; [lra|apply Rinv_0_lt_compat; lra]).
  apply Rle_trans with (1 / asymmetry p * (shape_factor p * / e)).
  - apply Rmult_le_compat_l; [apply Rlt_le, Rdiv_lt_0_compat; lra|]. apply ln_high, Z.
  - apply Rmult_le_reg_r with (asymmetry p * e); [apply Rmult_lt_0_compat; lra|].
    replace (1 / asymmetry p * (shape_factor p * / e) * (asymmetry p * e)) with (shape_factor p) by (field; lra).
    apply Rle_trans with (1 := H2). rewrite <- Rmult_assoc. apply Rmult_le_compat_l; [|lra].
    apply Rmult_le_reg_r with E; [lra|]. rewrite Rmult_0_l. lra.
Qed.
Lemma glf_under p u E l : asymptote_left p = 0 -> denominator_offset p = 1 -> 0 < asymptote_right p -> 0 < asymmetry p -> 0 < shape_factor p ->
  exp (growth_rate p * (u - offset p)) <= E -> l * asymmetry p * (E + shape_factor p) <= shape_factor p -> 0 <= l ->
  glf p u <= asymptote_right p * exp (- l).
Proof.
  intros E1 E2 Hr Hn Hs H1 H2 Hl. rewrite glf_exp by assumption. apply Rmult_le_compat_l; [lra|]. apply exp_pos_le, Ropp_le_contravar.
  set (e := exp (growth_rate p * (u - offset p))) in *. assert (0 < e) by apply exp_pos.
  assert (Z : 0 < shape_factor p * / e) by (apply Rmult_lt_0_compat; [lra|apply Rinv_0_lt_compat; lra]).
  apply Rle_trans with (1 / asymmetry p * (shape_factor p * / e / (1 + shape_factor p * / e))).
  2: { apply Rmult_le_compat_l; [apply Rlt_le, Rdiv_lt_0_compat; lra|]. apply ln_low, Z. }
  replace (1 / asymmetry p * (shape_factor p * / e / (1 + shape_factor p * / e))) with (shape_factor p / (asymmetry p * (e + shape_factor p))) by (field; repeat split; lra).
  apply Rmult_le_reg_r with (asymmetry p * (e + shape_factor p)); [apply Rmult_lt_0_compat; lra|].
  unfold Rdiv. rewrite (Rmult_assoc (shape_factor p)), Rinv_l by (apply Rgt_not_eq, Rmult_lt_0_compat; lra). rewrite Rmult_1_r.
  apply Rle_trans with (2 := H2). rewrite <- Rmult_assoc. apply Rmult_le_compat_l; [apply Rmult_le_pos; lra|lra].
Qed.

(** ** The default sensor *)
Lemma default_first_admissible : glf_admissible default_barrier1.
Proof. unfold glf_admissible, default_barrier1; cbn. repeat split; lra. Qed.
Lemma default_second_admissible : glf_admissible default_barrier2.
Proof. unfold glf_admissible, default_barrier2; cbn. repeat split; lra. Qed.

Lemma lorentz_nonneg g m mu : 0 < g -> 0 <= sensor_response_lorentz g 0.09 0 m mu.
Proof.
  intros H. unfold sensor_response_lorentz. rewrite Rplus_0_l. assert (0 < g ^ 2) by (apply pow_lt, H). pose proof (pow2_ge_0 (mu - m)).
  apply Rmult_le_pos; [|left; apply Rinv_0_lt_compat; lra]. apply Rmult_le_pos; lra.
Qed.
Lemma made_nonneg l ps mu : mapM (fun mg : R * R => sensor_peak_lorentzian (fst mg) (snd mg) 0.09 0) l = Ok ps -> 0 <= peak_total ps mu.
Proof.
  revert ps. induction l as [|[m g] t IH]; intros ps H; cbn [mapM] in H.
  - injection H as <-. cbn. lra.
  - unfold sensor_peak_lorentzian at 1, raise_if in H. cbn [fst snd] in H. destruct (Rleb g 0) eqn:E; [discriminate|]. cbn [bind] in H.
    destruct (mapM _ t) as [ps'|] eqn:Et; [|discriminate]. cbn [bind] in H. injection H as <-.
    unfold peak_total. cbn [map fold_right peak_fun mu0]. specialize (IH ps' eq_refl). unfold peak_total in IH.
    assert (0 < g). { apply Rnot_le_lt. intros L. rewrite Rleb_true in E by exact L. discriminate. }
    pose proof (lorentz_nonneg g m mu H). lra.
Qed.
Lemma default_conducting s : default_sensor_v2 = Ok s ->
  conducting default_barrier1 default_barrier2 0.001 0.999 0.001 0.999 default_rise s /\ dot_between_barriers s /\
  ss_sensor s = mk_rows3 (0.096754, 0.1) (0.99, 0.15) (0.15, 0.99) /\ ss_offset s = mk_three 0 0 0.
Proof.
  unfold default_sensor_v2.
  destruct (barrier_glf default_barrier1 0.001 0.999) as [b1|] eqn:B1; [|discriminate].
  destruct (barrier_glf default_barrier2 0.001 0.999) as [b2|] eqn:B2; [|discriminate]. cbn [bind].
  destruct (mapM _ default_peaks_v2) as [ps|] eqn:Ep; [|discriminate]. cbn [bind set_alpha_sensor set_alpha]. intros E. injection E as <-.
  split; [|split; [|split; reflexivity]].
  - split; [|split; [|split; [|split; [reflexivity|split; [reflexivity|]]]]]; cbn [ss_barrier1 ss_barrier2].
    + split; [exact B1|]. split; [exact default_first_admissible|]. cbn. repeat split; lra.
    + split; [exact B2|]. split; [exact default_second_admissible|]. cbn. repeat split; lra.
    + unfold rising_end, glf_admissible, default_rise; cbn. repeat split; lra.
    + intros mu. unfold base_dot. cbn [ss_peaks]. exact (made_nonneg _ _ mu Ep).
  - exists (0.08078646 / 0.9576), (0.0844869 / 0.9576). cbn. repeat split; lra.
Qed.

Lemma first_open : 0.0003 < glf default_barrier1 (-0.642) < 0.01.
Proof.
  pose proof exp_1104_low as L. pose proof exp_1104_high as H.
  assert (E : growth_rate default_barrier1 * (-0.642 - offset default_barrier1) = 11.04) by (cbn; lra).
  split.
  - apply Rlt_le_trans with (asymptote_right default_barrier1 * exp (Ropp 6)).
    + cbn [asymptote_right default_barrier1]. change (exp (-6)) with (exp (Ropp 6)). assert (X : exp 6 <= 729).
      { replace 6 with (INR 6 * 1) by (cbn; lra). rewrite exp_scale. apply Rle_trans with (3 ^ 6); [apply pow_incr; split; [left; apply exp_pos|apply exp_le_3]|lra]. }
      rewrite exp_Ropp. pose proof (exp_pos 6). assert (/ 729 <= / exp 6) by (apply Rinv_le_contravar; lra). lra.
    + apply (glf_above default_barrier1 _ 49000); [reflexivity|reflexivity|cbn; lra|cbn; lra|cbn; lra|lra|rewrite E; exact L|cbn; lra].
  - apply Rle_lt_trans with (asymptote_right default_barrier1 * exp (Ropp 3.55)).
    + apply (glf_under default_barrier1 _ 80500); [reflexivity|reflexivity|cbn; lra|cbn; lra|cbn; lra|rewrite E; exact H|cbn; lra|lra].
    + cbn [asymptote_right default_barrier1]. pose proof (exp_twentieths 71) as X.
      replace (INR 71 * (1/20)) with 3.55 in X by (rewrite INR_IZR_INZ; cbn; lra). rewrite exp_Ropp.
      assert (Y : 31 <= exp 3.55) by (apply Rle_trans with (2 := X); lra).
      pose proof (exp_pos 3.55). assert (/ exp 3.55 <= / 31) by (apply Rinv_le_contravar; lra). lra.
Qed.
Lemma first_wide : 0.999 * 0.3 < glf default_barrier1 (-0.5).
Proof.
  assert (E : growth_rate default_barrier1 * (-0.5 - offset default_barrier1) = 22.4) by (cbn; lra).
  apply Rlt_le_trans with (asymptote_right default_barrier1 * exp (Ropp 0.00075)).
  - cbn [asymptote_right default_barrier1]. pose proof (exp_ge (Ropp 0.00075)). lra.
  - apply (glf_above default_barrier1 _ 400000000); [reflexivity|reflexivity|cbn; lra|cbn; lra|cbn; lra|lra|rewrite E; exact exp_224_low|cbn; lra].
Qed.
Lemma second_wide : 0.999 * 0.3 < glf default_barrier2 (-0.5).
Proof.
  assert (E : growth_rate default_barrier2 * (-0.5 - offset default_barrier2) = 27.36) by (cbn; lra).
  apply Rlt_le_trans with (asymptote_right default_barrier2 * exp (Ropp 0.00075)).
  - cbn [asymptote_right default_barrier2]. pose proof (exp_ge (Ropp 0.00075)). lra.
  - apply (glf_above default_barrier2 _ 2000000000); [reflexivity|reflexivity|cbn; lra|cbn; lra|cbn; lra|lra|rewrite E; exact exp_2736_low|cbn; lra].
Qed.

(** ** A pixel labelled as fully conductive whose first barrier is nearly closed *)
Lemma half_open label s : (forall x, is_labelling x (label x)) -> default_sensor_v2 = Ok s ->
  exists m st' y k q,
    measure_sensor_scan (scan_config label (Some limits_g1) (Some limits_g2) (Some limits_sensor) (Some limits_sensor) (Some default_csd) s)
      [-0.7; -0.7] [-1; 0.34] None None (ResInt 2) None = (Ok m, st') /\
    labelled_value (sc_scan m) (sc_labels m) (-0.7, -0.7) (-1, 0.34) (-0.7, 0.34) y 2 k /\
    pot_spec s (0, 0) (0, 0) (-0.7, 0.34) q /\ at_barrier1 q < fully_conductive (ss_barrier1 s) /\ y < 0.01.
Proof.
  intros Lab Made. destruct (default_conducting s Made) as (C & (c1 & c2 & C1 & C2 & D1 & D2) & Es & Eo).
  pose proof C as (B1 & B2 & Re & Hr & Hd & Nn). destruct (default_v2_parts s Made) as [_ [ps Hps]].
  destruct (measured_outcome label (Some limits_g1) (Some limits_g2) (Some limits_sensor) (Some limits_sensor) (Some default_csd) s ps
    (-0.7) (-0.7) (-1) 0.34 None None (ResInt 2) None) as (m & st' & M).
  - constructor; cbn [scan_config sensor scan_object so_scan volt_limits_sensor_g1 volt_limits_sensor_g2 volt_limits_g1 volt_limits_g2]; try reflexivity; try discriminate.
    + repeat apply Forall_cons; try apply Forall_nil; unfold limits_sensor; cbn; lra.
    + repeat apply Forall_cons; try apply Forall_nil; unfold limits_sensor; cbn; lra.
  - split; [cbn; repeat apply Forall_cons; try apply Forall_nil; lia|]. cbn. auto.
  - intros g [= <-]. apply default_config, Lab.
  - exact Hps.
  - left. exact Hd.
  - destruct (measured_rise label _ _ _ _ _ _ _ _ _ _ _ _ _ _ _ _ _ Hd Hr M) as [Sh _].
    destruct (measured_labels label _ _ _ _ _ _ _ _ _ _ _ _ _ _ _ _ M) as [Every _].
    assert (exists y, scan_value (sc_scan m) (-0.7, -0.7) (-1, 0.34) (-0.7, 0.34) y) as [y Hy].
    { unfold requested_shape in Sh. destruct (sc_scan m) as [a|a]; [|discriminate]. cbn [res_list] in Sh. injection Sh as Sh.
      assert (len1 a = 2%nat) by lia. exists (cell1 a 1), 1%nat. rewrite H. split; [lia|]. split; [|reflexivity].
      unfold volt_at. cbn. f_equal; lra. }
    destruct (Every _ _ Hy) as (c & k & Hl).
    destruct (pixel_label label _ _ _ _ _ _ _ _ _ _ _ _ _ _ _ _ _ _ _ _ _ Hd Hr M Hl) as (o & q & t & mf & Ho & Hq & A & Sy & Eq).
    cbn in Ho. subst o. cbn [plunger] in *. destruct (Eq eq_refl) as [<- Full].
    destruct Full as (full & qf & Hf & Hqf & Et).
    { unfold points_exist, barrier_det. rewrite Es. cbn. split; [lra|]. split; [right; rewrite Rabs_pos_eq; lra|left; reflexivity]. }
    destruct (areas label _ _ _ _ _ _ _ _ _ _ _ _ _ _ _ _ _ _ _ _ _ _ _ _ _ _ _ C M Hl) as (o' & q' & Ho' & Hq' & Y).
    cbn in Ho'. subst o'. cbn [plunger] in *. destruct Hq as (S0 & S1 & S2), Hq' as (_ & S1' & _). rewrite <- S1 in S1'. rewrite S1' in Y. clear S1'.
    assert (V1 : at_barrier1 q = -0.642) by (rewrite S1, Es, Eo; unfold affine_scan, affine; cbn; lra).
    assert (V2 : at_barrier2 q = 0.2316) by (rewrite S2, Es, Eo; unfold affine_scan, affine; cbn; lra).
    destruct (rising_value _ _ _ _ B1) as (_ & _ & P1 & F1). destruct (rising_value _ _ _ _ B2) as (_ & _ & P2 & F2).
    pose proof first_open as O1. pose proof first_wide as W1. pose proof second_wide as W2.
    assert (W3 : glf default_barrier2 (-0.5) < glf default_barrier2 0.2316).
    { destruct (glf_growth default_barrier2 default_second_admissible) as (Mo & _); [cbn; lra|cbn; lra|]. apply Mo. lra. }
    assert (f1 : fully_conductive (ss_barrier1 s) < -0.5) by (apply F1; exact W1).
    assert (f2 : fully_conductive (ss_barrier2 s) < -0.5) by (apply F2; exact W2).
    assert (Op : is_open s q).
    { split; [apply P1; rewrite V1; cbn; lra|apply P2; rewrite V2; cbn; lra]. }
    destruct (Hf qf Hqf) as [Q1 Q2]. destruct Hqf as (T0 & T1 & T2). rewrite Q1 in T1. rewrite Q2 in T2.
    assert (c = 2%nat).
    { destruct A as (_ & _ & A2). apply A2; [exact Op|]. rewrite <- Et.
      rewrite Es, Eo in *. unfold affine_scan, affine in T0, T1, T2, S0. cbn in T0, T1, T2, S0. lra. }
    subst c. exists m, st', y, k, q. split; [exact M|]. split; [exact Hl|]. split; [split; [exact S0|split; assumption]|]. split.
    + apply Rnot_le_lt. intros L. assert (glf default_barrier1 (-0.642) >= 0.299); [|lra].
      rewrite <- V1. destruct (Rle_lt_or_eq_dec _ _ L) as [L'|L'].
      * apply F1 in L'. cbn [asymptote_right default_barrier1] in L'. lra.
      * destruct B1 as (Bm & Ba & Bc & Bl & Br & Bg & Bx & Bf). destruct (barrier_exact _ _ _ _ Ba Bc Bx Bf Bm) as (_ & PR & _).
        unfold percentage_reached in PR. rewrite L' in PR. rewrite PR. cbn [asymptote_left asymptote_right default_barrier1]. rewrite Rmin_left, Rabs_pos_eq by lra. lra.
    + rewrite V1 in Y. cbv zeta in Y. destruct Y as [[_ Y] _]. pose proof (Rmin_l (glf default_barrier1 (-0.642)) (glf default_barrier2 (at_barrier2 q'))). lra.
Qed.

Lemma default_areas label lim1 lim2 lims1 lims2 x s a1 b1 a2 b2 v1 v2 res st m st' w y c k : default_sensor_v2 = Ok s ->
  measure_sensor_scan (scan_config label lim1 lim2 lims1 lims2 x s) [a1; b1] [a2; b2] v1 v2 res st = (Ok m, st') ->
  labelled_value (sc_scan m) (sc_labels m) (a1, b1) (a2, b2) w y c k ->
  0 < y < 0.3 /\ (c = 0%nat -> y < 0.0003) /\
  (v1 = None -> v2 = None -> forall q, pot_spec s (0, 0) (0, 0) w q ->
     fully_conductive (ss_barrier1 s) < at_barrier1 q -> fully_conductive (ss_barrier2 s) < at_barrier2 q -> c = 2%nat /\ 0.0598 < y).
Proof.
  intros Made M Hl. destruct (default_conducting s Made) as (C & Bt & Es & Eo). pose proof C as (B1 & B2 & _).
  destruct (areas label _ _ _ _ _ _ _ _ _ _ _ _ _ _ _ _ _ _ _ _ _ _ _ _ _ _ _ C M Hl) as (o & q & Ho & Hq & Y). cbv zeta in Y.
  destruct Y as (Y & Y0 & Y2 & Yo).
  destruct (rising_value _ _ _ _ B1) as (_ & G1 & P1 & F1). destruct (rising_value _ _ _ _ B2) as (_ & G2 & P2 & F2).
  specialize (G1 (at_barrier1 q)). specialize (G2 (at_barrier2 q)).
  pose proof (Rmin_l (glf default_barrier1 (at_barrier1 q)) (glf default_barrier2 (at_barrier2 q))) as M1.
  pose proof (Rmin_r (glf default_barrier1 (at_barrier1 q)) (glf default_barrier2 (at_barrier2 q))) as M2.
  change (asymptote_right default_barrier1) with 0.3 in *. change (asymptote_right default_barrier2) with 0.3 in *.
  split; [lra|]. split; [intros H; apply Y0 in H; lra|].
  intros -> -> q' Hq' L1 L2. cbn [plunger] in *. destruct x; cbn in Ho; subst o; cbn [plunger] in Hq.
  all: assert (at_barrier1 q' = at_barrier1 q /\ at_barrier2 q' = at_barrier2 q) as [E1 E2]
    by (destruct Hq as (_ & -> & ->), Hq' as (_ & -> & ->); auto).
  all: rewrite E1 in L1; rewrite E2 in L2; apply F1 in L1; apply F2 in L2.
  all: assert (C2 : c = 2%nat) by (apply Yo; [reflexivity| |exact Bt|lra|lra|lra|lra];
    unfold points_exist, barrier_det; rewrite Es; cbn; split; [lra|]; split; [right; rewrite Rabs_pos_eq; lra|left; reflexivity]).
  all: split; [exact C2|]; specialize (Y2 eq_refl C2).
  all: change (rise_percentage default_rise) with 0.999 in Y2; change (asymptote_right (rise_glf default_rise)) with 0.1 in Y2.
  all: apply Rlt_trans with (2 := Y2).
  all: set (g1 := glf default_barrier1 (at_barrier1 q)) in *; set (g2 := glf default_barrier2 (at_barrier2 q)) in *.
  all: assert (I1 : 1 / g1 < 1 / (0.999 * 0.3)) by (unfold Rdiv; rewrite !Rmult_1_l; apply Rinv_lt_contravar; [apply Rmult_lt_0_compat; lra|lra]).
  all: assert (I2 : 1 / g2 < 1 / (0.999 * 0.3)) by (unfold Rdiv; rewrite !Rmult_1_l; apply Rinv_lt_contravar; [apply Rmult_lt_0_compat; lra|lra]).
  all: assert (J1 : 0 < 1 / g1) by (apply Rdiv_lt_0_compat; lra); assert (J2 : 0 < 1 / g2) by (apply Rdiv_lt_0_compat; lra).
  all: apply Rlt_le_trans with (1 / (1 / (0.999 * 0.1) + 1 / (0.999 * 0.3) + 1 / (0.999 * 0.3))); [lra|].
  all: unfold Rdiv at 1 5; rewrite !Rmult_1_l; left; apply Rinv_lt_contravar; [apply Rmult_lt_0_compat|]; lra.
Qed.
