(** Proofs about sensor responses in double precision. *)
From Flocq Require Import Core Relative.
From Verif Require Import RPrelude ModelFloat ModelFloatRange SpecFloatRange SpecFloatSensor ModelFloatSensor ProofsFloat ProofsFloatRange ProofsFloatDraw.
Local Open Scope R_scope.

(** ** The Lorentzian *)
Lemma div_anti n d d' : 0 <= n -> 0 < d -> d <= d' -> n / d' <= n / d.
Proof. intros Hn Hd H. apply Rmult_le_compat_l; [exact Hn|]. apply Rinv_le_contravar; assumption. Qed.
Lemma square_ge0 d : 0 <= fl (d * d).
Proof. apply fl_ge0. nra. Qed.
Lemma den_ge g2 d : double g2 -> g2 <= fl (g2 + fl (d * d)).
Proof. intros D. rewrite <- (fl_id g2 D) at 1. apply fl_le. pose proof (square_ge0 d). lra. Qed.
Lemma lorentz_anti g2 n o d d' : 0 <= n -> double g2 -> 0 < g2 -> d * d <= d' * d' ->
  fl (o + fl (n / fl (g2 + fl (d' * d')))) <= fl (o + fl (n / fl (g2 + fl (d * d)))).
Proof.
  intros Hn D Hg H. apply fl_le, Rplus_le_compat_l, fl_le. pose proof (fl_le _ _ H) as H2. pose proof (den_ge g2 d D).
  apply div_anti; [exact Hn|lra|apply fl_le; lra].
Qed.
Lemma lorentz_monotone mu mu' mu0 gamma height offset : 0 <= height -> 0 < fl (gamma * gamma) ->
  mu0 <= mu <= mu' \/ mu' <= mu <= mu0 ->
  float_lorentz mu' mu0 gamma height offset <= float_lorentz mu mu0 gamma height offset.
Proof.
  intros Hh Hg H. unfold float_lorentz. apply lorentz_anti; [|apply fl_double|exact Hg|].
  - apply fl_ge0, Rmult_le_pos; lra.
  - destruct H as [H|H].
    + pose proof (fl_ge0 (mu - mu0) ltac:(lra)). pose proof (fl_le (mu - mu0) (mu' - mu0) ltac:(lra)). nra.
    + pose proof (fl_ge0 (mu0 - mu) ltac:(lra)) as A. pose proof (fl_le (mu' - mu0) (mu - mu0) ltac:(lra)).
      replace (mu0 - mu) with (- (mu - mu0)) in A by ring. rewrite fl_opp in A. nra.
Qed.
Lemma lorentz_lower mu mu0 gamma height offset : 0 <= height -> 0 < fl (gamma * gamma) -> double offset ->
  offset <= float_lorentz mu mu0 gamma height offset.
Proof.
  intros Hh Hg D. unfold float_lorentz. rewrite <- (fl_id offset D) at 1. apply fl_le.
  set (d := fl (mu - mu0)). pose proof (den_ge (fl (gamma * gamma)) d (fl_double _)).
  assert (0 <= fl (fl (height * fl (gamma * gamma)) / fl (fl (gamma * gamma) + fl (d * d)))); [|lra].
  apply fl_ge0. apply Rmult_le_pos; [apply fl_ge0, Rmult_le_pos; lra|]. left. apply Rinv_0_lt_compat. lra.
Qed.
Lemma lorentz_upper mu mu0 gamma height offset : 0 <= height -> 0 < fl (gamma * gamma) ->
  float_lorentz mu mu0 gamma height offset <= float_lorentz mu0 mu0 gamma height offset.
Proof.
  intros Hh Hg. apply lorentz_monotone; [exact Hh|exact Hg|]. destruct (Rle_or_lt mu0 mu); [left|right]; lra.
Qed.
Lemma lorentz_at_mu0 mu0 gamma height offset :
  float_lorentz mu0 mu0 gamma height offset = fl (offset + fl (fl (height * fl (gamma * gamma)) / fl (gamma * gamma))).
Proof.
  unfold float_lorentz. rewrite Rminus_eq_0, fl_0, Rmult_0_r, fl_0, Rplus_0_r, (fl_id (fl (gamma * gamma))) by apply fl_double. reflexivity.
Qed.
(** two roundings *)
Lemma mult_div h g : pow2 (-500) <= h -> pow2 (-500) <= g -> Rabs (fl (fl (h * g) / g) - h) <= pow2 (-51) * h.
Proof.
  intros Hh Hg. pose proof (bpow_gt_0 radix2 (-500)) as P.
  assert (N1 : pow2 (-1000) <= h * g). { replace (pow2 (-1000)) with (pow2 (-500) * pow2 (-500)) by (rewrite <- bpow_plus; reflexivity). apply Rmult_le_compat; lra. }
  pose proof (bpow_gt_0 radix2 (-1000)) as P1.
  pose proof (rel_normal (h * g)) as E1. rewrite (Rabs_pos_eq (h * g)) in E1 by lra.
  assert (L : pow2 (-1022) <= pow2 (-1000)) by (apply bpow_le; lia). specialize (E1 ltac:(lra)). set (n := fl (h * g)) in *. apply Rabs_le_inv in E1.
  assert (Q : h * (1 - u) <= n / g <= h * (1 + u)).
  { split; apply Rmult_le_reg_r with g; try lra; replace (n / g * g) with n by (field; lra); lra. }
  assert (N2 : pow2 (-1022) <= n / g).
  { apply Rle_trans with (pow2 (-501)); [apply bpow_le; lia|]. replace (pow2 (-501)) with (pow2 (-500) / 2) by (symmetry; apply (bpow_pred (-500))).
    rewrite u_value in Q. lra. }
  pose proof (rel_normal (n / g)) as E2. pose proof (bpow_gt_0 radix2 (-1022)). rewrite (Rabs_pos_eq (n / g)) in E2 by lra. specialize (E2 N2).
  apply Rabs_le_inv in E2. replace (pow2 (-51)) with (4 * u) by (change 4 with (pow2 2); rewrite <- bpow_plus; reflexivity).
  apply Rabs_le. set (q := n / g) in *. rewrite u_value in *. split; lra.
Qed.
Lemma lorentz_height mu0 gamma height : pow2 (-500) <= height -> pow2 (-500) <= fl (gamma * gamma) ->
  Rabs (float_lorentz mu0 mu0 gamma height 0 - height) <= pow2 (-51) * height.
Proof.
  intros Hh Hg. rewrite lorentz_at_mu0, Rplus_0_l, (fl_id (fl _)) by apply fl_double. apply mult_div; assumption.
Qed.
(** height 0.015, gamma 3 *)
Definition peak_height : R := IZR 8646911284551352 * pow2 (-59).
Lemma peak_height_double : double peak_height.
Proof. apply double_big; lia. Qed.
Lemma peak_exceeds : float_lorentz 0 0 3 peak_height 0 = IZR 8646911284551353 * pow2 (-59).
Proof.
  rewrite lorentz_at_mu0. replace (3 * 3) with 9 by ring. rewrite (fl_id 9) by (apply (double_int 9); lia).
  assert (E : fl (peak_height * 9) = IZR 4863887597560136 * pow2 (-55)).
  { unfold peak_height. change (pow2 (-59)) with (/ 576460752303423488). apply fl_even; [reflexivity|lia| |].
    - change (bpow radix2 (-55 + 52)) with (/ 8). change (bpow radix2 (-55 + 53)) with (/ 4). lra.
    - change (bpow radix2 (-55)) with (/ 36028797018963968). change (bpow radix2 (-55 - 1)) with (/ 72057594037927936). apply Rabs_le. lra. }
  rewrite E, Rplus_0_l.
  assert (F : fl (IZR 4863887597560136 * pow2 (-55) / 9) = IZR 8646911284551353 * pow2 (-59)).
  { apply fl_near; [lia|lia| |].
    - change (pow2 (-59 + 52)) with (/ 128). change (pow2 (-59 + 53)) with (/ 64). change (pow2 (-55)) with (/ 36028797018963968). lra.
    - change (pow2 (-55)) with (/ 36028797018963968). change (pow2 (-59)) with (/ 576460752303423488).
      change (pow2 (-59 - 1)) with (/ 1152921504606846976). apply Rabs_def1; lra. }
  rewrite F. apply fl_id, double_big; lia.
Qed.

(** ** The series combination *)
Lemma rel_prod x y : pow2 (-300) <= x -> pow2 (-300) <= y -> x * y * (1 - u) <= fl (x * y) <= x * y * (1 + u) /\ pow2 (-600) <= x * y.
Proof.
  intros Hx Hy. pose proof (bpow_gt_0 radix2 (-300)) as P.
  assert (N : pow2 (-600) <= x * y). { replace (pow2 (-600)) with (pow2 (-300) * pow2 (-300)) by (rewrite <- bpow_plus; reflexivity). apply Rmult_le_compat; lra. }
  pose proof (bpow_gt_0 radix2 (-600)). pose proof (rel_normal (x * y)) as E. rewrite (Rabs_pos_eq (x * y)) in E by lra.
  assert (L : pow2 (-1022) <= pow2 (-600)) by (apply bpow_le; lia). specialize (E ltac:(lra)). apply Rabs_le_inv in E. split; [lra|exact N].
Qed.
Lemma rel_sum x y : double x -> double y -> 0 <= x -> 0 <= y -> (x + y) * (1 - u) <= fl (x + y) <= (x + y) * (1 + u).
Proof.
  intros Dx Dy Hx Hy. pose proof (rel_grid (x + y) (grid_plus _ _ (grid_double _ Dx) (grid_double _ Dy))) as E.
  rewrite (Rabs_pos_eq (x + y)) in E by lra. apply Rabs_le_inv in E. lra.
Qed.
Definition exact_series (s b1 b2 : R) : R := s * b1 * b2 / (b1 * b2 + s * b1 + s * b2).
(** s * b1 * b2 of doubles, without underflow *)
Lemma series_error s b1 b2 : pow2 (-300) <= s -> pow2 (-300) <= b1 -> pow2 (-300) <= b2 ->
  Rabs (float_series s b1 b2 - exact_series s b1 b2) <= pow2 (-49) * exact_series s b1 b2.
Proof.
  intros Hs H1 H2. pose proof (bpow_gt_0 radix2 (-300)) as P. unfold float_series.
  destruct (rel_prod s b1 Hs H1) as [A1 N1]. destruct (rel_prod s b2 Hs H2) as [A2 N2]. destruct (rel_prod b1 b2 H1 H2) as [A3 N3].
  pose proof (bpow_gt_0 radix2 (-600)) as P6.
  set (x1 := fl (s * b1)) in *. set (x2 := fl (s * b2)) in *. set (x3 := fl (b1 * b2)) in *.
  assert (X1 : 0 <= x1) by (apply fl_ge0; lra). assert (X2 : 0 <= x2) by (apply fl_ge0; lra). assert (X3 : 0 <= x3) by (apply fl_ge0; lra).
  pose proof (rel_sum x3 x1 (fl_double _) (fl_double _) X3 X1) as S1. set (y := fl (x3 + x1)) in *.
  assert (Y0 : 0 <= y) by (apply fl_ge0; lra).
  pose proof (rel_sum y x2 (fl_double _) (fl_double _) Y0 X2) as S2. set (den := fl (y + x2)) in *.
  assert (Nn : pow2 (-901) <= x1 * b2).
  { apply Rle_trans with (pow2 (-601) * pow2 (-300)); [rewrite <- bpow_plus; apply bpow_le; lia|]. apply Rmult_le_compat; try (apply bpow_ge_0); [|exact H2].
    replace (pow2 (-601)) with (pow2 (-600) / 2) by (symmetry; apply (bpow_pred (-600))). rewrite u_value in A1. lra. }
  pose proof (rel_normal (x1 * b2)) as E. pose proof (bpow_gt_0 radix2 (-901)) as P9. rewrite (Rabs_pos_eq (x1 * b2)) in E by lra.
  assert (L : pow2 (-1022) <= pow2 (-901)) by (apply bpow_le; lia). specialize (E ltac:(lra)). set (num := fl (x1 * b2)) in *. apply Rabs_le_inv in E.
  unfold exact_series. set (D := b1 * b2 + s * b1 + s * b2). set (Nu := s * b1 * b2).
  assert (D0 : 0 < D) by (unfold D; lra). assert (Nu0 : 0 < Nu) by (unfold Nu; apply Rmult_lt_0_compat; lra).
  assert (DB : D * (1 - 4 * u) <= den <= D * (1 + 4 * u)).
  { unfold D. rewrite u_value in *. split; lra. }
  assert (NB : Nu * (1 - 3 * u) <= num <= Nu * (1 + 3 * u)).
  { assert (B1 : Nu * (1 - u) <= x1 * b2). { unfold Nu. replace (s * b1 * b2 * (1 - u)) with (s * b1 * (1 - u) * b2) by ring. apply Rmult_le_compat_r; lra. }
    assert (B2 : x1 * b2 <= Nu * (1 + u)). { unfold Nu. replace (s * b1 * b2 * (1 + u)) with (s * b1 * (1 + u) * b2) by ring. apply Rmult_le_compat_r; lra. }
    set (z := x1 * b2) in *. rewrite u_value in *. split; lra. }
  assert (Den0 : 0 < den) by (rewrite u_value in DB; lra). rewrite Reqb_false by lra.
  assert (V : Nu / D * (1 - 8 * u) <= num / den <= Nu / D * (1 + 8 * u)).
  { split.
    - apply Rmult_le_reg_r with den; [exact Den0|]. replace (num / den * den) with num by (field; lra).
      apply Rle_trans with (Nu / D * (1 - 8 * u) * (D * (1 + 4 * u))).
      + apply Rmult_le_compat_l; [|apply DB]. apply Rmult_le_pos; [apply Rmult_le_pos; [lra|left; apply Rinv_0_lt_compat; lra]|rewrite u_value; lra].
      + replace (Nu / D * (1 - 8 * u) * (D * (1 + 4 * u))) with (Nu * ((1 - 8 * u) * (1 + 4 * u))) by (field; lra).
        apply Rle_trans with (2 := proj1 NB). apply Rmult_le_compat_l; [lra|]. rewrite u_value. lra.
    - apply Rmult_le_reg_r with den; [exact Den0|]. replace (num / den * den) with num by (field; lra).
      apply Rle_trans with (Nu / D * (1 + 8 * u) * (D * (1 - 4 * u))).
      + replace (Nu / D * (1 + 8 * u) * (D * (1 - 4 * u))) with (Nu * ((1 + 8 * u) * (1 - 4 * u))) by (field; lra).
        apply Rle_trans with (1 := proj2 NB). apply Rmult_le_compat_l; [lra|]. rewrite u_value. lra.
      + apply Rmult_le_compat_l; [|apply DB]. apply Rmult_le_pos; [apply Rmult_le_pos; [lra|left; apply Rinv_0_lt_compat; lra]|rewrite u_value; lra]. }
  set (w := Nu / D) in *. set (q := num / den) in *.
  assert (W : pow2 (-305) <= w).
  { unfold w. apply Rmult_le_reg_r with D; [exact D0|]. replace (Nu / D * D) with Nu by (field; lra).
    (* Nu >= 2^-300 * (each product) *)
    assert (Nu >= pow2 (-300) * (b1 * b2)) by (apply Rle_ge; unfold Nu; rewrite Rmult_assoc; apply Rmult_le_compat_r; lra).
    assert (Nu >= pow2 (-300) * (s * b2)) by (apply Rle_ge; unfold Nu; replace (s * b1 * b2) with (b1 * (s * b2)) by ring; apply Rmult_le_compat_r; lra).
    assert (Nu >= pow2 (-300) * (s * b1)) by (apply Rle_ge; unfold Nu; replace (s * b1 * b2) with (b2 * (s * b1)) by ring; apply Rmult_le_compat_r; lra).
    replace (pow2 (-305)) with (pow2 (-300) * / 32) by (change (/ 32) with (pow2 (-5)); rewrite <- bpow_plus; reflexivity).
    unfold D. set (t := pow2 (-300)) in *. lra. }
  pose proof (bpow_gt_0 radix2 (-305)) as P5.
  assert (Qn : pow2 (-1022) <= q).
  { apply Rle_trans with (pow2 (-306)); [apply bpow_le; lia|]. replace (pow2 (-306)) with (pow2 (-305) / 2) by (symmetry; apply (bpow_pred (-305))).
    rewrite u_value in V. lra. }
  pose proof (rel_normal q) as Eq. pose proof (bpow_gt_0 radix2 (-1022)). rewrite (Rabs_pos_eq q) in Eq by lra. specialize (Eq Qn). apply Rabs_le_inv in Eq.
  replace (pow2 (-49)) with (16 * u). 2: { change 16 with (pow2 4). rewrite <- bpow_plus. reflexivity. }
  apply Rabs_le. rewrite u_value in *. split; lra.
Qed.
Lemma in_series_exact s b1 b2 : 0 < s -> 0 < b1 -> 0 < b2 -> in_series s b1 b2 = exact_series s b1 b2.
Proof.
  intros Hs H1 H2. unfold in_series, exact_series.
  assert (0 < b1 * b2) by (apply Rmult_lt_0_compat; lra). assert (0 < s * b1) by (apply Rmult_lt_0_compat; lra). assert (0 < s * b2) by (apply Rmult_lt_0_compat; lra).
  field. repeat split; lra.
Qed.
Lemma series_accurate s b1 b2 : pow2 (-300) <= s -> pow2 (-300) <= b1 -> pow2 (-300) <= b2 ->
  Rabs (float_series s b1 b2 - in_series s b1 b2) <= pow2 (-49) * in_series s b1 b2.
Proof.
  intros Hs H1 H2. pose proof (bpow_gt_0 radix2 (-300)). rewrite in_series_exact by lra. apply series_error; assumption.
Qed.
Lemma series_nonneg s b1 b2 : 0 <= s -> 0 <= b1 -> 0 <= b2 -> 0 <= float_series s b1 b2.
Proof.
  intros Hs H1 H2. unfold float_series.
  assert (A1 : 0 <= fl (s * b1)) by (apply fl_ge0, Rmult_le_pos; lra). assert (A2 : 0 <= fl (s * b2)) by (apply fl_ge0, Rmult_le_pos; lra).
  assert (A3 : 0 <= fl (b1 * b2)) by (apply fl_ge0, Rmult_le_pos; lra).
  assert (A4 : 0 <= fl (fl (b1 * b2) + fl (s * b1))) by (apply fl_ge0; lra).
  assert (A5 : 0 <= fl (fl (fl (b1 * b2) + fl (s * b1)) + fl (s * b2))) by (apply fl_ge0; lra).
  destruct (Reqb_spec (fl (fl (fl (b1 * b2) + fl (s * b1)) + fl (s * b2))) 0) as [E|N]; [lra|].
  apply fl_ge0. apply Rmult_le_pos; [apply fl_ge0, Rmult_le_pos; lra|]. left. apply Rinv_0_lt_compat. lra.
Qed.
Lemma series_blocked s b1 b2 : s = 0 \/ b1 = 0 \/ b2 = 0 -> float_series s b1 b2 = 0.
Proof.
  intros H. unfold float_series. assert (E : fl (fl (s * b1) * b2) = 0).
  { destruct H as [->|[->| ->]]; [rewrite Rmult_0_l, fl_0, Rmult_0_l|rewrite Rmult_0_r, fl_0, Rmult_0_l|rewrite Rmult_0_r]; apply fl_0. }
  rewrite E. destruct (Reqb _ 0); [reflexivity|]. replace (0 / fl (fl (fl (b1 * b2) + fl (s * b1)) + fl (s * b2))) with 0 by (unfold Rdiv; ring).
  apply fl_0.
Qed.
Lemma tiny_series : float_series (pow2 (-500)) (pow2 (-500)) (pow2 (-500)) = 0.
Proof.
  unfold float_series. assert (D : forall e, (-1074 <= e)%Z -> double (pow2 e)) by (intros e He; apply (double_eq _ 1 e); [ring|lia|exact He]).
  assert (E : fl (fl (pow2 (-500) * pow2 (-500)) * pow2 (-500)) = 0).
  { rewrite <- bpow_plus. rewrite (fl_id (pow2 (-500 + -500))) by (apply D; lia). rewrite <- bpow_plus. change (-500 + -500 + -500)%Z with (-1500)%Z.
    rewrite fl_subnormal.
    - rewrite <- bpow_plus. change (-1500 + 1074)%Z with (-426)%Z. assert (ZnearestE (pow2 (-426)) = 0%Z) as ->; [|ring].
      apply Znearest_imp. rewrite Rminus_0_r, Rabs_pos_eq by apply bpow_ge_0. apply Rlt_le_trans with (pow2 (-1)); [apply bpow_lt; lia|]. simpl. lra.
    - rewrite Rabs_pos_eq by apply bpow_ge_0. apply bpow_lt. lia. }
  rewrite E. destruct (Reqb _ 0); [reflexivity|]. unfold Rdiv. rewrite Rmult_0_l. apply fl_0.
Qed.
