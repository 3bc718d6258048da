(** Proofs about the potential of the generic sensor in double precision. *)
From Flocq Require Import Core Relative Sterbenz.
From Verif Require Import RPrelude ModelFloat SpecFloatRange SpecSensor ModelFloatPotential ProofsFloat ProofsFloatRange.
Local Open Scope R_scope.

(** ** Monotonicity *)
Lemma dot_monotone k a x a' x' : fst a * fst x <= fst a' * fst x' -> snd a * snd x <= snd a' * snd x' ->
  float_dot k a x <= float_dot k a' x'.
Proof.
  intros H1 H2. pose proof (fl_le _ _ H1). pose proof (fl_le _ _ H2). unfold float_dot. destruct k; apply fl_le; lra.
Qed.
Lemma potential_monotone k1 k2 dot gate off v occ v' occ' :
  fst gate * fst v <= fst gate * fst v' -> snd gate * snd v <= snd gate * snd v' ->
  fst dot * fst occ <= fst dot * fst occ' -> snd dot * snd occ <= snd dot * snd occ' ->
  float_potential k1 k2 dot gate off v occ <= float_potential k1 k2 dot gate off v' occ'.
Proof.
  intros H1 H2 H3 H4. pose proof (dot_monotone k1 dot occ dot occ' H3 H4). pose proof (dot_monotone k2 gate v gate v' H1 H2).
  unfold float_potential. apply fl_le, Rplus_le_compat_r, fl_le. lra.
Qed.

(** ** Accuracy *)
Notation tiny := (pow2 (-1074)).
Lemma tiny_pos : 0 < tiny. Proof. apply bpow_gt_0. Qed.
Lemma abs_error x : Rabs (fl x - x) <= u * Rabs x + tiny.
Proof.
  destruct (error_N_FLT radix2 (-1074) 53 ltac:(reflexivity) (fun z => negb (Z.even z)) x) as (eps & eta & He & Ht & _ & E).
  unfold fl. fold binary64 in E. rewrite E. replace (x * (1 + eps) + eta - x) with (x * eps + eta) by ring.
  eapply Rle_trans; [apply Rabs_triang|]. rewrite Rabs_mult. change (- (53) + 1)%Z with (-53 + 1)%Z in He. rewrite half_ulp_1 in He.
  pose proof (Rmult_le_compat_l (Rabs x) _ _ (Rabs_pos x) He). pose proof tiny_pos. lra.
Qed.
Lemma abs_sum x y : double x -> double y -> Rabs (fl (x + y) - (x + y)) <= u * Rabs (x + y).
Proof. intros Hx Hy. apply rel_grid, grid_plus; apply grid_double; assumption. Qed.
Lemma abs_diff x y : double x -> double y -> Rabs (fl (x - y) - (x - y)) <= u * Rabs (x - y).
Proof. intros Hx Hy. apply rel_grid, grid_minus; apply grid_double; assumption. Qed.

Lemma u_value : u = / 9007199254740992. Proof. reflexivity. Qed.

Lemma near_triang x y e : Rabs (x - y) <= e -> Rabs x <= Rabs y + e.
Proof. intros H. replace x with (y + (x - y)) by ring. eapply Rle_trans; [apply Rabs_triang|]. lra. Qed.
(** One addition of an approximation to [p] and one to [q]. *)
Lemma add_error p q x y ep eq : Rabs (x - p) <= ep -> Rabs (y - q) <= eq ->
  Rabs (fl (x + y) - (p + q)) <= ep + eq + (u * (Rabs p + Rabs q + ep + eq) + tiny).
Proof.
  intros Hp Hq. pose proof (abs_error (x + y)) as E. pose proof (Rabs_triang x y). pose proof (near_triang _ _ _ Hp). pose proof (near_triang _ _ _ Hq).
  pose proof u_pos as U. assert (u * Rabs (x + y) <= u * (Rabs p + Rabs q + ep + eq)) by (apply Rmult_le_compat_l; lra).
  replace (fl (x + y) - (p + q)) with ((fl (x + y) - (x + y)) + ((x - p) + (y - q))) by ring.
  eapply Rle_trans; [apply Rabs_triang|]. pose proof (Rabs_triang (x - p) (y - q)). lra.
Qed.
Definition weight (a x : R * R) : R := Rabs (fst a * fst x) + Rabs (snd a * snd x).
Definition exact_dot (a x : R * R) : R := fst a * fst x + snd a * snd x.
Lemma weight_ge0 a x : 0 <= weight a x.
Proof. unfold weight. pose proof (Rabs_pos (fst a * fst x)). pose proof (Rabs_pos (snd a * snd x)). lra. Qed.
Lemma weight_bound a x : Rabs (exact_dot a x) <= weight a x.
Proof. apply Rabs_triang. Qed.
Lemma self_error x : Rabs (x - x) <= u * Rabs x + tiny.
Proof. rewrite Rminus_diag_eq by reflexivity. rewrite Rabs_R0. pose proof u_pos. pose proof tiny_pos. pose proof (Rabs_pos x). nra. Qed.
Lemma dot_error k a x : Rabs (float_dot k a x - exact_dot a x) <= 3 * u * weight a x + 4 * tiny.
Proof.
  assert (A : forall p q y z, Rabs (y - p) <= u * Rabs p + tiny -> Rabs (z - q) <= u * Rabs q + tiny ->
              Rabs (fl (y + z) - (p + q)) <= 3 * u * (Rabs p + Rabs q) + 4 * tiny).
  { intros p q y z Hy Hz. pose proof (add_error p q y z _ _ Hy Hz) as E. pose proof (Rabs_pos p). pose proof (Rabs_pos q).
    pose proof tiny_pos as T. revert E T. rewrite u_value. generalize dependent (Rabs p). generalize dependent (Rabs q). intros. generalize dependent tiny. intros. lra. }
  unfold weight, exact_dot, float_dot. destruct k; apply A; try apply abs_error; apply self_error.
Qed.
Lemma potential_error k1 k2 dot gate off v occ :
  Rabs (float_potential k1 k2 dot gate off v occ - affine off gate dot v occ)
  <= 6 * u * (weight dot occ + weight gate v + Rabs off) + 11 * tiny.
Proof.
  unfold float_potential. set (s := float_dot k1 dot occ). set (g := float_dot k2 gate v).
  pose proof (dot_error k1 dot occ) as E1. pose proof (dot_error k2 gate v) as E2. fold s in E1. fold g in E2.
  pose proof (add_error _ _ _ _ _ _ E1 E2) as E3.
  assert (E4 : Rabs (off - off) <= 0) by (rewrite Rminus_diag_eq, Rabs_R0 by reflexivity; lra).
  pose proof (add_error _ _ _ _ _ _ E3 E4) as E5. clear E1 E2 E3 E4.
  replace (affine off gate dot v occ) with (exact_dot dot occ + exact_dot gate v + off) by (unfold affine, exact_dot; ring).
  eapply Rle_trans; [exact E5|]. clear E5.
  pose proof (weight_bound dot occ) as W1. pose proof (weight_bound gate v) as W2. pose proof (Rabs_triang (exact_dot dot occ) (exact_dot gate v)) as W3.
  pose proof (Rabs_pos off) as P. pose proof (Rabs_pos (exact_dot dot occ)) as P1. pose proof (Rabs_pos (exact_dot gate v)) as P2. pose proof tiny_pos as T. rewrite u_value.
  generalize dependent (Rabs (exact_dot dot occ + exact_dot gate v)). generalize dependent (Rabs (exact_dot dot occ)).
  generalize dependent (Rabs (exact_dot gate v)). generalize dependent (Rabs off). generalize dependent tiny. generalize (weight dot occ) (weight gate v). clear. intros. lra.
Qed.
Lemma potential_accurate k1 k2 dot gate off v occ :
  Rabs (float_potential k1 k2 dot gate off v occ - affine off gate dot v occ)
  <= pow2 (-50) * (Rabs (fst dot * fst occ) + Rabs (snd dot * snd occ) + Rabs (fst gate * fst v) + Rabs (snd gate * snd v) + Rabs off) + pow2 (-1070).
Proof.
  eapply Rle_trans; [apply potential_error|]. pose proof (weight_ge0 dot occ) as A. pose proof (weight_ge0 gate v) as B. unfold weight in *. pose proof (Rabs_pos off).
  replace (pow2 (-50)) with (8 * u) by (rewrite u_value; change (pow2 (-50)) with (/ 1125899906842624); lra).
  replace (pow2 (-1070)) with (16 * tiny) by (change 16 with (pow2 4); rewrite <- bpow_plus; reflexivity).
  pose proof tiny_pos. rewrite u_value. generalize dependent tiny. intros. lra.
Qed.

(** ** Resetting the offset *)
Lemma reset_error m o T : double m -> double o -> double T ->
  Rabs (fl (m + fl (T - fl (fl (m + o) - o))) - T) <= 4 * u * (Rabs m + Rabs o + Rabs T).
Proof.
  intros Dm Do DT. pose proof (abs_sum m o Dm Do) as E1. set (s := fl (m + o)) in *. assert (Ds : double s) by apply fl_double.
  pose proof (abs_diff s o Ds Do) as E2. set (t := fl (s - o)) in *. assert (Dt : double t) by apply fl_double.
  pose proof (abs_diff T t DT Dt) as E3. set (n := fl (T - t)) in *. assert (Dn : double n) by apply fl_double.
  pose proof (abs_sum m n Dm Dn) as E4. set (p := fl (m + n)) in *. clearbody p n t s. clear - E1 E2 E3 E4.
  set (e1 := s - (m + o)) in *. set (e2 := t - (s - o)) in *. set (e3 := n - (T - t)) in *. set (e4 := p - (m + n)) in *.
  replace (p - T) with (e3 + e4 - e1 - e2) by (unfold e1, e2, e3, e4; ring).
  replace (s - o) with (m + e1) in E2 by (unfold e1; ring). replace (T - t) with (T - m - e1 - e2) in E3 by (unfold e1, e2; ring).
  replace (m + n) with (T - e1 - e2 + e3) in E4 by (unfold e1, e2, e3; ring). clearbody e1 e2 e3 e4.
  pose proof (Rabs_triang m o) as T1. pose proof (Rabs_triang m e1) as T2.
  assert (T3 : Rabs (T - m - e1 - e2) <= Rabs T + Rabs m + Rabs e1 + Rabs e2).
  { pose proof (Rabs_triang (T - m - e1) (- e2)) as A. pose proof (Rabs_triang (T - m) (- e1)) as B. pose proof (Rabs_triang T (- m)) as C. rewrite !Rabs_Ropp in *. unfold Rminus in *. lra. }
  assert (T4 : Rabs (T - e1 - e2 + e3) <= Rabs T + Rabs e1 + Rabs e2 + Rabs e3).
  { pose proof (Rabs_triang (T - e1 - e2) e3) as A. pose proof (Rabs_triang (T - e1) (- e2)) as B. pose proof (Rabs_triang T (- e1)) as C. rewrite !Rabs_Ropp in *. unfold Rminus in *. lra. }
  assert (T5 : Rabs (e3 + e4 - e1 - e2) <= Rabs e3 + Rabs e4 + Rabs e1 + Rabs e2).
  { pose proof (Rabs_triang (e3 + e4 - e1) (- e2)) as A. pose proof (Rabs_triang (e3 + e4) (- e1)) as B. pose proof (Rabs_triang e3 e4) as C. rewrite !Rabs_Ropp in *. unfold Rminus in *. lra. }
  pose proof (Rabs_pos m). pose proof (Rabs_pos o). pose proof (Rabs_pos T). pose proof (Rabs_pos e1). pose proof (Rabs_pos e2). pose proof (Rabs_pos e3). pose proof (Rabs_pos e4).
  revert E1 E2 E3 E4. rewrite u_value. intros. lra.
Qed.
(** Exact if the target and the contribution of the first pixel are close. *)
Lemma sterbenz x y : double x -> double y -> y / 2 <= x <= 2 * y -> fl (x - y) = x - y.
Proof. intros Hx Hy H. apply fl_id. apply (sterbenz radix2 binary64); assumption. Qed.
Lemma reset_exact m T : double m -> double T -> m / 2 <= T <= 2 * m -> fl (m + fl (T - fl (fl (m + 0) - 0))) = T.
Proof.
  intros Dm DT H. rewrite Rplus_0_r, (fl_id m Dm), Rminus_0_r, (fl_id m Dm), (sterbenz T m DT Dm H).
  replace (m + (T - m)) with T by ring. apply fl_id, DT.
Qed.

Lemma reset_bound k1 k2 dot gate off T v occ : double off -> double T ->
  Rabs (float_potential k1 k2 dot gate (float_reset k1 k2 dot gate off T v occ) v occ - T)
  <= pow2 (-50) * (Rabs (fst dot * fst occ) + Rabs (snd dot * snd occ) + Rabs (fst gate * fst v) + Rabs (snd gate * snd v) + Rabs off + Rabs T) + pow2 (-1070).
Proof.
  intros Do DT. unfold float_potential at 1, float_reset, float_potential. set (m := fl (float_dot k1 dot occ + float_dot k2 gate v)).
  pose proof (reset_error m off T ltac:(apply fl_double) Do DT) as E. eapply Rle_trans; [exact E|].
  assert (M : Rabs m <= 2 * (weight dot occ + weight gate v) + 11 * tiny).
  { pose proof (add_error _ _ _ _ _ _ (dot_error k1 dot occ) (dot_error k2 gate v)) as A. fold m in A. apply near_triang in A.
    pose proof (weight_bound dot occ) as W1. pose proof (weight_bound gate v) as W2. pose proof (Rabs_triang (exact_dot dot occ) (exact_dot gate v)) as W3.
    pose proof (Rabs_pos (exact_dot dot occ)). pose proof (Rabs_pos (exact_dot gate v)). pose proof tiny_pos. revert A. rewrite u_value.
    generalize dependent tiny. intros. lra. }
  pose proof (weight_ge0 dot occ) as A. pose proof (weight_ge0 gate v) as B. unfold weight in *. pose proof (Rabs_pos off). pose proof (Rabs_pos T). pose proof (Rabs_pos m).
  replace (pow2 (-50)) with (8 * u) by (rewrite u_value; change (pow2 (-50)) with (/ 1125899906842624); lra).
  replace (pow2 (-1070)) with (16 * tiny) by (change 16 with (pow2 4); rewrite <- bpow_plus; reflexivity).
  pose proof tiny_pos. rewrite u_value. generalize dependent tiny. intros. lra.
Qed.
(** The contribution of lever-arms, voltages and occupations without offset. *)
Lemma potential_no_offset k1 k2 dot gate v occ :
  float_potential k1 k2 dot gate 0 v occ = fl (float_dot k1 dot occ + float_dot k2 gate v).
Proof. unfold float_potential. rewrite Rplus_0_r. apply fl_id, fl_double. Qed.
Lemma reset_close k1 k2 dot gate T v occ : double T ->
  float_potential k1 k2 dot gate 0 v occ / 2 <= T <= 2 * float_potential k1 k2 dot gate 0 v occ ->
  float_potential k1 k2 dot gate (float_reset k1 k2 dot gate 0 T v occ) v occ = T.
Proof.
  intros DT H. rewrite potential_no_offset in H. unfold float_potential, float_reset, float_potential.
  apply reset_exact; [apply fl_double|exact DT|exact H].
Qed.
Lemma dot_unit k x : double x -> float_dot k (1, 0) (x, 0) = x.
Proof.
  intros D. unfold float_dot. cbn [fst snd]. rewrite Rmult_1_l, Rmult_0_l, fl_0, !Rplus_0_r.
  destruct k; rewrite ?(fl_id x D); reflexivity.
Qed.
Lemma dot_zero k x : float_dot k (0, 0) x = 0.
Proof.
  unfold float_dot. cbn [fst snd]. rewrite !Rmult_0_l, fl_0, !Rplus_0_r. destruct k; apply fl_0.
Qed.
Lemma one_lost : fl (1 + pow2 54) = pow2 54.
Proof.
  rewrite (fl_even (2 ^ 52) 2).
  - change (IZR (2 ^ 52)) with (pow2 52). rewrite <- bpow_plus. reflexivity.
  - reflexivity.
  - lia.
  - change (pow2 (2 + 52)) with 18014398509481984. change (pow2 (2 + 53)) with 36028797018963968. change (pow2 54) with 18014398509481984. lra.
  - change (pow2 2) with 4. change (2 ^ 52)%Z with 4503599627370496%Z. change (pow2 54) with 18014398509481984. change (pow2 (2 - 1)) with 2. apply Rabs_le. lra.
Qed.
Lemma double_pow2 e : (-1074 <= e)%Z -> double (pow2 e).
Proof. intros H. replace (pow2 e) with (IZR 1 * pow2 e) by ring. apply double_scaled; [lia|exact H]. Qed.
Lemma stale_reset k1 k2 : float_reset k1 k2 (0, 0) (1, 0) (pow2 54) 0 (1, 0) (0, 0) = 0.
Proof.
  unfold float_reset, float_potential. rewrite dot_zero, dot_unit, Rplus_0_l, (fl_id 1 double_1') by exact double_1'.
  rewrite one_lost, (Rminus_diag_eq (pow2 54)) by reflexivity. rewrite fl_0, Rminus_0_r. exact fl_0.
Qed.
Lemma stale_potential k1 k2 : float_potential k1 k2 (0, 0) (1, 0) 0 (1, 0) (0, 0) = 1.
Proof.
  unfold float_potential. rewrite dot_zero, dot_unit, Rplus_0_l, (fl_id 1 double_1') by exact double_1'. rewrite Rplus_0_r. exact (fl_id 1 double_1').
Qed.
Lemma fresh_reset k1 k2 : float_reset k1 k2 (0, 0) (1, 0) 0 0 (1, 0) (0, 0) = -1.
Proof.
  unfold float_reset. rewrite stale_potential, Rminus_0_r, (fl_id 1 double_1'). replace (0 - 1) with (IZR (-1)) by (simpl; lra).
  apply fl_id, double_int. lia.
Qed.
