(** Proofs about total charge transitions and drawn pixels in double precision. *)
From Flocq Require Import Core Relative.
From Verif Require Import RPrelude ModelFloat ModelFloatRange SpecFloatRange ModelTct ModelFloatDraw ProofsTct ProofsFloat ProofsFloatRange.
Local Open Scope R_scope.

(** ** numpy *)
Lemma u_value : u = / 9007199254740992.
Proof. reflexivity. Qed.
Lemma trunc_floor a b : 0 <= a -> 0 < b -> Ztrunc (a / b) = Zfloor (a / b).
Proof. intros A B. apply Ztrunc_floor. apply Rmult_le_pos; [exact A|left; apply Rinv_0_lt_compat; exact B]. Qed.
Lemma floor_mult a b : 0 < b -> b * IZR (Zfloor (a / b)) <= a < b * IZR (Zfloor (a / b)) + b.
Proof.
  intros B. pose proof (Zfloor_lb (a / b)) as L. pose proof (Zfloor_ub (a / b)) as U.
  assert (E : a = b * (a / b)) by (field; lra). set (k := IZR (Zfloor (a / b))) in *.
  split.
  - rewrite E at 1. apply Rmult_le_compat_l; lra.
  - rewrite E at 1. replace (b * k + b) with (b * (k + 1)) by ring. apply Rmult_lt_compat_l; lra.
Qed.
Lemma fmod_floor a b : 0 <= a -> 0 < b -> fmod a b = a - b * IZR (Zfloor (a / b)) /\ 0 <= fmod a b < b.
Proof.
  intros A B. unfold fmod. rewrite trunc_floor by assumption. pose proof (floor_mult a b B). split; [reflexivity|lra].
Qed.
Lemma signs_agree m b : 0 <= m -> 0 < b -> signs_differ m b = false.
Proof. intros M B. unfold signs_differ. rewrite !Rltb_false by lra. destruct (Reqb m 0); reflexivity. Qed.
Lemma mod_exact a b : 0 <= a -> 0 < b -> np_mod a b = a - b * IZR (Zfloor (a / b)) /\ 0 <= np_mod a b < b.
Proof.
  intros A B. destruct (fmod_floor a b A B) as [E H]. unfold np_mod. rewrite signs_agree by lra. split; assumption.
Qed.
Lemma floor_nonneg a b : 0 <= a -> 0 < b -> (0 <= Zfloor (a / b))%Z.
Proof.
  intros A B. apply Zfloor_lub. apply Rmult_le_pos; [exact A|left; apply Rinv_0_lt_compat; exact B].
Qed.
Lemma double_quarter3 : double (3/4).
Proof. replace (3/4) with (IZR 3 * bpow radix2 (-2)) by (simpl; lra). apply double_scaled; lia. Qed.
Lemma double_quarter : double (1/4).
Proof. replace (1/4) with (IZR 1 * bpow radix2 (-2)) by (simpl; lra). apply double_scaled; lia. Qed.
(** np.floor_divide is exact *)
Lemma double_quarters z : (Z.abs z <= 2 ^ 52)%Z -> double (IZR z / 4).
Proof. intros Z. replace (IZR z / 4) with (IZR z * bpow radix2 (-2)) by (simpl; lra). apply double_scaled; lia. Qed.
(** the rounded quotient *)
Lemma quotient_close b k : double b -> 0 < b -> (1 <= k <= 2 ^ 49)%Z -> Rabs (fl (fl (b * IZR k) / b) - IZR k) <= 1 / 4.
Proof.
  intros D B [K0 K].
  assert (K1 : 1 <= IZR k) by (apply (IZR_le 1); lia).
  assert (K2 : IZR k <= 562949953421312) by (apply (IZR_le k (2 ^ 49)); exact K).
  assert (G : grid (b * IZR k)).
  { replace (b * IZR k) with (INR (Z.to_nat k) * b). { apply grid_times, grid_double, D. }
    rewrite INR_IZR_INZ, Z2Nat.id by lia. ring. }
  pose proof (rel_grid _ G) as Es. set (s := fl (b * IZR k)) in *.
  assert (Bk : 0 < b * IZR k) by (apply Rmult_lt_0_compat; lra).
  rewrite (Rabs_pos_eq (b * IZR k)) in Es by lra. apply Rabs_le_inv in Es.
  pose proof u_value as U. assert (Bi : 0 < / b) by (apply Rinv_0_lt_compat; exact B).
  assert (Q : IZR k * (1 - u) <= s / b <= IZR k * (1 + u)).
  { split.
    - apply Rmult_le_reg_r with b; [exact B|]. replace (s / b * b) with s by (field; lra). lra.
    - apply Rmult_le_reg_r with b; [exact B|]. replace (s / b * b) with s by (field; lra). lra. }
  assert (Q1 : 1 / 2 <= s / b) by (rewrite U in Q; lra).
  pose proof (rel_normal (s / b)) as Ed. rewrite (Rabs_pos_eq (s / b)) in Ed by lra.
  assert (Nm : pow2 (-1022) <= s / b). { apply Rle_trans with (pow2 (-1)); [apply bpow_le; lia|]. simpl. lra. }
  specialize (Ed Nm). set (d := fl (s / b)) in *. apply Rabs_le_inv in Ed.
  rewrite U in *. apply Rabs_le. split.
  - assert (s / b * (1 - / 9007199254740992) <= d) by lra.
    assert (IZR k * (1 - / 9007199254740992) * (1 - / 9007199254740992) <= s / b * (1 - / 9007199254740992)) by (apply Rmult_le_compat_r; lra).
    lra.
  - assert (d <= s / b * (1 + / 9007199254740992)) by lra.
    assert (s / b * (1 + / 9007199254740992) <= IZR k * (1 + / 9007199254740992) * (1 + / 9007199254740992)) by (apply Rmult_le_compat_r; lra).
    lra.
Qed.
(** the rounding of the quotient to an integer *)
Lemma quotient_snap d n : n <> 0%Z -> (Z.abs n <= 2 ^ 50)%Z -> Rabs (d - IZR n) <= 1 / 4 ->
  (if Reqb d 0 then 0 else let f := IZR (Zfloor d) in if Rltb (1/2) (fl (d - f)) then fl (f + 1) else f) = IZR n.
Proof.
  intros N K Dk. apply Rabs_le_inv in Dk.
  assert (D0 : d <> 0).
  { destruct (Z.lt_trichotomy n 0) as [L|[L|L]]; [|lia|].
    - assert (IZR n <= -1) by (apply (IZR_le n (-1)); lia). lra.
    - assert (1 <= IZR n) by (apply (IZR_le 1 n); lia). lra. }
  rewrite Reqb_false by exact D0. cbv zeta.
  destruct (Rlt_or_le d (IZR n)) as [L|L].
  - assert (F : Zfloor d = (n - 1)%Z) by (apply Zfloor_imp; rewrite plus_IZR, minus_IZR; simpl; lra).
    rewrite F, minus_IZR. rewrite Rltb_true.
    + replace (IZR n - 1 + 1) with (IZR n) by ring. apply fl_id, double_int. lia.
    + apply Rlt_le_trans with (3/4); [lra|]. rewrite <- (fl_id (3/4) double_quarter3). apply fl_le. lra.
  - assert (F : Zfloor d = n) by (apply Zfloor_imp; rewrite plus_IZR; simpl; lra).
    rewrite F. rewrite Rltb_false; [reflexivity|].
    apply Rle_trans with (1/4); [|lra]. rewrite <- (fl_id (1/4) double_quarter). apply fl_le. lra.
Qed.
Lemma floor_divide_exact a b : 0 <= a -> double b -> 0 < b -> (Zfloor (a / b) <= 2 ^ 49)%Z ->
  np_floor_divide a b = IZR (Zfloor (a / b)).
Proof.
  intros A D B K. destruct (fmod_floor a b A B) as [E H]. unfold np_floor_divide. rewrite signs_agree by lra.
  pose proof (floor_nonneg a b A B) as K0. rewrite E. set (k := Zfloor (a / b)) in *.
  replace (a - (a - b * IZR k)) with (b * IZR k) by ring.
  destruct (Z.eq_dec k 0) as [Z|N].
  { rewrite Z. rewrite Rmult_0_r, fl_0. replace (0 / b) with 0 by (unfold Rdiv; ring). rewrite fl_0, Reqb_true by reflexivity. reflexivity. }
  apply quotient_snap; [exact N|lia|]. apply quotient_close; [exact D|exact B|lia].
Qed.
Lemma trunc_neg a b : Ztrunc (- a / b) = (- Ztrunc (a / b))%Z.
Proof. replace (- a / b) with (- (a / b)) by (unfold Rdiv; ring). apply Ztrunc_opp. Qed.
Lemma floor_divide_negative a b : 0 < a -> double b -> 0 < b -> (Zfloor (a / b) <= 2 ^ 49)%Z ->
  np_floor_divide (- a) b = IZR (Zfloor (- a / b)).
Proof.
  intros A D B K. destruct (fmod_floor a b ltac:(lra) B) as [E H]. pose proof (floor_nonneg a b ltac:(lra) B) as K0.
  unfold np_floor_divide. unfold fmod in *. rewrite trunc_neg, trunc_floor in * by lra. rewrite opp_IZR.
  set (k := Zfloor (a / b)) in *. replace (- a - b * - IZR k) with (- (a - b * IZR k)) by ring.
  replace (- a - - (a - b * IZR k)) with (- (b * IZR k)) by ring.
  assert (Ea : a / b * b = a) by (field; lra). assert (Ed : - a / b = - (a / b)) by (field; lra).
  assert (Kq : IZR k <= a / b < IZR k + 1) by (split; [apply Zfloor_lb|apply Zfloor_ub]).
  destruct (Rle_lt_or_eq_dec 0 (a - b * IZR k) (proj1 H)) as [P|Z].
  - assert (F : Zfloor (- a / b) = (- (k + 1))%Z).
    { apply Zfloor_imp. rewrite plus_IZR, opp_IZR, plus_IZR, Ed. simpl. split; [lra|].
      assert (IZR k < a / b); [|lra]. apply Rmult_lt_reg_r with b; [exact B|]. rewrite Ea. lra. }
    assert (Sg : signs_differ (- (a - b * IZR k)) b = true).
    { unfold signs_differ. rewrite Reqb_false by lra. rewrite (Rltb_false b) by lra. rewrite Rltb_true by lra. reflexivity. }
    rewrite Sg, F. apply quotient_snap; [lia|lia|].
    assert (C : Rabs (fl (fl (- (b * IZR k)) / b) - - IZR k) <= 1 / 4).
    { destruct (Z.eq_dec k 0) as [Z|N].
      - rewrite Z. rewrite Rmult_0_r, Ropp_0, fl_0. replace (0 / b) with 0 by (unfold Rdiv; ring). rewrite fl_0, Rminus_0_r, Rabs_R0. lra.
      - rewrite fl_opp. replace (- fl (b * IZR k) / b) with (- (fl (b * IZR k) / b)) by (unfold Rdiv; ring). rewrite fl_opp.
        match goal with |- Rabs (- ?x - - ?y) <= _ => replace (- x - - y) with (- (x - y)) by ring end.
        rewrite Rabs_Ropp. apply quotient_close; [exact D|exact B|lia]. }
    apply Rabs_le_inv in C. set (q := fl (fl (- (b * IZR k)) / b)) in *. rewrite opp_IZR, plus_IZR.
    pose proof (double_quarters (- (4 * k + 5)) ltac:(lia)) as D1. pose proof (double_quarters (- (4 * k + 3)) ltac:(lia)) as D2.
    rewrite opp_IZR, plus_IZR, mult_IZR in D1, D2.
    apply Rabs_le. split.
    + assert (- (4 * IZR k + 5) / 4 <= fl (q - 1)); [|lra]. rewrite <- (fl_id _ D1). apply fl_le. lra.
    + assert (fl (q - 1) <= - (4 * IZR k + 3) / 4); [|lra]. rewrite <- (fl_id _ D2). apply fl_le. lra.
  - assert (K1 : (k <> 0)%Z). { intros Z0. rewrite Z0 in Z. lra. }
    assert (F : Zfloor (- a / b) = (- k)%Z).
    { rewrite Ed. replace (a / b) with (IZR k); [rewrite <- opp_IZR; apply Zfloor_IZR|].
      apply Rmult_eq_reg_r with b; [|lra]. rewrite Ea. lra. }
    rewrite F, <- Z, Ropp_0. unfold signs_differ. rewrite (Reqb_true 0 0) by reflexivity. cbn [negb andb].
    apply quotient_snap; [lia|lia|]. rewrite opp_IZR.
    rewrite fl_opp. replace (- fl (b * IZR k) / b) with (- (fl (b * IZR k) / b)) by (unfold Rdiv; ring). rewrite fl_opp.
    match goal with |- Rabs (- ?x - - ?y) <= _ => replace (- x - - y) with (- (x - y)) by ring end.
    rewrite Rabs_Ropp. apply quotient_close; [exact D|exact B|lia].
Qed.
Lemma floor_divide_all a b : double b -> 0 < b -> (Z.abs (Zfloor (a / b)) <= 2 ^ 49)%Z ->
  np_floor_divide a b = IZR (Zfloor (a / b)).
Proof.
  intros D B K. destruct (Rle_or_lt 0 a) as [P|N]. { apply floor_divide_exact; try assumption. lia. }
  replace a with (- - a) by ring. apply floor_divide_negative; [lra|exact D|exact B|].
  assert (Zfloor (- a / b) < - Zfloor (a / b) + 1)%Z; [|].
  { apply lt_IZR. apply Rle_lt_trans with (1 := Zfloor_lb _). rewrite plus_IZR, opp_IZR.
    replace (- a / b) with (- (a / b)) by (unfold Rdiv; ring). pose proof (Zfloor_lb (a / b)). lra. }
  lia.
Qed.

Lemma mod_all a b : 0 < b -> (0 <= a -> np_mod a b = a - b * IZR (Zfloor (a / b))) /\ (a < 0 -> np_mod a b = fl (a - b * IZR (Zfloor (a / b)))).
Proof.
  intros B. assert (Q : a = b * (a / b)) by (field; lra). unfold np_mod, fmod, signs_differ.
  assert (Eb : Rltb b 0 = false) by (apply Rltb_false; lra). rewrite Eb. cbn [xorb]. split; intros A.
  - assert (P : 0 <= a / b) by (apply Rmult_le_pos; [exact A|left; apply Rinv_0_lt_compat, B]). rewrite (Ztrunc_floor _ P).
    assert (M : 0 <= a - b * IZR (Zfloor (a / b))) by (pose proof (Zfloor_lb (a / b)); nra).
    replace (Rltb (a - b * IZR (Zfloor (a / b))) 0) with false by (symmetry; apply Rltb_false; lra). rewrite andb_false_r. reflexivity.
  - assert (P : a / b < 0) by (unfold Rdiv; pose proof (Rinv_0_lt_compat b B); nra). rewrite (Ztrunc_ceil (a / b)) by lra.
    destruct (Req_dec (IZR (Zfloor (a / b))) (a / b)) as [E|N].
    + assert (Ec : Zceil (a / b) = Zfloor (a / b)) by (rewrite <- E at 1; apply Zceil_IZR). rewrite Ec, E, <- Q.
      replace (a - a) with 0 by ring. replace (Reqb 0 0) with true by (symmetry; apply Reqb_true; reflexivity). cbn. symmetry. apply fl_id, double_int. lia.
    + rewrite (Zceil_floor_neq _ N), plus_IZR. pose proof (Zfloor_lb (a / b)) as L. pose proof (Zfloor_ub (a / b)) as U.
      assert (M : a - b * (IZR (Zfloor (a / b)) + 1) < 0) by nra.
      replace (Reqb _ 0) with false by (symmetry; apply Reqb_false; lra). replace (Rltb _ 0) with true by (symmetry; apply Rltb_true; exact M).
      cbn. f_equal. ring.
Qed.

(** ** The period number *)
Lemma period_no_bounds x period : 0 <= x -> 0 < period -> (Zfloor (x / period) < 2 ^ 52)%Z ->
  let k := Zfloor (x / period) in
  Zfloor (fl (x / period)) = k \/
  (Zfloor (fl (x / period)) = (k + 1)%Z /\ (IZR k + 1) * period * (1 - u) <= x).
Proof.
  intros X P K k. pose proof (floor_nonneg x period X P) as K0. pose proof (Zfloor_lb (x / period)) as L. pose proof (Zfloor_ub (x / period)) as Ub.
  fold k in K, K0, L, Ub. set (q := x / period) in *.
  assert (L' : IZR k <= fl q) by (rewrite <- (fl_id (IZR k)) by (apply double_int; lia); apply fl_le; exact L).
  assert (U' : fl q <= IZR (k + 1)).
  { rewrite <- (fl_id (IZR (k + 1))) by (apply double_int; lia). apply fl_le. rewrite plus_IZR. lra. }
  destruct (Rlt_or_le (fl q) (IZR (k + 1))) as [H|H].
  - left. apply Zfloor_imp. lra.
  - right. assert (E : fl q = IZR (k + 1)) by lra. rewrite E. split; [apply Zfloor_IZR|].
    rewrite plus_IZR in E. assert (K1 : 0 <= IZR k) by (apply (IZR_le 0); exact K0).
    assert (Nq : pow2 (-1022) <= Rabs q).
    { apply Rle_trans with (pow2 (-2)); [apply bpow_le; lia|]. rewrite Rabs_pos_eq by lra.
      destruct (Rle_or_lt (pow2 (-2)) q) as [G|G]; [exact G|]. exfalso.
      assert (fl q <= pow2 (-2)). { rewrite <- (fl_id (pow2 (-2))). apply fl_le. lra. replace (pow2 (-2)) with (1/4) by (simpl; lra). exact double_quarter. }
      simpl in H0. lra. }
    pose proof (rel_normal q Nq) as R'. rewrite (Rabs_pos_eq q) in R' by lra. apply Rabs_le_inv in R'.
    pose proof u_value as U.
    assert (Q : (IZR k + 1) * (1 - u) <= q) by (rewrite U in *; nra).
    replace x with (q * period) by (unfold q; field; lra).
    replace ((IZR k + 1) * period * (1 - u)) with ((IZR k + 1) * (1 - u) * period) by ring.
    apply Rmult_le_compat_r; lra.
Qed.

(** ** Drawn pixels *)
Lemma above_rounded x v : double v -> fl x < v -> x <= v.
Proof. intros D H. destruct (Rle_or_lt x v) as [L|L]; [exact L|]. pose proof (fl_le v x ltac:(lra)). rewrite (fl_id v D) in *. lra. Qed.
Lemma below_rounded x v : double v -> v < fl x -> v <= x.
Proof. intros D H. destruct (Rle_or_lt v x) as [L|L]; [exact L|]. pose proof (fl_le x v ltac:(lra)). rewrite (fl_id v D) in *. lra. Qed.

Section Draw.
Variables (a b v : R) (m : nat).
Hypothesis (Da : double a) (Db : double b) (Dv : double v).
Hypothesis (Hm : (1 <= m)%nat) (Hm2 : (Z.of_nat m < 2 ^ 40)%Z).
Hypothesis (Hab : pow2 (-900) <= b - a).
Let p := (b - a) / INR m.
Let M := magnitude a b.
Hypothesis Hp : pow2 (-40) * M <= p.
Let s := float_step a b (S m).
Let h := fl (1/2 * s).
Hypothesis Hin : float_inside a b s v = true.
Let t1 := fl (v + h).
Let t2 := fl (t1 - a).

Lemma m50 : (Z.of_nat m < 2 ^ 50)%Z.
Proof. apply Z.lt_trans with (1 := Hm2). reflexivity. Qed.
Lemma s_step : s = fl (fl (b - a) / INR m).
Proof. unfold s, float_step. replace (S m - 1)%nat with m by lia. reflexivity. Qed.
Lemma mR : 1 <= INR m /\ INR m <= 1099511627776.
Proof.
  split; [apply (le_INR 1); exact Hm|]. rewrite INR_IZR_INZ. apply IZR_le. change 1099511627776%Z with (2 ^ 40)%Z. lia.
Qed.
Lemma mp : INR m * p = b - a.
Proof. pose proof mR. unfold p. field. lra. Qed.
Lemma p_pos : 0 < p.
Proof. pose proof mR. pose proof (p900). unfold p. apply Rmult_lt_0_compat; [lra|apply Rinv_0_lt_compat; lra]. Qed.
Lemma M_facts : - M <= a <= M /\ - M <= b <= M /\ p <= 2 * M.
Proof.
  unfold M, magnitude. pose proof (Rmax_l (Rabs a) (Rabs b)). pose proof (Rmax_r (Rabs a) (Rabs b)).
  pose proof (Rle_abs a). pose proof (Rle_abs b). pose proof (Rle_abs (- a)). pose proof (Rle_abs (- b)). rewrite Rabs_Ropp in *.
  split; [lra|]. split; [lra|]. set (X := Rmax _ _) in *. pose proof mp as E. pose proof mR. pose proof p_pos.
  assert (p <= INR m * p). { rewrite <- (Rmult_1_l p) at 1. apply Rmult_le_compat_r; lra. } lra.
Qed.
Lemma s_p : p * (1 - 3 * u) <= s <= p * (1 + 3 * u).
Proof.
  pose proof (step_bounds a b m Da Db Hm m50 Hab) as B. rewrite <- s_step in B.
  pose proof (delta_bounds a b Da Db Hab) as D. set (dl := fl (b - a)) in *.
  pose proof mR as [m1 _]. assert (Mi : 0 < / INR m) by (apply Rinv_0_lt_compat; lra).
  assert (E1 : p * (1 - u) <= dl / INR m).
  { unfold p, Rdiv. replace ((b - a) * / INR m * (1 - u)) with ((b - a) * (1 - u) * / INR m) by ring. apply Rmult_le_compat_r; lra. }
  assert (E2 : dl / INR m <= p * (1 + u)).
  { unfold p, Rdiv. replace ((b - a) * / INR m * (1 + u)) with ((b - a) * (1 + u) * / INR m) by ring. apply Rmult_le_compat_r; lra. }
  set (q := dl / INR m) in *. pose proof p_pos as P. rewrite u_value in *. split.
  - apply Rle_trans with (2 := proj1 B). assert (p * (1 - / 9007199254740992) * (1 - / 9007199254740992) <= q * (1 - / 9007199254740992)) by (apply Rmult_le_compat_r; lra). lra.
  - apply Rle_trans with (1 := proj2 B). assert (q * (1 + / 9007199254740992) <= p * (1 + / 9007199254740992) * (1 + / 9007199254740992)) by (apply Rmult_le_compat_r; lra). lra.
Qed.
Lemma p_normal : pow2 (-950) <= p.
Proof.
  pose proof mR as [m1 m2]. apply Rmult_le_reg_l with (INR m); [lra|]. rewrite mp.
  apply Rle_trans with (2 := Hab). apply Rle_trans with (pow2 40 * pow2 (-950)); [|rewrite <- bpow_plus; apply bpow_le; lia].
  apply Rmult_le_compat_r; [apply bpow_ge_0|]. change (pow2 40) with 1099511627776. exact m2.
Qed.
Lemma h_p : p * (1/2 - 3 * u) <= h <= p * (1/2 + 3 * u).
Proof.
  pose proof s_p as B. pose proof p_pos as P. pose proof p_normal as N.
  assert (N2 : pow2 (-1022) <= 1/2 * s).
  { apply Rle_trans with (1/4 * pow2 (-950)); [|rewrite u_value in B; lra].
    replace (1/4) with (pow2 (-2)) by (simpl; lra). rewrite <- bpow_plus. apply bpow_le. lia. }
  pose proof (rel_normal (1/2 * s)) as E. pose proof (bpow_gt_0 radix2 (-1022)). rewrite (Rabs_pos_eq (1/2 * s)) in E by lra.
  specialize (E N2). fold h in E. apply Rabs_le_inv in E. rewrite u_value in *. lra.
Qed.
Lemma v_bounds : a - h <= v <= b + h.
Proof.
  unfold float_inside in Hin. fold h in Hin. apply andb_prop in Hin. destruct Hin as [A B].
  destruct (Rltb_spec (fl (a - h)) v) as [A'|]; [|discriminate]. destruct (Rltb_spec v (fl (b + h))) as [B'|]; [|discriminate].
  split; [exact (above_rounded _ _ Dv A')|exact (below_rounded _ _ Dv B')].
Qed.
Lemma t1_low : a <= t1.
Proof. unfold t1. rewrite <- (fl_id a Da) at 1. apply fl_le. pose proof v_bounds. lra. Qed.
Lemma t2_low : 0 <= t2.
Proof. apply fl_ge0. pose proof t1_low. lra. Qed.
Lemma t2_error : Rabs (t2 - (v - a + p / 2)) <= 16 * u * M.
Proof.
  pose proof v_bounds as V. pose proof h_p as H. pose proof M_facts as (Ma & Mb & Mp). pose proof p_pos as P. pose proof t1_low as T.
  pose proof (rel_grid (v + h) (grid_plus _ _ (grid_double _ Dv) (grid_double _ (fl_double _)))) as E1. fold t1 in E1.
  pose proof (rel_grid (t1 - a) (grid_minus _ _ (grid_double _ (fl_double _)) (grid_double _ Da))) as E2. fold t2 in E2.
  rewrite (Rabs_pos_eq (t1 - a)) in E2 by lra.
  assert (B1 : Rabs (v + h) <= 4 * M). { apply Rabs_le. rewrite u_value in H. lra. }
  assert (E1' : Rabs (t1 - (v + h)) <= u * (4 * M)). { apply Rle_trans with (1 := E1). apply Rmult_le_compat_l; [left; exact u_pos|exact B1]. }
  apply Rabs_le_inv in E1'. apply Rabs_le_inv in B1. apply Rabs_le_inv in E2. apply Rabs_le. rewrite u_value in *.
  split; lra.
Qed.
Definition drawn_id := Zfloor (t2 / s).
Lemma s_pos : 0 < s.
Proof. pose proof s_p as B. pose proof p_pos as P. rewrite u_value in B. lra. Qed.
Lemma uM_p : u * M <= / 4096 * p.
Proof.
  apply Rle_trans with (pow2 (-12) * p).
  - replace u with (pow2 (-12) * pow2 (-41)) by (rewrite <- bpow_plus; reflexivity). rewrite Rmult_assoc. apply Rmult_le_compat_l; [apply bpow_ge_0|].
    apply Rle_trans with (2 := Hp). apply Rmult_le_compat_r; [apply magnitude_ge0|apply bpow_le; lia].
  - apply Rmult_le_compat_r; [left; exact p_pos|]. simpl. lra.
Qed.
Lemma drawn_le : (drawn_id <= Z.of_nat m + 1)%Z.
Proof.
  unfold drawn_id. assert (L : t2 / s < IZR (Z.of_nat m + 2)).
  { apply Rmult_lt_reg_r with s; [exact s_pos|]. replace (t2 / s * s) with t2 by (field; pose proof s_pos; lra).
    pose proof t2_error as E. pose proof uM_p as U. pose proof v_bounds as V. pose proof h_p as H. pose proof s_p as B. pose proof p_pos as P. pose proof mp as Q.
    pose proof mR as [m1 m2]. apply Rabs_le_inv in E. rewrite plus_IZR, <- INR_IZR_INZ. simpl (IZR 2).
    assert (T : t2 <= INR m * p + p * (1 + 1/128)). { rewrite Q. rewrite u_value in H. lra. }
    apply Rle_lt_trans with (1 := T). apply Rlt_le_trans with ((INR m + 2) * (p * (1 - 3 * u))).
    - replace (INR m * p + p * (1 + 1 / 128)) with (p * (INR m + 1 + 1/128)) by ring.
      replace ((INR m + 2) * (p * (1 - 3 * u))) with (p * ((INR m + 2) * (1 - 3 * u))) by ring.
      apply Rmult_lt_compat_l; [exact P|]. rewrite u_value. lra.
    - apply Rmult_le_compat_l; lra. }
  pose proof (Zfloor_lb (t2 / s)) as F. assert (IZR (Zfloor (t2 / s)) < IZR (Z.of_nat m + 2)) by lra. apply lt_IZR in H. lia.
Qed.
Lemma drawn_ge0 : (0 <= drawn_id)%Z.
Proof. apply floor_nonneg; [exact t2_low|exact s_pos]. Qed.
Lemma s_double : double s.
Proof. rewrite s_step. apply fl_double. Qed.
Lemma pixel_id_drawn : float_pixel_id a s v = drawn_id.
Proof.
  unfold float_pixel_id. fold h. fold t1. fold t2. rewrite floor_divide_exact.
  - apply Ztrunc_IZR.
  - exact t2_low.
  - exact s_double.
  - exact s_pos.
  - pose proof drawn_le. unfold drawn_id in *. apply Z.le_trans with (1 := H). change (2 ^ 49)%Z with (2 ^ 9 * 2 ^ 40)%Z. lia.
Qed.
Lemma drawn_near : Rabs (v - (a + IZR drawn_id * p)) <= p / 2 + 64 * u * M.
Proof.
  pose proof t2_error as E. apply Rabs_le_inv in E. pose proof (floor_mult t2 s s_pos) as F. fold drawn_id in F.
  pose proof drawn_ge0 as K0. pose proof drawn_le as K1. apply IZR_le in K0. apply IZR_le in K1. rewrite plus_IZR, <- INR_IZR_INZ in K1.
  set (k := IZR drawn_id) in *. pose proof s_p as B. pose proof p_pos as P. pose proof mp as Q. pose proof M_facts as (Ma & Mb & Mp).
  assert (K2 : k * p <= 4 * M). { apply Rle_trans with ((INR m + 1) * p); [apply Rmult_le_compat_r; lra|]. lra. }
  assert (KS : - (3 * u * (4 * M)) <= s * k - k * p <= 3 * u * (4 * M)).
  { assert (0 <= k * p) by (apply Rmult_le_pos; lra).
    assert (k * (p * (1 - 3 * u)) <= k * s) by (apply Rmult_le_compat_l; lra).
    assert (k * s <= k * (p * (1 + 3 * u))) by (apply Rmult_le_compat_l; lra).
    assert (3 * u * (k * p) <= 3 * u * (4 * M)) by (apply Rmult_le_compat_l; [pose proof u_pos; lra|exact K2]).
    split; lra. }
  apply Rabs_le. rewrite u_value in *. split; lra.
Qed.
End Draw.

Lemma drawn_pixel lo hi n v : double lo -> double hi -> double v -> (2 <= n)%nat -> (Z.of_nat n <= 2 ^ 40)%Z ->
  pow2 (-900) <= hi - lo -> pow2 (-40) * magnitude lo hi <= (hi - lo) / INR (n - 1) ->
  float_inside lo hi (float_step lo hi n) v = true ->
  let id := float_pixel_id lo (float_step lo hi n) v in
  let pitch := (hi - lo) / INR (n - 1) in
  (0 <= id <= Z.of_nat n)%Z /\
  Rabs (v - exact_voltage lo hi n (Z.to_nat id)) <= pitch / 2 + pow2 (-47) * magnitude lo hi /\
  (v < hi + pitch / 2 - pow2 (-47) * magnitude lo hi -> (id < Z.of_nat n)%Z).
Proof.
  intros Dl Dh Dv Hn Hn2 Hab Hp Hin. destruct n as [|m]; [lia|]. replace (S m - 1)%nat with m in * by lia.
  assert (Hm : (1 <= m)%nat) by lia. assert (Hm2 : (Z.of_nat m < 2 ^ 40)%Z) by lia. cbv zeta.
  rewrite (pixel_id_drawn lo hi v m) by assumption. set (id := drawn_id _ _ _ _).
  pose proof (drawn_ge0 lo hi v m Dl Dh Dv Hm Hm2 Hab Hin) as K0. pose proof (drawn_le lo hi v m Dl Dh Dv Hm Hm2 Hab Hp Hin) as K1.
  pose proof (drawn_near lo hi v m Dl Dh Dv Hm Hm2 Hab Hp Hin) as Nr. fold id in K0, K1, Nr. cbv zeta in Nr.
  assert (E : 64 * u = pow2 (-47)). { change 64 with (pow2 6). rewrite <- bpow_plus. reflexivity. }
  rewrite E in Nr. pose proof (mp lo hi m Hm Hm2) as Q. pose proof (p_pos lo hi m Hm Hm2 Hab) as P. cbv zeta in *.
  split; [lia|]. split.
  - unfold exact_voltage. replace (S m - 1)%nat with m by lia. rewrite INR_IZR_INZ, Z2Nat.id by exact K0. exact Nr.
  - intros V. destruct (Z_lt_le_dec id (Z.of_nat (S m))) as [L|L]; [exact L|exfalso].
    apply IZR_le in L. rewrite <- INR_IZR_INZ, S_INR in L. apply Rabs_le_inv in Nr.
    set (p := (hi - lo) / INR m) in *. assert ((INR m + 1) * p <= IZR id * p) by (apply Rmult_le_compat_r; lra). lra.
Qed.

(** ** A point at the upper edge *)
Lemma double_big z e : (Z.abs z < 2 ^ 53)%Z -> (-1074 <= e)%Z -> double (IZR z * pow2 e).
Proof.
  intros Hz He. apply generic_format_FLT. exists (Float radix2 z e); [reflexivity|exact Hz|exact He].
Qed.
Lemma double_eq x z e : x = IZR z * pow2 e -> (Z.abs z < 2 ^ 53)%Z -> (-1074 <= e)%Z -> double x.
Proof. intros -> Hz He. exact (double_big z e Hz He). Qed.
Definition edge_lo : R := - (100 / 1024).
Definition edge_v : R := / 2048 - pow2 (-63).
Lemma p63 : pow2 (-63) = / 9223372036854775808.
Proof. reflexivity. Qed.
Lemma edge_lo_double : double edge_lo.
Proof. apply (double_eq _ (-100) (-10)); [unfold edge_lo; simpl; lra|lia|lia]. Qed.
Lemma edge_v_double : double edge_v.
Proof. apply (double_eq _ (2 ^ 52 - 1) (-63)); [|lia|lia]. unfold edge_v. rewrite p63. change (2 ^ 52 - 1)%Z with 4503599627370495%Z. lra. Qed.
Lemma edge_step : float_step edge_lo 0 101 = / 1024.
Proof.
  unfold float_step. change (101 - 1)%nat with 100%nat. replace (INR 100) with 100 by (rewrite INR_IZR_INZ; reflexivity).
  replace (0 - edge_lo) with (100 / 1024) by (unfold edge_lo; ring).
  rewrite (fl_id (100 / 1024)) by (apply (double_eq _ 100 (-10)); [simpl; lra|lia|lia]).
  replace (100 / 1024 / 100) with (/ 1024) by field.
  apply fl_id. apply (double_eq _ 1 (-10)); [simpl; lra|lia|lia].
Qed.
Lemma edge_half : fl (1/2 * / 1024) = / 2048.
Proof. replace (1/2 * / 1024) with (/ 2048) by field. apply fl_id. apply (double_eq _ 1 (-11)); [simpl; lra|lia|lia]. Qed.
Lemma edge_inside : float_inside edge_lo 0 (float_step edge_lo 0 101) edge_v = true.
Proof.
  rewrite edge_step. unfold float_inside. rewrite edge_half.
  rewrite (fl_id (edge_lo - / 2048)) by (apply (double_eq _ (-201) (-11)); [unfold edge_lo; simpl; lra|lia|lia]).
  rewrite Rplus_0_l, (fl_id (/ 2048)) by (apply (double_eq _ 1 (-11)); [simpl; lra|lia|lia]).
  unfold edge_v, edge_lo. rewrite p63. rewrite !Rltb_true by lra. reflexivity.
Qed.
Lemma edge_id : float_pixel_id edge_lo (float_step edge_lo 0 101) edge_v = 101%Z.
Proof.
  rewrite edge_step. unfold float_pixel_id. rewrite edge_half.
  rewrite (fl_id (edge_v + / 2048)).
  2: { apply (double_eq _ (2 ^ 53 - 1) (-63)); [|lia|lia]. unfold edge_v. rewrite p63. change (2 ^ 53 - 1)%Z with 9007199254740991%Z. lra. }
  assert (E : fl (edge_v + / 2048 - edge_lo) = 101 / 1024).
  { replace (101 / 1024) with (IZR 7107243161944064 * pow2 (-56)) by (change (pow2 (-56)) with (/ 72057594037927936); lra).
    apply fl_near; [lia|lia| |].
    - change (pow2 (-56 + 52)) with (/ 16). change (pow2 (-56 + 53)) with (/ 8). unfold edge_v, edge_lo. rewrite p63. lra.
    - change (pow2 (-56)) with (/ 72057594037927936). change (pow2 (-56 - 1)) with (/ 144115188075855872).
      unfold edge_v, edge_lo. rewrite p63. apply Rabs_def1; lra. }
  rewrite E. assert (F : Zfloor (101 / 1024 / / 1024) = 101%Z) by (replace (101 / 1024 / / 1024) with (IZR 101) by field; apply Zfloor_IZR).
  rewrite floor_divide_exact; [rewrite F; apply Ztrunc_IZR|lra| |lra|rewrite F; lia].
  apply (double_eq _ 1 (-10)); [simpl; lra|lia|lia].
Qed.

(** ** A point before the end of a period *)
Definition glitch_tct : tct_params := mk_tct (1/2 + pow2 (-52)) (1/2) (1/2) (-1) 0 0 0 0.
Definition glitch_x : R := 3 + pow2 (-51).
Lemma p52 : pow2 (-52) = / 4503599627370496.
Proof. reflexivity. Qed.
Lemma p51 : pow2 (-51) = / 2251799813685248.
Proof. reflexivity. Qed.
Ltac dbl z e := apply (double_eq _ z e); [try unfold glitch_x; rewrite ?p52, ?p51, ?u_value; simpl; lra|lia|lia].
Lemma glitch_x_double : double glitch_x.
Proof. apply (double_eq _ 6755399441055745 (-51)); [unfold glitch_x; rewrite p51; lra|lia|lia]. Qed.
Lemma glitch_period : fl (1/2 + pow2 (-52) + 1/2) = 1 + pow2 (-52).
Proof.
  replace (1/2 + pow2 (-52) + 1/2) with (1 + pow2 (-52)) by field. apply fl_id.
  apply (double_eq _ 4503599627370497 (-52)); [rewrite p52; lra|lia|lia].
Qed.
Lemma glitch_no : Zfloor (fl (glitch_x / (1 + pow2 (-52)))) = 3%Z.
Proof.
  assert (E : fl (glitch_x / (1 + pow2 (-52))) = 3).
  { replace 3 with (IZR 6755399441055744 * pow2 (-51)) by (rewrite p51; lra).
    assert (Q : glitch_x / (1 + pow2 (-52)) = 3 - pow2 (-52) / (1 + pow2 (-52))).
    { unfold glitch_x. replace (pow2 (-51)) with (2 * pow2 (-52)) by (symmetry; apply (bpow_succ (-52))). field. rewrite p52. lra. }
    rewrite Q. assert (B : 0 < pow2 (-52) / (1 + pow2 (-52)) < pow2 (-52)).
    { rewrite p52. split; [apply Rmult_lt_0_compat; [lra|apply Rinv_0_lt_compat; lra]|].
      apply Rmult_lt_reg_r with (1 + / 4503599627370496); [lra|]. unfold Rdiv. rewrite Rmult_assoc, Rinv_l by lra. lra. }
    set (q := pow2 (-52) / (1 + pow2 (-52))) in *. apply fl_near; [lia|lia| |].
    - change (pow2 (-51 + 52)) with 2. change (pow2 (-51 + 53)) with 4. rewrite p52 in B. lra.
    - change (pow2 (-51 - 1)) with (pow2 (-52)). rewrite p51 in *. apply Rabs_def1; rewrite p52 in *; lra. }
  rewrite E. apply (Zfloor_IZR 3).
Qed.
Lemma glitch_floor : Zfloor (glitch_x / (1 + pow2 (-52))) = 2%Z.
Proof.
  apply Zfloor_imp. simpl (2 + 1)%Z. unfold glitch_x. rewrite p51, p52. split.
  - apply Rmult_le_reg_r with (1 + / 4503599627370496); [lra|]. unfold Rdiv. rewrite Rmult_assoc, Rinv_l by lra. lra.
  - apply Rmult_lt_reg_r with (1 + / 4503599627370496); [lra|]. unfold Rdiv. rewrite Rmult_assoc, Rinv_l by lra. lra.
Qed.
Lemma glitch_value bez : float_tct glitch_tct bez 5 glitch_x = Ok (- (1 - 3 * pow2 (-53))).
Proof.
  unfold float_tct, float_center. cbn [start_x end_x start_y end_y glitch_tct len_left len_right slope_left slope_right].
  rewrite !(Reqb_true 0 0) by reflexivity. cbn [andb bind fst snd]. rewrite Rminus_0_r, fl_0, Rmult_0_r, fl_0.
  rewrite !(Rleb_true 0 0) by lra. rewrite !Rleb_true by (rewrite ?p52; lra). cbn [andb negb raise_if].
  rewrite Rminus_0_r. rewrite (fl_id glitch_x) by exact glitch_x_double. rewrite Rplus_0_r, (fl_id glitch_x) by exact glitch_x_double.
  unfold float_wave_end, float_period. cbn [len_left len_right end_x glitch_tct].
  rewrite glitch_period. replace (INR 5 - 1) with 4 by (rewrite INR_IZR_INZ; simpl; ring).
  assert (D4 : double (4 * (1 + pow2 (-52)))) by (apply (double_eq _ 4503599627370497 (-50)); [rewrite p52; simpl; lra|lia|lia]).
  rewrite (fl_id (4 * _)) by exact D4. rewrite Rplus_0_l, (fl_id (4 * _)) by exact D4.
  rewrite (Rleb_true 0 glitch_x) by (unfold glitch_x; rewrite p51; lra).
  rewrite (Rleb_true glitch_x) by (unfold glitch_x; rewrite p51, p52; lra). cbn [andb].
  rewrite (Reqb_false (1 + pow2 (-52)) 0) by (rewrite p52; lra). f_equal.
  unfold float_wave_value, float_period_no, float_y_offset_period, float_y_offset_inv, float_right_lin, float_left_lin, float_bezier_length, float_period.
  cbn [start_x end_x start_y end_y len_left len_right slope_left slope_right glitch_tct]. rewrite glitch_period, glitch_no.
  assert (Mo : np_mod glitch_x (1 + pow2 (-52)) = 1).
  { destruct (mod_exact glitch_x (1 + pow2 (-52))) as [E _]; [unfold glitch_x; rewrite p51; lra|rewrite p52; lra|].
    rewrite E, glitch_floor. unfold glitch_x. rewrite p51, p52. lra. }
  rewrite Mo. rewrite !Rminus_0_r, !fl_0, !Rmult_0_r, !fl_0, !Rmult_0_l, !fl_0, !Rplus_0_l, !Rminus_0_r.
  rewrite !(fl_id (1/2)) by exact double_half.
  rewrite !Rltb_false by lra.
  assert (D1 : double (- (1/2))) by (apply double_opp, double_half).
  replace (1 / 2 * -1) with (- (1/2)) by field. rewrite !(fl_id (- (1/2))) by exact D1.
  replace (- (1 / 2) - - 0) with (- (1/2)) by ring. rewrite !(fl_id (- (1/2))) by exact D1.
  rewrite (fl_id (1/2 + pow2 (-52))) by (apply (double_eq _ 4503599627370498 (-53)); [rewrite p52, u_value; lra|lia|lia]).
  rewrite (fl_id ((1/2 + pow2 (-52)) * (1/2))) by (apply (double_eq _ 4503599627370498 (-54)); [rewrite p52; change (pow2 (-54)) with (/ 18014398509481984); lra|lia|lia]).
  replace (1 - 1/2) with (1/2) by field. rewrite !(fl_id (1/2)) by exact double_half.
  replace (1 / 2 * (1/2)) with (1/4) by field. rewrite !(fl_id (1/4)) by exact double_quarter.
  replace (- (1/2) + 1/4) with (- (1/4)) by field. rewrite !(fl_id (- (1/4))) by (apply double_opp, double_quarter).
  replace (- (1/2) + (1/2 + pow2 (-52)) * (1/2)) with (- (1/4 - pow2 (-53))) by (rewrite p52, u_value; lra).
  assert (D2 : double (1/4 - pow2 (-53))) by (apply (double_eq _ (2251799813685247) (-53)); [rewrite u_value; lra|lia|lia]).
  rewrite (fl_id (- (1/4 - pow2 (-53)))) by (apply double_opp, D2).
  replace (0 - - (1/4 - pow2 (-53))) with (1/4 - pow2 (-53)) by ring. rewrite (fl_id (1/4 - pow2 (-53))) by exact D2.
  rewrite (fl_id ((1/4 - pow2 (-53)) * 3)) by (apply (double_eq _ (6755399441055741) (-53)); [rewrite u_value; lra|lia|lia]).
  replace (- (1/4) - (1/4 - pow2 (-53)) * 3) with (- (1 - 3 * pow2 (-53))) by field.
  apply fl_id, double_opp. apply (double_eq _ (9007199254740989) (-53)); [rewrite u_value; lra|lia|lia].
Qed.
Lemma glitch_exact : tct_bezier_number glitch_tct None (Some 5%nat) glitch_x = Ok (- (3/4) + pow2 (-52)).
Proof.
  unfold tct_bezier_number, tct_bezier, bezier_center. cbn [start_x end_x start_y end_y glitch_tct len_left len_right slope_left slope_right].
  rewrite !(Reqb_true 0 0) by reflexivity. cbn [andb bind fst snd].
  rewrite !(Rleb_true 0 0) by lra. rewrite !Rleb_true by (rewrite ?p52; lra). cbn [andb negb raise_if mapM].
  unfold in_wave, wave_end. cbn [start_x end_x len_left len_right glitch_tct].
  rewrite (Rleb_true 0 glitch_x) by (unfold glitch_x; rewrite p51; lra).
  rewrite (Rleb_true glitch_x) by (rewrite INR_IZR_INZ; unfold glitch_x; rewrite p51, p52; simpl; lra). cbn [andb].
  unfold wave_value, period_length. cbn [len_left len_right start_x glitch_tct].
  rewrite Rminus_0_r. replace (1 / 2 + pow2 (-52) + 1 / 2) with (1 + pow2 (-52)) by field.
  rewrite (Reqb_false (1 + pow2 (-52)) 0) by (rewrite p52; lra).
  assert (Ip : Int_part (glitch_x / (1 + pow2 (-52))) = 2%Z).
  { apply Int_part_div; [rewrite p52; lra|]. unfold glitch_x. rewrite p51, p52. lra. }
  rewrite Ip. unfold bezier_length, right_lin_length, y_offset_inv, y_offset_period, left_lin_length, right_lin_length.
  cbn [start_x end_x start_y end_y len_left len_right slope_left slope_right glitch_tct fst snd].
  replace (glitch_x - (1 + pow2 (-52)) * 2) with 1 by (unfold glitch_x; rewrite p51, p52; lra).
  rewrite !Rltb_false by lra. cbn [bind forallb]. unfold in_wave, wave_end. cbn [start_x end_x len_left len_right glitch_tct].
  rewrite (Rleb_true 0 glitch_x) by (unfold glitch_x; rewrite p51; lra).
  rewrite (Rleb_true glitch_x) by (rewrite INR_IZR_INZ; unfold glitch_x; rewrite p51, p52; simpl; lra). cbn [andb get_item nth_error].
  unfold y_offset_inv, right_lin_length. cbn [end_y end_x fst len_right slope_right glitch_tct bind get_item nth_error].
  f_equal. rewrite p52. lra.
Qed.
