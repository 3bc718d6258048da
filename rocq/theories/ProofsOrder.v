(** Consecutive total charge transitions do not touch. *)
From Verif Require Import RPrelude Arr ModelSupport ModelTct SpecTct ProofsTct ProofsTctShape ModelCsd SpecCsd ProofsRegions ProofsScan SpecOrder.
Local Open Scope R_scope.

(** One cell between two corners at the same height relative to the mean slope [mu]. *)
Lemma cell_bound a b h x0 y0 lr ll dr dl t :
  a <= b -> slopes_in a b h -> 0 <= dr -> 0 <= dl -> 2 * dr <= lr -> 2 * dl <= ll -> 0 < ll + lr ->
  h (x0 + (lr - dr)) = y0 + (lr - dr) * a -> h (x0 + (lr + dl)) = y0 + lr * a + dl * b ->
  0 <= t <= ll + lr -> h (x0 + t) <= y0 + (ll * b + lr * a) / (ll + lr) * t.
Proof.
  intros Hab S Hdr Hdl H1 H2 HL E1 E2 Ht.
  assert (E : (ll * b + lr * a) / (ll + lr) = a + ll / (ll + lr) * (b - a)) by (field; lra).
  assert (E' : (ll * b + lr * a) / (ll + lr) = b - lr / (ll + lr) * (b - a)) by (field; lra).
  assert (I : 0 < / (ll + lr)) by (apply Rinv_0_lt_compat; lra).
  set (la := ll / (ll + lr)) in *.
  assert (La : 0 <= la) by (apply Rmult_le_pos; lra).
  assert (La1 : lr / (ll + lr) = 1 - la) by (unfold la; field; lra).
  assert (La2 : 0 <= 1 - la) by (rewrite <- La1; apply Rmult_le_pos; lra).
  assert (LL : la * (ll + lr) = ll) by (unfold la; field; lra).
  rewrite E. clear E E' La1.
  destruct (Rle_lt_dec t (lr - dr)) as [C|C].
  - specialize (S (x0 + t) (x0 + (lr - dr)) ltac:(lra)). rewrite E1 in S.
    assert (0 <= la * (b - a) * t) by (apply Rmult_le_pos; [apply Rmult_le_pos|]; lra). nra.
  - destruct (Rle_lt_dec (lr + dl) t) as [D|D].
    + specialize (S (x0 + (lr + dl)) (x0 + t) ltac:(lra)). rewrite E2 in S.
      assert (0 <= (1 - la) * (b - a) * (ll + lr - t)) by (apply Rmult_le_pos; [apply Rmult_le_pos|]; lra). nra.
    + assert (K : (b - a) * (dl - la * (lr - dr + dl)) <= 0).
      { assert (dl - la * (lr - dr + dl) <= 0).
        { assert (dl * (ll + lr) <= ll * (lr - dr + dl)) by nra.
          replace la with (ll * / (ll + lr)) by reflexivity.
          apply Rmult_le_reg_r with (ll + lr); [lra|]. field_simplify; lra. }
        nra. }
      destruct (Rle_lt_dec t (lr - dr + dl)) as [F|F].
      * pose proof (S (x0 + (lr - dr)) (x0 + t) ltac:(lra)) as S1. rewrite E1 in S1.
        assert (0 <= (1 - la) * (b - a) * (lr - dr + dl - t)) by (apply Rmult_le_pos; [apply Rmult_le_pos|]; lra). nra.
      * pose proof (S (x0 + t) (x0 + (lr + dl)) ltac:(lra)) as S2. rewrite E2 in S2.
        assert (0 <= la * (b - a) * (t - (lr - dr + dl))) by (apply Rmult_le_pos; [apply Rmult_le_pos|]; lra). nra.
Qed.

Lemma find_cell a d n x : (1 <= n)%nat -> a <= x <= a + INR n * d ->
  exists k, (k < n)%nat /\ a + INR k * d <= x <= a + INR (S k) * d.
Proof.
  induction n as [|n IH]; [lia|]. intros _ H. destruct (Rle_lt_dec (a + INR n * d) x) as [C|C].
  - exists n. split; [lia|]. lra.
  - destruct n as [|n]; [simpl in C; lra|]. destruct IH as (k & Hk & Hx); [lia|lra|]. exists k. split; [lia|auto].
Qed.

Section One.
Variable p : tct_params.
Variable c : point.
Variable m : nat.
Variable f : R -> R.
Hypothesis A : admissible p.
Hypothesis Pk : peak p.
Hypothesis Hc : corner p c.
Hypothesis Hm : (1 <= m)%nat.
Hypothesis Hf : is_tct p None (Some m) f.
Let sl := slope_left p.
Let sr := slope_right p.
Let ll := len_left p.
Let lr := len_right p.
Let mu := (ll * sl + lr * sr) / (ll + lr).

Lemma corner_unique c' : corner p c' -> c' = c.
Proof.
  destruct c as [c1 c2], c' as [d1 d2]. destruct Hc as [C1 C2]. intros [D1 D2]. unfold peak in Pk. simpl in *.
  assert ((sl - sr) * (d1 - c1) = 0) by (unfold sl, sr; lra).
  apply Rmult_integral in H as [H|H]; [unfold sl, sr in H; lra|].
  assert (d1 = c1) by lra. subst d1. f_equal. lra.
Qed.
Lemma one_facts : start_x p <= fst c <= end_x p /\ 2 * (fst c - start_x p) <= ll /\ 2 * (end_x p - fst c) <= lr /\ 0 < ll + lr.
Proof.
  destruct A as (_ & HP & c' & Hc' & B1 & B2 & B3). rewrite (corner_unique c' Hc') in *. unfold ll, lr. auto.
Qed.
Lemma one_slopes : slopes_in sr sl f.
Proof. eapply explicit_steps; eauto. left; auto. Qed.
Lemma one_good : good_mode p None. Proof. split; [discriminate|auto]. Qed.
Lemma one_anchor i : (i < m * 2 - 1)%nat ->
  f (fst (left_anchor (closed_anchors p c i))) = snd (left_anchor (closed_anchors p c i)) /\
  f (fst (right_anchor (closed_anchors p c i))) = snd (right_anchor (closed_anchors p c i)).
Proof.
  intros Hi. destruct (anchors_on_tct p None (Some m) m f A one_good (or_intror eq_refl) Hf) as [_ H].
  apply (H i). apply tct_anchors_nth; auto. destruct A; auto.
Qed.
Lemma one_outer : (forall x, x <= start_x p -> f x = start_y p + sl * (x - start_x p)) /\
  (forall x, end_x p + (INR m - 1) * (ll + lr) <= x ->
     f x = end_y p + (INR m - 1) * (ll * sl + lr * sr) + sr * (x - (end_x p + (INR m - 1) * (ll + lr)))).
Proof.
  destruct (tct_total p None None A one_good I) as (f0 & H0).
  destruct (tct_outer p None m f0 f A one_good Hm H0 Hf) as (_ & H1 & H2). split; auto.
Qed.

(** anchors of the k-th peak and valley, relative to the corner *)
Lemma peak_anchor k : (k < m)%nat ->
  f (fst c + INR k * (ll + lr) - (fst c - start_x p)) = snd c + INR k * (ll * sl + lr * sr) - (fst c - start_x p) * sl /\
  f (fst c + INR k * (ll + lr) + (end_x p - fst c)) = snd c + INR k * (ll * sl + lr * sr) + (end_x p - fst c) * sr.
Proof.
  intros H. pose proof (one_anchor (2 * k) ltac:(lia)) as Q. unfold closed_anchors, left_anchor, right_anchor in Q.
  rewrite odd_even, half_even in Q. exact Q.
Qed.
Lemma valley_anchor k : (S k < m)%nat ->
  f (fst c + INR k * (ll + lr) + (lr - (end_x p - fst c))) = snd c + INR k * (ll * sl + lr * sr) + (lr - (end_x p - fst c)) * sr /\
  f (fst c + INR k * (ll + lr) + (lr + (fst c - start_x p))) = snd c + INR k * (ll * sl + lr * sr) + lr * sr + (fst c - start_x p) * sl.
Proof.
  intros H. pose proof (one_anchor (2 * k + 1) ltac:(lia)) as [Q1 Q2]. unfold closed_anchors, left_anchor, right_anchor in Q1, Q2.
  rewrite odd_odd, half_odd in Q1, Q2. cbn [fst snd] in Q1, Q2. fold sl sr ll lr in Q1, Q2. split.
  - replace (fst c + INR k * (ll + lr) + (lr - (end_x p - fst c))) with (fst c + INR k * (ll + lr) + lr - (end_x p - fst c)) by ring.
    rewrite Q1. ring.
  - replace (fst c + INR k * (ll + lr) + (lr + (fst c - start_x p))) with (fst c + INR k * (ll + lr) + lr + (fst c - start_x p)) by ring.
    rewrite Q2. ring.
Qed.

Lemma below_left_line x : f x <= snd c + sl * (x - fst c).
Proof.
  pose proof one_facts as (B & _). destruct Hc as [C1 C2]. fold sl sr in C1, C2.
  destruct (Rle_lt_dec x (start_x p)) as [C|C].
  - rewrite (proj1 one_outer) by auto. lra.
  - destruct (peak_anchor 0 ltac:(lia)) as [E _]. simpl in E.
    replace (fst c + 0 * (ll + lr) - (fst c - start_x p)) with (start_x p) in E by ring.
    pose proof (one_slopes (start_x p) x ltac:(lra)) as [_ S]. rewrite E in S. lra.
Qed.
Lemma below_right_line x :
  f x <= snd c + (INR m - 1) * (ll * sl + lr * sr) + sr * (x - (fst c + (INR m - 1) * (ll + lr))).
Proof.
  pose proof one_facts as (B & _). destruct Hc as [C1 C2]. fold sl sr in C1, C2.
  destruct (Rle_lt_dec (end_x p + (INR m - 1) * (ll + lr)) x) as [C|C].
  - rewrite (proj2 one_outer) by auto. lra.
  - destruct (peak_anchor (m - 1) ltac:(lia)) as [_ E]. rewrite minus_INR in E by lia. change (INR 1) with 1 in E.
    replace (fst c + (INR m - 1) * (ll + lr) + (end_x p - fst c)) with (end_x p + (INR m - 1) * (ll + lr)) in E by ring.
    pose proof (one_slopes x (end_x p + (INR m - 1) * (ll + lr)) ltac:(lra)) as [S _]. rewrite E in S. lra.
Qed.
Lemma mu_mean : mu * (ll + lr) = ll * sl + lr * sr /\ sr <= mu <= sl.
Proof.
  pose proof one_facts as (B & B1 & B2 & B3). unfold peak in Pk. fold sl sr in Pk.
  assert (I : 0 < / (ll + lr)) by (apply Rinv_0_lt_compat; lra).
  assert (E : mu * (ll + lr) = ll * sl + lr * sr) by (unfold mu; field; lra). split; auto.
  assert (0 <= ll) by lra. assert (0 <= lr) by lra.
  split; apply Rmult_le_reg_r with (ll + lr); try lra; rewrite E; nra.
Qed.
Lemma below_peaks x : f x <= snd c + mu * (x - fst c).
Proof.
  pose proof mu_mean as [M1 M2]. pose proof one_facts as (B & B1 & B2 & B3).
  destruct (Rle_lt_dec x (fst c)) as [C|C].
  - pose proof (below_left_line x). nra.
  - destruct (Rle_lt_dec (fst c + (INR m - 1) * (ll + lr)) x) as [D|D].
    + pose proof (below_right_line x).
      assert (0 <= (mu - sr) * (x - (fst c + (INR m - 1) * (ll + lr)))) by (apply Rmult_le_pos; lra).
      rewrite <- M1 in H. nra.
    + destruct (Nat.eq_dec m 1) as [->|N]; [simpl in D; lra|].
      destruct (find_cell (fst c) (ll + lr) (m - 1) x) as (k & Hk & Hx); [lia|rewrite minus_INR by lia; change (INR 1) with 1; lra|].
      rewrite S_INR in Hx. destruct (valley_anchor k ltac:(lia)) as [E1 E2].
      pose proof (cell_bound sr sl f (fst c + INR k * (ll + lr)) (snd c + INR k * (ll * sl + lr * sr)) lr ll
        (end_x p - fst c) (fst c - start_x p) (x - (fst c + INR k * (ll + lr))) ltac:(lra) one_slopes ltac:(lra) ltac:(lra) B2 B1 B3 E1 E2 ltac:(lra)) as Q.
      replace (fst c + INR k * (ll + lr) + (x - (fst c + INR k * (ll + lr)))) with x in Q by ring. fold mu in Q.
      rewrite <- M1 in Q. lra.
Qed.
(** between the first and the last valley *)
Lemma above_valleys x : (2 <= m)%nat -> fst c + lr <= x <= fst c + lr + (INR m - 2) * (ll + lr) ->
  snd c + lr * sr + mu * (x - (fst c + lr)) <= f x.
Proof.
  intros H2 Hx. pose proof mu_mean as [M1 M2]. pose proof one_facts as (B & B1 & B2 & B3).
  destruct (Nat.eq_dec m 2) as [E2|N].
  - assert (Ex : x = fst c + lr) by (rewrite E2 in Hx; simpl in Hx; lra).
    destruct (valley_anchor 0 ltac:(lia)) as [E _]. simpl in E.
    pose proof (one_slopes (fst c + 0 * (ll + lr) + (lr - (end_x p - fst c))) x ltac:(lra)) as [S _].
    rewrite E in S. rewrite Ex in S |- *. lra.
  - destruct (find_cell (fst c + lr) (ll + lr) (m - 2) x) as (k & Hk & Hx'); [lia|rewrite minus_INR by lia; change (INR 2) with 2; lra|].
    rewrite S_INR in Hx'. destruct (peak_anchor (S k) ltac:(lia)) as [E1 E2]. rewrite S_INR in E1, E2.
    assert (S : slopes_in (- sl) (- sr) (fun x => - f x)).
    { intros y z Hyz. pose proof (one_slopes y z Hyz). lra. }
    pose proof (cell_bound (- sl) (- sr) (fun x => - f x) (fst c + lr + INR k * (ll + lr)) (- (snd c + lr * sr + INR k * (ll * sl + lr * sr))) ll lr
      (fst c - start_x p) (end_x p - fst c) (x - (fst c + lr + INR k * (ll + lr))) ltac:(lra) S ltac:(lra) ltac:(lra) B1 B2 ltac:(lra)) as Q.
    cbn beta in Q.
    replace (fst c + lr + INR k * (ll + lr) + (ll - (fst c - start_x p))) with (fst c + (INR k + 1) * (ll + lr) - (fst c - start_x p)) in Q by ring.
    replace (fst c + lr + INR k * (ll + lr) + (ll + (end_x p - fst c))) with (fst c + (INR k + 1) * (ll + lr) + (end_x p - fst c)) in Q by ring.
    rewrite E1, E2 in Q. specialize (Q ltac:(ring) ltac:(ring) ltac:(lra)).
    replace (fst c + lr + INR k * (ll + lr) + (x - (fst c + lr + INR k * (ll + lr)))) with x in Q by ring.
    replace ((lr * - sr + ll * - sl) / (lr + ll)) with (- mu) in Q by (unfold mu; field; lra).
    rewrite <- M1 in Q. lra.
Qed.
Lemma above_left x : (2 <= m)%nat -> x <= fst c + lr -> snd c + lr * sr + sl * (x - (fst c + lr)) <= f x.
Proof.
  intros H2 Hx. pose proof one_facts as (B & B1 & B2 & B3).
  assert (2 <= INR m) by (change 2 with (INR 2); apply le_INR; auto).
  pose proof (above_valleys (fst c + lr) H2 ltac:(nra)) as V.
  pose proof (one_slopes x (fst c + lr) Hx) as [_ S]. lra.
Qed.
Lemma above_right x : (2 <= m)%nat -> fst c + lr + (INR m - 2) * (ll + lr) <= x ->
  snd c + lr * sr + (INR m - 2) * (ll * sl + lr * sr) + sr * (x - (fst c + lr + (INR m - 2) * (ll + lr))) <= f x.
Proof.
  intros H2 Hx. pose proof one_facts as (B & B1 & B2 & B3). pose proof mu_mean as [M1 M2].
  assert (2 <= INR m) by (change 2 with (INR 2); apply le_INR; auto).
  pose proof (above_valleys (fst c + lr + (INR m - 2) * (ll + lr)) H2 ltac:(nra)) as V.
  pose proof (one_slopes (fst c + lr + (INR m - 2) * (ll + lr)) x Hx) as [S _]. rewrite <- M1. lra.
Qed.
End One.

Lemma explicit_gap p q n delta f g : (1 <= n)%nat -> admissible p -> peak p -> admissible q -> peak q ->
  placed_above delta n p q -> is_tct p None (Some n) f -> is_tct q None (Some (S n)) g ->
  forall x, f x + delta <= g x.
Proof.
  intros Hn Ap Pp Aq Pq ([L1 L2] & (d0 & (cp & cq & Cp & Cq & ->) & [R1 R2]) & (d1 & (cp' & cq' & Cp' & Cq' & ->) & [S1 S2])) Hf Hg x.
  rewrite (corner_unique p cp Pp Cp cp' Cp') in *. rewrite (corner_unique q cq Pq Cq cq' Cq') in *. clear Cp' Cq' cp' cq'.
  unfold peak_point in *. cbn [fst snd] in *. change (INR 0) with 0 in *. rewrite minus_INR in S1, S2 by lia. change (INR 1) with 1 in *.
  pose proof (mu_mean p cp Ap Pp Cp) as [M1 M2]. pose proof (mu_mean q cq Aq Pq Cq) as [N1 N2].
  pose proof (one_facts p cp Ap Pp Cp) as (Q0 & Q1 & Q2 & Q3). pose proof (one_facts q cq Aq Pq Cq) as (Q4 & Q5 & Q6 & Q7).
  assert (1 <= INR n) by (change 1 with (INR 1); apply le_INR; auto).
  destruct (Rle_lt_dec x (fst cq + len_right q)) as [C|C].
  - pose proof (above_left q cq (S n) g Aq Pq Cq ltac:(lia) Hg x ltac:(lia) C) as G.
    pose proof (below_left_line p cp n f Ap Pp Cp Hn Hf x) as F. nra.
  - destruct (Rle_lt_dec (fst cq + len_right q + (INR (S n) - 2) * (len_left q + len_right q)) x) as [D|D].
    + pose proof (above_right q cq (S n) g Aq Pq Cq ltac:(lia) Hg x ltac:(lia) D) as G.
      pose proof (below_right_line p cp n f Ap Pp Cp Hn Hf x) as F. rewrite S_INR in G, D.
      set (x1 := fst cq + len_right q + (INR n + 1 - 2) * (len_left q + len_right q)) in *.
      assert (0 <= (slope_right q - slope_right p) * (x - x1)) by (apply Rmult_le_pos; lra).
      replace (fst cq + (INR n - 1) * (len_left q + len_right q) + len_right q) with x1 in S1, S2 by (unfold x1; ring).
      lra.
    + pose proof (above_valleys q cq (S n) g Aq Pq Cq ltac:(lia) Hg x ltac:(lia) ltac:(lra)) as G.
      pose proof (below_peaks p cp n f Ap Pp Cp Hn Hf x) as F. rewrite S_INR in D.
      set (mu := (len_left p * slope_left p + len_right p * slope_right p) / (len_left p + len_right p)) in *.
      set (nu := (len_left q * slope_left q + len_right q * slope_right q) / (len_left q + len_right q)) in *.
      rewrite <- M1, <- N1 in S1, S2. clear M1 N1.
      set (k := INR n - 1) in *.
      set (x0 := fst cq + len_right q) in *. set (y0 := snd cq + len_right q * slope_right q) in *.
      assert (K0 : snd cp + mu * (x0 - fst cp) + delta <= y0).
      { assert (E1 : slope_left p * (x0 - fst cp) + delta <= y0 - snd cp) by (unfold x0, y0; lra).
        assert (E2 : slope_right p * (x0 - fst cp) + delta <= y0 - snd cp) by (unfold x0, y0; lra).
        destruct (Rle_lt_dec 0 (x0 - fst cp)); nra. }
      set (x1 := x0 + k * (len_left q + len_right q)) in *.
      assert (K1 : snd cp + mu * (x1 - fst cp) + delta <= y0 + nu * (x1 - x0)).
      { set (z := x1 - (fst cp + k * (len_left p + len_right p))).
        assert (E1 : slope_left p * z + delta <= y0 + nu * (x1 - x0) - (snd cp + mu * (k * (len_left p + len_right p)))) by (unfold z, x1, x0, y0; lra).
        assert (E2 : slope_right p * z + delta <= y0 + nu * (x1 - x0) - (snd cp + mu * (k * (len_left p + len_right p)))) by (unfold z, x1, x0, y0; lra).
        replace (mu * (x1 - fst cp)) with (mu * z + mu * (k * (len_left p + len_right p))) by (unfold z; ring).
        destruct (Rle_lt_dec 0 z); nra. }
      assert (B : x0 <= x <= x1) by (unfold x1, k; lra).
      destruct (Rle_lt_dec mu nu) as [O|O].
      * assert (0 <= (nu - mu) * (x - x0)) by (apply Rmult_le_pos; lra). lra.
      * assert (0 <= (mu - nu) * (x1 - x)) by (apply Rmult_le_pos; lra). lra.
Qed.

Lemma bounded_explicit L eps lut p k F : 0 <= eps -> bounded_tct L eps lut p -> (1 <= k)%nat -> is_tct p lut (Some k) F ->
  exists f, is_tct p None (Some k) f /\ (forall x, Rabs (F x - f x) <= eps).
Proof.
  intros He (A & Pk & S1 & S2 & M) Hk HF.
  assert (Ex : explicit lut -> exists f, is_tct p None (Some k) f /\ (forall x, Rabs (F x - f x) <= eps)).
  { intros E. exists F. split.
    - intros x. specialize (HF x). destruct E as [->| ->]; exact HF.
    - intros x. rewrite Rminus_diag_eq, Rabs_R0 by auto. auto. }
  destruct lut as [[|n]|]; [apply Ex; right; auto| |apply Ex; left; auto].
  destruct M as [Hn M]. destruct (tct_lut_error p (S n) (Some k) A Pk Hn Hk) as (f & g & If & Ig & C).
  exists f. split; auto. intros x. specialize (Ig x). rewrite HF in Ig. inversion Ig as [Eg]. rewrite Eg. specialize (C x).
  refine (Rle_trans _ _ _ C _). refine (Rle_trans _ _ _ _ M). apply Rmult_le_compat_r.
  - destruct A as (_ & _ & c & _ & [A1 A2] & _). apply Rmult_le_pos; [lra|]. left. apply Rinv_0_lt_compat, lt_0_INR. lia.
  - apply Rmax_lub; auto.
Qed.

Lemma tct_gap L eps lut p q n delta f g : 0 <= eps -> (1 <= n)%nat -> bounded_tct L eps lut p -> bounded_tct L eps lut q ->
  placed_above delta n p q -> is_tct p lut (Some n) f -> is_tct q lut (Some (S n)) g ->
  forall x, f x + delta - 2 * eps <= g x.
Proof.
  intros He Hn Bp Bq Sm Hf Hg x.
  destruct (bounded_explicit L eps lut p n f He Bp Hn Hf) as (f' & Hf' & Cf).
  destruct (bounded_explicit L eps lut q (S n) g He Bq ltac:(lia) Hg) as (g' & Hg' & Cg).
  pose proof (explicit_gap p q n delta f' g' Hn ltac:(apply Bp) ltac:(apply Bp) ltac:(apply Bq) ltac:(apply Bq) Sm Hf' Hg' x).
  specialize (Cf x). specialize (Cg x). apply Rabs_le_inv in Cf. apply Rabs_le_inv in Cg. lra.
Qed.

Section Stack.
Variables (params : list tct_params) (lut : option nat) (L eps delta : R).
Hypothesis He : 0 <= eps.
Hypothesis HB : Forall (bounded_tct L eps lut) params.
Hypothesis HS : stacked delta params.

Lemma nth_bounded k p : nth_error params k = Some p -> bounded_tct L eps lut p.
Proof. intros H. rewrite Forall_forall in HB. apply HB. eapply nth_error_In; eauto. Qed.
Lemma stack_gap n p q f g : (1 <= n)%nat -> nth_error params (n - 1) = Some p -> nth_error params n = Some q ->
  is_tct p lut (Some n) f -> is_tct q lut (Some (S n)) g -> forall x, f x + delta - 2 * eps <= g x.
Proof.
  intros Hn Ep Eq Hf Hg x. apply (tct_gap L eps lut p q n delta f g); auto; eapply nth_bounded; eauto.
Qed.
Lemma stack_exists k p : (1 <= k)%nat -> nth_error params (k - 1) = Some p -> exists f, is_tct p lut (Some k) f.
Proof.
  intros Hk E. pose proof (nth_bounded _ _ E) as B. destruct (bounded_good _ _ _ _ B) as [A G].
  apply tct_total; auto.
Qed.
Lemma stack_between a b p q f g : (1 <= a <= b)%nat -> nth_error params (a - 1) = Some p -> nth_error params (b - 1) = Some q ->
  is_tct p lut (Some a) f -> is_tct q lut (Some b) g -> forall x, f x + INR (b - a) * (delta - 2 * eps) <= g x.
Proof.
  intros [Ha Hab]. revert q g. induction Hab as [|b Hab IH]; intros q g Ep Eq Hf Hg x.
  - rewrite Ep in Eq. inversion Eq; subst q. rewrite Nat.sub_diag. simpl INR. specialize (Hf x). specialize (Hg x).
    rewrite Hf in Hg. inversion Hg. lra.
  - replace (S b - 1)%nat with b in Eq by lia.
    destruct (nth_error params (b - 1)) as [r|] eqn:Er.
    2:{ apply nth_error_None in Er. assert (b < length params)%nat by (apply nth_error_Some; congruence). lia. }
    destruct (stack_exists b r ltac:(lia) Er) as (h & Hh).
    pose proof (IH r h Ep eq_refl Hf Hh x). pose proof (stack_gap b r q h g ltac:(lia) Er Eq Hh Hg x).
    replace (S b - a)%nat with (S (b - a)) by lia. rewrite S_INR. lra.
Qed.

Hypothesis Hd : 2 * eps < delta.
Lemma above_lower rot v a b : (1 <= a <= b)%nat -> on_or_above params lut rot v b -> on_or_above params lut rot v a.
Proof.
  intros Hab (q & y & Hb & Eq & Ey & Hy).
  destruct (nth_error params (a - 1)) as [p|] eqn:Ep.
  2:{ apply nth_error_None in Ep. assert (b - 1 < length params)%nat by (apply nth_error_Some; congruence). lia. }
  destruct (stack_exists a p ltac:(lia) Ep) as (f & Hf). destruct (stack_exists b q Hb Eq) as (g & Hg).
  pose proof (stack_between a b p q f g Hab Ep Eq Hf Hg (fst (tct_view rot v))) as G.
  rewrite Hg in Ey. assert (Y : y = g (fst (tct_view rot v))) by congruence. exists p, (f (fst (tct_view rot v))). repeat split; auto; [lia|].
  assert (0 <= INR (b - a) * (delta - 2 * eps)) by (apply Rmult_le_pos; [apply pos_INR|lra]). lra.
Qed.
Lemma above_or_below rot v k : (1 <= k <= length params)%nat -> on_or_above params lut rot v k \/ strictly_below params lut rot v k.
Proof.
  intros Hk. destruct (nth_error params (k - 1)) as [p|] eqn:Ep; [|apply nth_error_None in Ep; lia].
  destruct (stack_exists k p ltac:(lia) Ep) as (f & Hf).
  destruct (Rle_lt_dec (f (fst (tct_view rot v))) (snd (tct_view rot v))); [left|right]; exists p, (f (fst (tct_view rot v))); repeat split; auto; lia.
Qed.
Lemma not_both rot v k : on_or_above params lut rot v k -> strictly_below params lut rot v k -> False.
Proof. intros (p & y & _ & E & F & H) (q & z & _ & E' & F' & H'). rewrite E in E'. assert (p = q) by congruence. subst q. rewrite F in F'. assert (y = z) by congruence. lra. Qed.
Lemma passed_exists rot v : exists n, passed params lut rot v n.
Proof.
  assert (H : forall k, (k <= length params)%nat -> exists n, (n <= k)%nat /\ forall j, (1 <= j <= k)%nat -> (on_or_above params lut rot v j <-> (j <= n)%nat)).
  { induction k as [|k IH]; [exists 0%nat; split; lia|]. intros Hk. destruct (above_or_below rot v (S k) ltac:(lia)) as [A|B].
    - exists (S k). split; [lia|]. intros j Hj. split; [lia|]. intros _. apply (above_lower rot v j (S k)); auto; lia.
    - destruct (IH ltac:(lia)) as (n & Hn & H). exists n. split; [lia|]. intros j Hj. destruct (Nat.eq_dec j (S k)) as [->|N].
      + split; [intros A; destruct (not_both _ _ _ A B)|lia].
      + apply H. lia. }
  destruct (H (length params) (le_n _)) as (n & Hn & Hj). exists n. split; auto.
Qed.
Lemma passed_unique rot v n n' : passed params lut rot v n -> passed params lut rot v n' -> n = n'.
Proof.
  intros [H1 H] [H1' H']. destruct (lt_eq_lt_dec n n') as [[C|C]|C]; auto; exfalso.
  - specialize (H n' ltac:(lia)). specialize (H' n' ltac:(lia)). assert (n' <= n)%nat by (apply H, H'; lia). lia.
  - specialize (H n ltac:(lia)). specialize (H' n ltac:(lia)). assert (n <= n')%nat by (apply H', H; lia). lia.
Qed.
Lemma electrons_passed rot v n : electrons params lut rot v n <-> (n < length params)%nat /\ passed params lut rot v n.
Proof.
  split.
  - intros [H B]. assert (Hn : (n < length params)%nat).
    { destruct B as (p & y & _ & E & _). replace (S n - 1)%nat with n in E by lia. apply nth_error_Some. congruence. }
    split; auto. split; [lia|]. intros k Hk. split; [|intros; apply H; lia].
    intros A. destruct (le_lt_dec k n) as [C|C]; auto. exfalso. apply (not_both rot v (S n)); auto. apply (above_lower rot v (S n) k); auto; lia.
  - intros [Hn [_ H]]. split.
    + intros k Hk. apply H; lia.
    + destruct (above_or_below rot v (S n) ltac:(lia)) as [A|B]; auto. apply H in A; lia.
Qed.
Lemma above_all_last rot v : (1 <= length params)%nat -> (above_all params lut rot v <-> on_or_above params lut rot v (length params)).
Proof.
  intros Hl. split; [intros H; apply H; lia|]. intros H k Hk. apply (above_lower rot v k (length params)); auto; lia.
Qed.
Lemma above_all_passed rot v : (above_all params lut rot v <-> passed params lut rot v (length params)).
Proof.
  split.
  - intros H. split; [lia|]. intros k Hk. split; [lia|]. auto.
  - intros [_ H] k Hk. apply H; lia.
Qed.
Lemma electrons_or_above rot v : (exists n, electrons params lut rot v n) \/ above_all params lut rot v.
Proof.
  destruct (passed_exists rot v) as (n & P). destruct (Nat.eq_dec n (length params)) as [->|N].
  - right. apply above_all_passed; auto.
  - left. exists n. apply electrons_passed. split; auto. destruct P. lia.
Qed.
End Stack.

(** ** parallel lines of equal lengths *)
Lemma parallel_above delta n p q d : same_lines p q -> interdot_vector p q 0 d -> rises delta p d -> placed_above delta n p q.
Proof.
  intros (L1 & L2 & S1 & S2) V H. split; [split; lra|]. split; exists d; [auto|]. split; [|auto].
  destruct V as (cp & cq & C1 & C2 & ->). exists cp, cq. split; [auto|]. split; [auto|].
  unfold peak_point. cbn [fst snd]. rewrite L1, L2, S1, S2. f_equal; ring.
Qed.
Lemma counting params lut L eps delta rot v : 0 <= eps -> Forall (bounded_tct L eps lut) params -> stacked delta params ->
  2 * eps < delta ->
  exists n, passed params lut rot v n /\ (forall n', passed params lut rot v n' -> n' = n) /\
    (forall m, electrons params lut rot v m <-> m = n /\ (n < length params)%nat) /\
    (above_all params lut rot v <-> n = length params).
Proof.
  intros He HB HS Hd. destruct (passed_exists params lut L eps delta He HB HS Hd rot v) as (n & N). exists n.
  assert (U : forall n', passed params lut rot v n' -> n' = n) by (intros n' N'; apply (passed_unique params lut rot v n' n N' N)).
  split; [exact N|]. split; [exact U|]. split.
  - intros m. rewrite (electrons_passed params lut L eps delta He HB HS Hd rot v m). split.
    + intros [Hm Pm]. rewrite <- (U m Pm). auto.
    + intros [-> Hn]. auto.
  - rewrite (above_all_passed params lut rot v). split; [intros P; symmetry; auto|intros <-; auto].
Qed.
