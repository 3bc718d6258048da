(** Proofs about the total charge transition model. *)
From Verif Require Import RPrelude ModelSupport ModelTct SpecTct.
Local Open Scope R_scope.

(** ** floor *)
Lemma Int_part_bounds r : IZR (Int_part r) <= r < IZR (Int_part r) + 1.
Proof. destruct (base_Int_part r); lra. Qed.

Lemma Int_part_unique r k : IZR k <= r < IZR k + 1 -> Int_part r = k.
Proof.
  intros H. destruct (Int_part_bounds r) as [A B].
  assert (Int_part r < k + 1)%Z by (apply lt_IZR; rewrite plus_IZR; lra).
  assert (k < Int_part r + 1)%Z by (apply lt_IZR; rewrite plus_IZR; lra).
  lia.
Qed.

Lemma Int_part_div x P k : 0 < P -> IZR k * P <= x < (IZR k + 1) * P -> Int_part (x / P) = k.
Proof.
  intros HP H. apply Int_part_unique. split.
  - apply Rmult_le_reg_r with P; auto. unfold Rdiv; rewrite Rmult_assoc, Rinv_l by lra. lra.
  - apply Rmult_lt_reg_r with P; auto. unfold Rdiv; rewrite Rmult_assoc, Rinv_l by lra. lra.
Qed.

Lemma div_bounds x P : 0 < P -> IZR (Int_part (x / P)) * P <= x < (IZR (Int_part (x / P)) + 1) * P.
Proof.
  intros HP. destruct (Int_part_bounds (x / P)) as [A B].
  assert (E : x / P * P = x) by (field; lra).
  pose proof (Rmult_le_compat_r P _ _ (Rlt_le _ _ HP) A).
  pose proof (Rmult_lt_compat_r P _ _ HP B). lra.
Qed.

(** ** secant slopes *)
Definition slopes_on (lo hi : R) (f : R -> R) (P : R -> Prop) : Prop :=
  forall x y, P x -> P y -> x <= y -> lo * (y - x) <= f y - f x <= hi * (y - x).

Lemma slopes_glue lo hi f (P Q : R -> Prop) b :
  slopes_on lo hi f (fun x => P x /\ x <= b) -> slopes_on lo hi f (fun x => Q x /\ b <= x) ->
  P b -> Q b ->
  slopes_on lo hi f (fun x => (P x /\ x <= b) \/ (Q x /\ b <= x)).
Proof.
  intros H1 H2 Pb Qb x y Hx Hy L.
  destruct Hx as [Hx|Hx], Hy as [Hy|Hy].
  - apply H1; auto.
  - destruct Hx as [Hx Lx], Hy as [Hy Ly].
    pose proof (H1 x b ltac:(split; auto) ltac:(split; auto; lra) Lx).
    pose proof (H2 b y ltac:(split; auto; lra) ltac:(split; auto) Ly).
    lra.
  - destruct Hx as [Hx Lx], Hy as [Hy Ly]. assert (x = y) by lra. subst y. lra.
  - apply H2; auto.
Qed.

Definition slopes_int lo hi f a b := slopes_on lo hi f (fun x => a <= x <= b).

Lemma slopes_int_glue lo hi f a b c : a <= b -> b <= c ->
  slopes_int lo hi f a b -> slopes_int lo hi f b c -> slopes_int lo hi f a c.
Proof.
  intros L1 L2 H1 H2 x y Hx Hy L.
  destruct (Rle_dec y b).
  - apply H1; lra.
  - destruct (Rle_dec b x).
    + apply H2; lra.
    + pose proof (H1 x b ltac:(lra) ltac:(lra) ltac:(lra)).
      pose proof (H2 b y ltac:(lra) ltac:(lra) ltac:(lra)). lra.
Qed.

Lemma slopes_int_ext lo hi f g a b :
  (forall x, a <= x <= b -> f x = g x) -> slopes_int lo hi g a b -> slopes_int lo hi f a b.
Proof. intros E H x y Hx Hy L. rewrite !E by auto. apply H; auto. Qed.

Lemma slopes_in_continuity lo hi f : slopes_in lo hi f -> continuity f.
Proof.
  intros H x0. unfold continuity_pt, continue_in, limit1_in, limit_in. simpl. intros eps He.
  set (L := Rabs lo + Rabs hi + 1).
  assert (HL : 0 < L) by (unfold L; pose proof (Rabs_pos lo); pose proof (Rabs_pos hi); lra).
  exists (eps / L). split; [apply Rdiv_lt_0_compat; lra|].
  intros x [_ Hd]. unfold R_dist in *.
  assert (B : Rabs (f x - f x0) <= L * Rabs (x - x0)).
  { pose proof (Rle_abs lo); pose proof (Rle_abs hi).
    pose proof (Rle_abs (- lo)) as A1; pose proof (Rle_abs (- hi)) as A2. rewrite Rabs_Ropp in A1, A2.
    assert (G : forall a b, a <= b -> Rabs (f b - f a) <= L * (b - a)).
    { intros a b Lab. specialize (H a b Lab). apply Rabs_le.
      assert (hi * (b - a) <= L * (b - a)) by (apply Rmult_le_compat_r; unfold L; lra).
      assert (- L * (b - a) <= lo * (b - a)) by (apply Rmult_le_compat_r; unfold L; lra).
      lra. }
    destruct (Rle_dec x0 x) as [D|D].
    - rewrite (Rabs_right (x - x0)) by lra. apply G; auto.
    - rewrite (Rabs_left (x - x0)) by lra. rewrite Rabs_minus_sym.
      replace (- (x - x0)) with (x0 - x) by ring. apply G; lra. }
  apply Rle_lt_trans with (1 := B).
  apply Rmult_lt_reg_r with (/ L); [apply Rinv_0_lt_compat; auto|].
  replace (L * Rabs (x - x0) * / L) with (Rabs (x - x0)) by (field; lra). exact Hd.
Qed.

(** ** the bezier part *)
Section Bezier.
Variable p : tct_params.
Variable c : point.
Hypothesis Hc : corner p c.
Hypothesis Hb : start_x p <= fst c <= end_x p.

Let u := fst c - start_x p.
Let v := end_x p - fst c.
Let sl := slope_left p.
Let sr := slope_right p.

Definition cx (t : R) := start_x p + (v - u) * t^2 + 2 * u * t.
Definition cy (t : R) := start_y p + (sr * v - sl * u) * t^2 + 2 * sl * u * t.

Lemma bez_x t : bezier_at (start_x p) (fst c) (end_x p) t = cx t.
Proof. unfold bezier_at, cx, u, v. ring. Qed.
Lemma bez_y t : bezier_at (start_y p) (snd c) (end_y p) t = cy t.
Proof.
  destruct Hc as [A B]. unfold bezier_at, cy, u, v, sl, sr.
  replace (end_y p) with (snd c + slope_right p * (end_x p - fst c)) by lra.
  replace (snd c) with (start_y p + slope_left p * (fst c - start_x p)) by lra. ring.
Qed.

Lemma uv : 0 <= u /\ 0 <= v. Proof. unfold u, v; lra. Qed.

Lemma end_y_uv : end_y p = start_y p + sl * u + sr * v.
Proof. destruct Hc as [A B]. unfold u, v, sl, sr. lra. Qed.

(** the parameter of the curve point above x *)
Definition tpar (x : R) := (x - start_x p) / (u + sqrt (u^2 + (v - u) * (x - start_x p))).

Lemma disc_nonneg x : start_x p <= x <= end_x p -> 0 <= u^2 + (v - u) * (x - start_x p).
Proof.
  intros Hx. destruct uv. 
  assert (X : 0 <= x - start_x p <= u + v) by (unfold u, v; lra).
  destruct (Rle_dec u v).
  - pose proof (pow2_ge_0 u). assert (0 <= (v - u) * (x - start_x p)) by (apply Rmult_le_pos; lra). lra.
  - assert ((u - v) * (x - start_x p) <= (u - v) * (u + v)) by (apply Rmult_le_compat_l; lra).
    pose proof (pow2_ge_0 v). nra.
Qed.

Lemma den_pos x : start_x p < x <= end_x p -> 0 < u + sqrt (u^2 + (v - u) * (x - start_x p)).
Proof.
  intros Hx. destruct uv. destruct (Rlt_dec 0 u).
  - pose proof (sqrt_pos (u^2 + (v - u) * (x - start_x p))). lra.
  - assert (U : u = 0) by lra. rewrite U in *. 
    assert (V : 0 < v) by (unfold v, u in *; lra).
    replace (0^2 + (v - 0) * (x - start_x p)) with (v * (x - start_x p)) by ring.
    assert (0 < sqrt (v * (x - start_x p))) by (apply sqrt_lt_R0; apply Rmult_lt_0_compat; lra). lra.
Qed.

Lemma tpar_x x : start_x p <= x <= end_x p -> cx (tpar x) = x.
Proof.
  intros Hx. destruct (Req_dec x (start_x p)) as [E|E].
  - subst x. unfold tpar, cx. replace (start_x p - start_x p) with 0 by ring.
    unfold Rdiv. rewrite Rmult_0_l. ring.
  - pose proof (den_pos x ltac:(lra)) as D. pose proof (disc_nonneg x Hx) as N.
    unfold tpar, cx. set (s := sqrt _) in *. 
    assert (S : s * s = u^2 + (v - u) * (x - start_x p)) by (apply sqrt_sqrt; auto).
    set (z := x - start_x p) in *.
    assert (Z : (v - u) * z = s * s - u^2) by lra.
    replace (start_x p + (v - u) * (z / (u + s)) ^ 2 + 2 * u * (z / (u + s)))
      with (start_x p + z * (((v - u) * z + 2 * u * (u + s)) / (u + s)^2)) by (field; lra).
    rewrite Z. replace (s * s - u ^ 2 + 2 * u * (u + s)) with ((u + s)^2) by ring.
    replace ((u + s) ^ 2 / (u + s) ^ 2) with 1 by (field; lra). unfold z. ring.
Qed.

Lemma tpar_01 x : start_x p <= x <= end_x p -> 0 <= tpar x <= 1.
Proof.
  intros Hx. destruct (Req_dec x (start_x p)) as [E|E].
  - subst x. unfold tpar. replace (start_x p - start_x p) with 0 by ring.
    unfold Rdiv. rewrite Rmult_0_l. lra.
  - pose proof (den_pos x ltac:(lra)) as D. pose proof (disc_nonneg x Hx) as N.
    unfold tpar. set (s := sqrt _) in *.
    assert (S : s * s = u^2 + (v - u) * (x - start_x p)) by (apply sqrt_sqrt; auto).
    assert (S0 : 0 <= s) by apply sqrt_pos.
    set (z := x - start_x p) in *. assert (Z : 0 < z <= u + v) by (unfold z, u, v; lra).
    split.
    + apply Rle_mult_inv_pos; lra.
    + apply Rmult_le_reg_r with (u + s); auto. unfold Rdiv. rewrite Rmult_assoc, Rinv_l by lra.
      rewrite Rmult_1_r, Rmult_1_l.
      destruct (Rle_dec (z - u) 0); [lra|].
      cut (z - u <= s); [lra|]. destruct uv.
      apply Rsqr_incr_0; try lra. unfold Rsqr. rewrite S.
      cut (0 <= z * (u + v - z)); [intros; nra|]. apply Rmult_le_pos; lra.
Qed.

(** the explicit solution is the curve point *)
Lemma bezier_solve_value x : sr <= sl -> 0 < end_x p - start_x p -> start_x p <= x <= end_x p ->
  bezier_solve p c x = cy (tpar x).
Proof.
  intros Hs HL Hx. unfold bezier_solve. rewrite !bez_y.
  pose proof (disc_nonneg x Hx) as N. destruct uv as [U V].
  replace (start_x p - 2 * fst c + end_x p) with (v - u) by (unfold u, v; ring).
  replace (2 * (fst c - start_x p)) with (2 * u) by (unfold u; ring).
  destruct (Reqb_spec (v - u) 0) as [A|A].
  - assert (v = u) by lra. assert (0 < u) by (unfold u, v in *; lra).
    unfold tpar. replace (u ^ 2 + (v - u) * (x - start_x p)) with (u * u) by (rewrite A; ring).
    rewrite sqrt_square by lra. f_equal. f_equal. lra.
  - replace ((2 * u) ^ 2 - 4 * (v - u) * (start_x p - x))
      with (2^2 * (u ^ 2 + (v - u) * (x - start_x p))) by ring.
    rewrite sqrt_mult by (auto; lra). rewrite sqrt_pow2 by lra.
    set (s := sqrt _).
    assert (S : s * s = u^2 + (v - u) * (x - start_x p)) by (apply sqrt_sqrt; auto).
    assert (S0 : 0 <= s) by apply sqrt_pos.
    assert (D : 0 <= cy ((- (2 * u) + 2 * s) / (2 * (v - u))) - cy ((- (2 * u) - 2 * s) / (2 * (v - u)))).
    { unfold cy.
      replace (start_y p + (sr * v - sl * u) * ((- (2 * u) + 2 * s) / (2 * (v - u))) ^ 2
               + 2 * sl * u * ((- (2 * u) + 2 * s) / (2 * (v - u))) -
               (start_y p + (sr * v - sl * u) * ((- (2 * u) - 2 * s) / (2 * (v - u))) ^ 2
               + 2 * sl * u * ((- (2 * u) - 2 * s) / (2 * (v - u)))))
        with (4 * (u * v) * (sl - sr) * s / (v - u)^2) by (field; auto).
      apply Rle_mult_inv_pos.
      - repeat apply Rmult_le_pos; lra.
      - apply RPrelude.sqr_pos; auto. }
    rewrite Rmax_right by lra. f_equal.
    destruct (Req_dec x (start_x p)) as [E|E].
    + assert (Hs0 : s = u).
      { unfold s. rewrite E. replace (u ^ 2 + (v - u) * (start_x p - start_x p)) with (u * u) by ring.
        apply sqrt_square; lra. }
      rewrite Hs0. unfold tpar. rewrite E. 
      replace (start_x p - start_x p) with 0 by ring. unfold Rdiv. rewrite Rmult_0_l. 
      replace (- (2 * u) + 2 * u) with 0 by ring. ring.
    + pose proof (den_pos x ltac:(lra)) as P. fold s in P.
      unfold tpar. fold s. set (z := x - start_x p) in *.
      apply Rmult_eq_reg_r with ((u + s) * (v - u)).
      * replace ((- (2 * u) + 2 * s) / (2 * (v - u)) * ((u + s) * (v - u))) with (s * s - u^2) by (field; auto).
        replace (z / (u + s) * ((u + s) * (v - u))) with ((v - u) * z) by (field; lra). lra.
      * apply Rmult_integral_contrapositive; split; lra.
Qed.

Lemma bezier_solve_slopes : sr <= sl -> 0 < end_x p - start_x p ->
  slopes_int sr sl (bezier_solve p c) (start_x p) (end_x p).
Proof.
  intros Hs HL x y Hx Hy L.
  rewrite !bezier_solve_value by lra.
  pose proof (tpar_x x Hx) as Ex. pose proof (tpar_x y Hy) as Ey.
  pose proof (tpar_01 x Hx) as Tx. pose proof (tpar_01 y Hy) as Ty.
  destruct (Req_dec x y) as [E|E]; [subst y; lra|].
  set (t := tpar x) in *. set (t' := tpar y) in *.
  destruct uv as [U V].
  assert (Dx : y - x = (t' - t) * (v * (t + t') + u * (2 - (t + t')))).
  { rewrite <- Ex, <- Ey. unfold cx. ring. }
  assert (T : t <= t').
  { destruct (Rle_dec t t') as [|G]; auto. exfalso.
    assert (0 <= v * (t + t') + u * (2 - (t + t'))).
    { pose proof (Rmult_le_pos v (t + t') V ltac:(lra)).
      pose proof (Rmult_le_pos u (2 - (t + t')) U ltac:(lra)). lra. }
    assert (0 <= (t - t') * (v * (t + t') + u * (2 - (t + t')))) by (apply Rmult_le_pos; lra).
    lra. }
  assert (A1 : sl * (y - x) - (cy t' - cy t) = (t' - t) * (t + t') * v * (sl - sr)).
  { rewrite Dx. unfold cy. ring. }
  assert (A2 : (cy t' - cy t) - sr * (y - x) = (t' - t) * (2 - (t + t')) * u * (sl - sr)).
  { rewrite Dx. unfold cy. ring. }
  assert (0 <= (t' - t) * (t + t') * v * (sl - sr)) by (repeat apply Rmult_le_pos; lra).
  assert (0 <= (t' - t) * (2 - (t + t')) * u * (sl - sr)) by (repeat apply Rmult_le_pos; lra).
  lra.
Qed.

Lemma cy_0 : cy 0 = start_y p. Proof. unfold cy; ring. Qed.
Lemma cy_1 : cy 1 = end_y p. Proof. rewrite end_y_uv. unfold cy. ring. Qed.
Lemma cx_0 : cx 0 = start_x p. Proof. unfold cx; ring. Qed.
Lemma cx_1 : cx 1 = end_x p. Proof. unfold cx, u, v; ring. Qed.

Lemma cx_mono t t' : 0 <= t <= 1 -> 0 <= t' <= 1 -> 0 < end_x p - start_x p -> t < t' -> cx t < cx t'.
Proof.
  intros T T' HL L. destruct uv.
  assert (E : cx t' - cx t = (t' - t) * (v * (t + t') + u * (2 - (t + t')))) by (unfold cx; ring).
  assert (0 < v * (t + t') + u * (2 - (t + t'))).
  { assert (0 < u + v) by (unfold u, v; lra).
    destruct (Rlt_dec 0 v).
    - pose proof (Rmult_lt_0_compat v (t + t') ltac:(lra) ltac:(lra)).
      pose proof (Rmult_le_pos u (2 - (t + t')) ltac:(lra) ltac:(lra)). lra.
    - assert (v = 0) by lra. 
      pose proof (Rmult_lt_0_compat u (2 - (t + t')) ltac:(lra) ltac:(lra)). nra. }
  assert (0 < (t' - t) * (v * (t + t') + u * (2 - (t + t')))) by (apply Rmult_lt_0_compat; lra). lra.
Qed.

Lemma tpar_start : 0 < end_x p - start_x p -> tpar (start_x p) = 0.
Proof. intros. unfold tpar. replace (start_x p - start_x p) with 0 by ring. unfold Rdiv; ring. Qed.
Lemma tpar_end : 0 < end_x p - start_x p -> tpar (end_x p) = 1.
Proof.
  intros HL. pose proof (tpar_x (end_x p) ltac:(lra)) as E. pose proof (tpar_01 (end_x p) ltac:(lra)) as T.
  destruct (Rle_lt_or_eq_dec _ _ (proj2 T)) as [L|]; auto. exfalso.
  pose proof (cx_mono (tpar (end_x p)) 1 T ltac:(lra) HL L). rewrite cx_1 in H. lra.
Qed.
End Bezier.

(** ** argmin and the lookup table *)
Lemma argmin_from_spec l : forall i best m pre,
  length pre = i -> (best < i)%nat -> nth best pre 0 = m ->
  (forall j, (j < i)%nat -> m <= nth j pre 0) -> (forall j, (j < best)%nat -> m < nth j pre 0) ->
  let k := argmin_from l i best m in
  (k < length (pre ++ l))%nat /\
  (forall j, (j < length (pre ++ l))%nat -> nth k (pre ++ l) 0 <= nth j (pre ++ l) 0) /\
  (forall j, (j < k)%nat -> nth k (pre ++ l) 0 < nth j (pre ++ l) 0).
Proof.
  induction l as [|x t IH]; intros i best m pre Hl Hb Hm Hmin Hfirst; simpl.
  - rewrite app_nil_r. subst i. rewrite Hm. repeat split; auto.
  - assert (E : pre ++ x :: t = (pre ++ [x]) ++ t) by (rewrite <- app_assoc; reflexivity).
    rewrite E. destruct (Rltb_spec x m) as [L|L].
    + apply IH.
      * rewrite app_length; simpl; lia.
      * lia.
      * rewrite app_nth2 by lia. rewrite Hl, Nat.sub_diag. reflexivity.
      * intros j Hj. destruct (Nat.eq_dec j i) as [->|].
        -- rewrite app_nth2 by lia. rewrite Hl, Nat.sub_diag. simpl; lra.
        -- rewrite app_nth1 by lia. specialize (Hmin j ltac:(lia)). lra.
      * intros j Hj. rewrite app_nth1 by lia. specialize (Hmin j ltac:(lia)). lra.
    + apply IH.
      * rewrite app_length; simpl; lia.
      * lia.
      * rewrite app_nth1 by lia. auto.
      * intros j Hj. destruct (Nat.eq_dec j i) as [->|].
        -- rewrite app_nth2 by lia. rewrite Hl, Nat.sub_diag. simpl; lra.
        -- rewrite app_nth1 by lia. apply Hmin; lia.
      * intros j Hj. rewrite app_nth1 by lia. auto.
Qed.

Lemma argmin_spec l : l <> [] ->
  (argmin l < length l)%nat /\
  (forall j, (j < length l)%nat -> nth (argmin l) l 0 <= nth j l 0) /\
  (forall j, (j < argmin l)%nat -> nth (argmin l) l 0 < nth j l 0).
Proof.
  destruct l as [|x t]; [congruence|]. intros _. unfold argmin.
  apply (argmin_from_spec t 1%nat 0%nat x [x]); simpl; auto; try lia.
  intros j Hj. assert (j = 0)%nat by lia. subst j; simpl; lra.
Qed.

Lemma argmin_unique_zero l i : (i < length l)%nat -> nth i l 0 = 0 ->
  (forall j, (j < length l)%nat -> j <> i -> 0 < nth j l 0) -> argmin l = i.
Proof.
  intros Hi Hz Hpos. assert (Hne : l <> []) by (intros ->; simpl in Hi; lia).
  destruct (argmin_spec l Hne) as (A & B & C).
  destruct (Nat.eq_dec (argmin l) i); auto. 
  specialize (Hpos _ A n). specialize (B i Hi). lra.
Qed.

Lemma nth_lut p c n i : (i < n)%nat ->
  nth i (lut_points p c n) (0, 0) =
  (bezier_at (start_x p) (fst c) (end_x p) (INR i / INR (n - 1)),
   bezier_at (start_y p) (snd c) (end_y p) (INR i / INR (n - 1))).
Proof.
  intros H. unfold lut_points.
  erewrite nth_error_nth; [reflexivity|].
  rewrite (map_nth_error _ i (linspace 0 1 n) (nth_error_linspace 0 1 n i H)).
  do 2 f_equal; f_equal; unfold Rdiv; ring.
Qed.

Lemma length_lut p c n : length (lut_points p c n) = n.
Proof. unfold lut_points. rewrite map_length. apply length_linspace. Qed.

Lemma nth_lut_dist p c n x i : (i < n)%nat ->
  nth i (map (fun q : point => Rabs (fst q - x)) (lut_points p c n)) 0
  = Rabs (bezier_at (start_x p) (fst c) (end_x p) (INR i / INR (n - 1)) - x).
Proof.
  intros H. rewrite (nth_indep _ 0 (Rabs (fst (0, 0) - x))) by (rewrite map_length, length_lut; auto).
  rewrite (map_nth (fun q : point => Rabs (fst q - x))). rewrite nth_lut by auto. reflexivity.
Qed.

Lemma ratio_01 i n : (2 <= n)%nat -> (i < n)%nat -> 0 <= INR i / INR (n - 1) <= 1.
Proof.
  intros Hn Hi. assert (0 < INR (n - 1)) by (apply lt_0_INR; lia).
  split.
  - apply Rle_mult_inv_pos; auto. apply pos_INR.
  - apply Rmult_le_reg_r with (INR (n - 1)); auto. unfold Rdiv; rewrite Rmult_assoc, Rinv_l by lra.
    rewrite Rmult_1_r, Rmult_1_l. apply le_INR; lia.
Qed.
Lemma ratio_lt i j n : (2 <= n)%nat -> (i < j)%nat -> INR i / INR (n - 1) < INR j / INR (n - 1).
Proof.
  intros Hn Hi. assert (0 < INR (n - 1)) by (apply lt_0_INR; lia).
  apply Rmult_lt_compat_r; [apply Rinv_0_lt_compat; auto|]. apply lt_INR; auto.
Qed.

Lemma lut_eval_start p c n : corner p c -> start_x p <= fst c <= end_x p -> 0 < end_x p - start_x p ->
  (2 <= n)%nat -> lut_eval p c n (start_x p) = start_y p.
Proof.
  intros Hc Hb HL Hn. unfold lut_eval.
  rewrite (argmin_unique_zero _ 0).
  - rewrite nth_lut by lia. simpl. unfold bezier_at, Rdiv. ring.
  - rewrite map_length, length_lut; lia.
  - rewrite nth_lut_dist by lia. rewrite bez_x. simpl INR. unfold Rdiv. rewrite Rmult_0_l, cx_0.
    rewrite Rminus_diag_eq by auto. apply Rabs_R0.
  - intros j Hj Hne. rewrite map_length, length_lut in Hj. rewrite nth_lut_dist by lia.
    rewrite bez_x. pose proof (ratio_lt 0 j n Hn ltac:(lia)) as L. simpl in L.
    unfold Rdiv in L at 1. rewrite Rmult_0_l in L.
    pose proof (cx_mono p c Hb 0 (INR j / INR (n-1)) ltac:(lra) (ratio_01 j n Hn Hj) HL L) as M.
    rewrite cx_0 in M. apply Rabs_pos_lt. lra.
Qed.

Lemma lut_eval_end p c n : corner p c -> start_x p <= fst c <= end_x p -> 0 < end_x p - start_x p ->
  (2 <= n)%nat -> lut_eval p c n (end_x p) = end_y p.
Proof.
  intros Hc Hb HL Hn. unfold lut_eval. assert (0 < INR (n - 1)) by (apply lt_0_INR; lia).
  assert (One : INR (n - 1) / INR (n - 1) = 1) by (field; lra).
  rewrite (argmin_unique_zero _ (n - 1)).
  - rewrite nth_lut by lia. simpl snd. rewrite One. unfold bezier_at. ring.
  - rewrite map_length, length_lut; lia.
  - rewrite nth_lut_dist by lia. rewrite bez_x, One, cx_1.
    rewrite Rminus_diag_eq by auto. apply Rabs_R0.
  - intros j Hj Hne. rewrite map_length, length_lut in Hj. rewrite nth_lut_dist by lia.
    rewrite bez_x. pose proof (ratio_lt j (n-1) n Hn ltac:(lia)) as L. rewrite One in L.
    pose proof (cx_mono p c Hb (INR j / INR (n-1)) 1 (ratio_01 j n Hn Hj) ltac:(lra) HL L) as M.
    rewrite cx_1 in M. apply Rabs_pos_lt. lra.
Qed.

(** ** one period *)
Section Wave.
Variable p : tct_params.
Variable c : point.
Variable bez : R -> R.
Hypothesis Hc : corner p c.
Hypothesis Hb : start_x p <= fst c <= end_x p.
Hypothesis Hl : 2 * (fst c - start_x p) <= len_left p.
Hypothesis Hr : 2 * (end_x p - fst c) <= len_right p.
Hypothesis HP : 0 < len_left p + len_right p.
Hypothesis Hs : 0 < bezier_length p -> bez (start_x p) = start_y p.
Hypothesis He : 0 < bezier_length p -> bez (end_x p) = end_y p.

Let bl := bezier_length p.
Let rl := right_lin_length p c.
Let ll := left_lin_length p c.
Let P := period_length p.

Definition seg (x : R) : R :=
  if Rltb x bl then bez (x + start_x p)
  else if Rltb x (bl + rl) then end_y p + (x - bl) * slope_right p
  else if Rltb x (bl * 2 + rl) then -1 * bez (2 * bl + rl - x + start_x p) + y_offset_inv p c
  else (y_offset_inv p c - start_y p) + (x - (bl * 2 + rl)) * slope_left p.

Definition W (x : R) : R :=
  seg (x - P * IZR (Int_part (x / P))) - y_offset_period p c * IZR (Int_part (x / P)).

Lemma lens : 0 <= bl /\ 0 <= rl /\ 0 <= ll /\ 0 < P /\ 2 * bl + rl + ll = P.
Proof. unfold bl, rl, ll, P, bezier_length, right_lin_length, left_lin_length, period_length. lra. Qed.

Lemma wave_value_W x : wave_value p c bez x = Ok (W x).
Proof. unfold wave_value. fold P. rewrite Reqb_false by (destruct lens; lra). reflexivity. Qed.

Lemma bl0 : ~ 0 < bl -> start_y p = end_y p.
Proof.
  intros H. destruct Hc as [A B]. destruct lens as (L & _). unfold bl, bezier_length in *.
  assert (fst c = start_x p) by lra. assert (end_x p = start_x p) by lra. rewrite H0, H1 in *.
  ring_simplify in A. lra.
Qed.

Lemma yoi : y_offset_inv p c = 2 * end_y p + rl * slope_right p.
Proof. unfold y_offset_inv. fold rl. ring. Qed.

Ltac piece := unfold seg; repeat match goal with |- context [Rltb ?a ?b] => destruct (Rltb_spec a b) end.

Lemma seg1 x : 0 < bl -> 0 <= x <= bl -> seg x = bez (x + start_x p).
Proof.
  intros B X. destruct lens as (? & ? & ? & ? & ?). piece; auto.
  - assert (x = bl) by lra. subst x. replace (bl + start_x p) with (end_x p) by (unfold bl, bezier_length; ring).
    rewrite He by auto. ring.
  - assert (x = bl) by lra. assert (R0 : rl = 0) by lra. subst x. rewrite R0.
    replace (2 * bl + 0 - bl + start_x p) with (end_x p) by (unfold bl, bezier_length; ring).
    replace (bl + start_x p) with (end_x p) by (unfold bl, bezier_length; ring).
    rewrite He by auto. rewrite yoi, R0. ring.
  - lra.
Qed.

Lemma seg2 x : bl <= x <= bl + rl -> seg x = end_y p + (x - bl) * slope_right p.
Proof.
  intros X. destruct lens as (? & ? & ? & ? & ?). piece; try lra; auto.
  - assert (x = bl + rl) by lra. subst x.
    replace (2 * bl + rl - (bl + rl) + start_x p) with (end_x p) by (unfold bl, bezier_length; ring).
    rewrite He by (fold bl; lra). rewrite yoi. ring.
  - rewrite yoi. rewrite bl0 by lra. assert (x = bl + rl) by lra. assert (B0 : bl = 0) by lra. subst x. rewrite B0. ring.
Qed.

Lemma seg3 x : 0 < bl -> bl + rl <= x <= bl * 2 + rl ->
  seg x = -1 * bez (2 * bl + rl - x + start_x p) + y_offset_inv p c.
Proof.
  intros B X. destruct lens as (? & ? & ? & ? & ?). piece; try lra; auto.
  assert (x = bl * 2 + rl) by lra. subst x.
  replace (2 * bl + rl - (bl * 2 + rl) + start_x p) with (start_x p) by ring.
  rewrite Hs by auto. ring.
Qed.

Lemma seg4 x : bl * 2 + rl <= x -> seg x = (y_offset_inv p c - start_y p) + (x - (bl * 2 + rl)) * slope_left p.
Proof. intros X. destruct lens as (? & ? & ? & ? & ?). piece; try lra; auto. Qed.

Lemma seg_0 : seg 0 = start_y p.
Proof.
  destruct lens as (? & ? & ? & ? & ?). destruct (Rlt_dec 0 bl).
  - rewrite seg1 by lra. rewrite Rplus_0_l. auto.
  - assert (B0 : bl = 0) by lra. rewrite seg2 by lra. rewrite bl0 by auto. rewrite B0. ring.
Qed.

Lemma seg_P : seg P = start_y p - y_offset_period p c.
Proof. destruct lens as (? & ? & ? & ? & ?). rewrite seg4 by lra. unfold y_offset_period. fold ll. rewrite <- H3. ring. Qed.

Lemma offset_period : - y_offset_period p c = len_left p * slope_left p + len_right p * slope_right p.
Proof.
  unfold y_offset_period, y_offset_inv, right_lin_length, left_lin_length. destruct Hc as [A B].
  replace (end_y p) with (snd c + slope_right p * (end_x p - fst c)) by lra.
  replace (snd c) with (start_y p + slope_left p * (fst c - start_x p)) by lra. ring.
Qed.

Lemma W_on_period k x : IZR k * P <= x <= (IZR k + 1) * P -> W x = seg (x - IZR k * P) - y_offset_period p c * IZR k.
Proof.
  intros X. destruct lens as (? & ? & ? & ? & ?). unfold W.
  destruct (Req_dec x ((IZR k + 1) * P)) as [E|E].
  - rewrite (Int_part_div x P (k + 1)) by (auto; rewrite plus_IZR; lra). rewrite plus_IZR.
    replace (x - P * (IZR k + 1)) with 0 by lra. rewrite seg_0.
    replace (x - IZR k * P) with P by lra. rewrite seg_P. ring.
  - rewrite (Int_part_div x P k) by (auto; lra). f_equal. f_equal. ring.
Qed.

Lemma W_shift k x : W (x + IZR k * P) = W x - y_offset_period p c * IZR k.
Proof.
  destruct lens as (? & ? & ? & L & ?). pose proof (div_bounds x P L) as B.
  rewrite (W_on_period (Int_part (x / P)) x) by lra.
  rewrite (W_on_period (Int_part (x / P) + k)) by (rewrite plus_IZR; lra).
  rewrite plus_IZR.
  replace (x + IZR k * P - (IZR (Int_part (x / P)) + IZR k) * P) with (x - IZR (Int_part (x / P)) * P) by ring.
  ring.
Qed.

Section Slopes.
Let sl := slope_left p.
Let sr := slope_right p.
Hypothesis Hsl : sr <= sl.
Hypothesis Hbez : 0 < bezier_length p -> slopes_int sr sl bez (start_x p) (end_x p).

Lemma seg_slopes : slopes_int sr sl seg 0 P.
Proof.
  destruct lens as (B & R & L & HP' & E).
  assert (X1 : slopes_int sr sl seg 0 bl).
  { destruct (Rlt_dec 0 bl) as [G|G].
    - apply slopes_int_ext with (g := fun x => bez (x + start_x p)).
      + intros; apply seg1; auto.
      + intros x y Hx Hy L'. pose proof (Hbez G (x + start_x p) (y + start_x p)) as Q.
        unfold bl, bezier_length in *. specialize (Q ltac:(lra) ltac:(lra) ltac:(lra)).
        replace (y - x) with (y + start_x p - (x + start_x p)) by ring. auto.
    - intros x y Hx Hy L'. replace y with x by lra. lra. }
  assert (X2 : slopes_int sr sl seg bl (bl + rl)).
  { apply slopes_int_ext with (g := fun x => end_y p + (x - bl) * sr).
    - intros; apply seg2; auto.
    - intros x y Hx Hy L'. assert (sr * (y - x) <= sl * (y - x)) by (apply Rmult_le_compat_r; lra). lra. }
  assert (X3 : slopes_int sr sl seg (bl + rl) (bl * 2 + rl)).
  { destruct (Rlt_dec 0 bl) as [G|G].
    - apply slopes_int_ext with (g := fun x => -1 * bez (2 * bl + rl - x + start_x p) + y_offset_inv p c).
      + intros; apply seg3; auto.
      + intros x y Hx Hy L'.
        pose proof (Hbez G (2 * bl + rl - y + start_x p) (2 * bl + rl - x + start_x p)) as Q.
        specialize (Q ltac:(unfold bl, bezier_length in *; lra) ltac:(unfold bl, bezier_length in *; lra) ltac:(lra)).
        replace (y - x) with (2 * bl + rl - x + start_x p - (2 * bl + rl - y + start_x p)) by ring. lra.
    - intros x y Hx Hy L'. replace y with x by lra. lra. }
  assert (X4 : slopes_int sr sl seg (bl * 2 + rl) P).
  { apply slopes_int_ext with (g := fun x => (y_offset_inv p c - start_y p) + (x - (bl * 2 + rl)) * sl).
    - intros; apply seg4; lra.
    - intros x y Hx Hy L'. assert (sr * (y - x) <= sl * (y - x)) by (apply Rmult_le_compat_r; lra). lra. }
  apply slopes_int_glue with (bl * 2 + rl); try lra; auto.
  apply slopes_int_glue with (bl + rl); try lra; auto.
  apply slopes_int_glue with bl; try lra; auto.
Qed.

Lemma W_slopes_period k : slopes_int sr sl W (IZR k * P) ((IZR k + 1) * P).
Proof.
  intros x y Hx Hy L. rewrite !(W_on_period k) by auto.
  pose proof (seg_slopes (x - IZR k * P) (y - IZR k * P) ltac:(lra) ltac:(lra) ltac:(lra)) as Q.
  replace (y - x) with (y - IZR k * P - (x - IZR k * P)) by ring. lra.
Qed.

Lemma W_slopes_periods k n : slopes_int sr sl W (IZR k * P) ((IZR k + INR n) * P).
Proof.
  destruct lens as (B & R & L & HP' & E).
  induction n as [|n IH].
  - intros x y Hx Hy L'. simpl in *. replace y with x by lra. lra.
  - apply slopes_int_glue with ((IZR k + INR n) * P).
    + pose proof (pos_INR n). pose proof (Rmult_le_pos (INR n) P ltac:(auto) ltac:(lra)). lra.
    + rewrite S_INR. lra.
    + exact IH.
    + pose proof (W_slopes_period (k + Z.of_nat n)) as Q. rewrite plus_IZR, <- INR_IZR_INZ in Q.
      rewrite S_INR. replace (IZR k + (INR n + 1)) with (IZR k + INR n + 1) by ring. exact Q.
Qed.

Lemma W_slopes : slopes_in sr sl W.
Proof.
  intros x y L. destruct lens as (B & R & L' & HP' & E).
  pose proof (div_bounds x P HP') as D. set (k := Int_part (x / P)) in *.
  pose proof (div_bounds y P HP') as D'. set (k' := Int_part (y / P)) in *.
  assert (K : (k <= k')%Z).
  { destruct (Z_le_gt_dec k k'); auto. exfalso.
    assert (IZR k' + 1 <= IZR k) by (rewrite <- plus_IZR; apply IZR_le; lia).
    assert ((IZR k' + 1) * P <= IZR k * P) by (apply Rmult_le_compat_r; lra). lra. }
  pose proof (W_slopes_periods k (Z.to_nat (k' - k + 1))) as Q.
  rewrite INR_IZR_INZ, Z2Nat.id in Q by lia. rewrite plus_IZR, minus_IZR in Q.
  replace (IZR k + (IZR k' - IZR k + 1)) with (IZR k' + 1) in Q by ring.
  apply Q; lra.
Qed.
End Slopes.
End Wave.

(** ** the whole function *)
Lemma corner_center p c : slope_left p <> slope_right p -> corner p c -> bezier_center p = Ok c.
Proof.
  intros Hs [A B]. unfold bezier_center. destruct c as [cx cy]; simpl in *.
  assert (Hd : slope_right p - slope_left p <> 0) by lra.
  destruct (Reqb_spec (start_x p) (end_x p)) as [E1|E1]; simpl.
  - destruct (Reqb_spec (start_y p) (end_y p)) as [E2|E2]; simpl.
    + assert (Q : (slope_left p - slope_right p) * (cx - start_x p) = 0).
      { rewrite <- E1 in B. lra. }
      apply Rmult_integral in Q. destruct Q as [Q|Q]; [lra|].
      assert (cx = start_x p) by lra. subst cx. f_equal. f_equal. lra.
    + rewrite Reqb_false by auto.
      assert (X : cx = (start_y p - end_y p + end_x p * slope_right p - start_x p * slope_left p)
              / (slope_right p - slope_left p)).
      { apply Rmult_eq_reg_r with (slope_right p - slope_left p); auto.
        unfold Rdiv; rewrite Rmult_assoc, Rinv_l by auto. lra. }
      rewrite <- X. f_equal. f_equal. lra.
  - rewrite Reqb_false by auto.
    assert (X : cx = (start_y p - end_y p + end_x p * slope_right p - start_x p * slope_left p)
              / (slope_right p - slope_left p)).
    { apply Rmult_eq_reg_r with (slope_right p - slope_left p); auto.
      unfold Rdiv; rewrite Rmult_assoc, Rinv_l by auto. lra. }
    rewrite <- X. f_equal. f_equal. lra.
Qed.

Lemma bezier_ends p c lut : good_mode p lut -> corner p c -> start_x p <= fst c <= end_x p ->
  0 < bezier_length p ->
  bezier_eval p c lut (start_x p) = start_y p /\ bezier_eval p c lut (end_x p) = end_y p.
Proof.
  intros [G1 G2] Hc Hb HL. unfold bezier_length in HL.
  assert (Ex : peak p -> bezier_solve p c (start_x p) = start_y p /\ bezier_solve p c (end_x p) = end_y p).
  { intros Pk. unfold peak in Pk. rewrite !bezier_solve_value by (auto; lra).
    rewrite tpar_start, tpar_end by auto. rewrite cy_0, cy_1 by auto. auto. }
  destruct lut as [[|n]|]; simpl.
  - apply Ex, G2; right; auto.
  - assert (2 <= S n)%nat. { destruct n; [exfalso; apply G1; reflexivity|lia]. }
    split; [apply lut_eval_start|apply lut_eval_end]; auto.
  - apply Ex, G2; left; auto.
Qed.

(** the TCT as a total function *)
Definition Ftct (p : tct_params) (c : point) (lut mp : option nat) (x : R) : R :=
  match mp with
  | None => W p c (bezier_eval p c lut) (x - start_x p)
  | Some m => outer_value p c m (x, W p c (bezier_eval p c lut) (x - start_x p))
  end.

Section Tct.
Variable p : tct_params.
Variable c : point.
Variable lut : option nat.
Hypothesis Hsl : slope_left p <> slope_right p.
Hypothesis Hc : corner p c.
Hypothesis Hb : start_x p <= fst c <= end_x p.
Hypothesis Hl : 2 * (fst c - start_x p) <= len_left p.
Hypothesis Hr : 2 * (end_x p - fst c) <= len_right p.
Hypothesis HP : 0 < len_left p + len_right p.
Hypothesis G : good_mode p lut.
Let bez := bezier_eval p c lut.

Let Hs : 0 < bezier_length p -> bez (start_x p) = start_y p.
Proof. intros. apply (bezier_ends p c lut G Hc Hb H). Qed.
Let He : 0 < bezier_length p -> bez (end_x p) = end_y p.
Proof. intros. apply (bezier_ends p c lut G Hc Hb H). Qed.

Lemma W_start : W p c bez 0 = start_y p.
Proof.
  rewrite (W_on_period p c bez Hc Hb Hl Hr HP Hs He 0) by (unfold period_length; lra).
  replace (0 - 0 * period_length p) with 0 by ring. rewrite seg_0; auto. lra.
Qed.

Lemma W_end m : (1 <= m)%nat ->
  W p c bez (wave_end p m - start_x p) = end_y p - (INR m - 1) * y_offset_period p c.
Proof.
  intros Hm. destruct (lens p c Hb Hl Hr HP) as (A & B & C & D & E).
  assert (K : IZR (Z.of_nat (m - 1)) = INR m - 1) by (rewrite <- INR_IZR_INZ, minus_INR by lia; reflexivity).
  unfold wave_end.
  replace (end_x p + (INR m - 1) * (len_left p + len_right p) - start_x p)
    with (bezier_length p + IZR (Z.of_nat (m - 1)) * period_length p)
    by (rewrite K; unfold bezier_length, period_length; ring).
  rewrite W_shift by auto. rewrite K.
  rewrite (W_on_period p c bez Hc Hb Hl Hr HP Hs He 0) by lra.
  rewrite Rmult_0_l, Rminus_0_r. rewrite seg2; auto. ring. lra.
Qed.

Lemma F_wave m x : (1 <= m)%nat -> start_x p <= x <= wave_end p m ->
  Ftct p c lut (Some m) x = W p c bez (x - start_x p).
Proof.
  intros Hm Hx. unfold Ftct, outer_value. fold bez.
  destruct (Rleb_spec (wave_end p m) x) as [A|A].
  - assert (x = wave_end p m) by lra. subst x. rewrite W_end by auto. ring.
  - destruct (Rleb_spec x (start_x p)) as [B|B]; auto.
    assert (x = start_x p) by lra. subst x. replace (start_x p - start_x p) with 0 by ring.
    rewrite W_start. ring.
Qed.

Lemma mapM_ok {A B} (f : A -> B) l (g : A -> result B) : (forall x, In x l -> g x = Ok (f x)) -> mapM g l = Ok (map f l).
Proof.
  induction l as [|x t IH]; simpl; intros H; auto.
  rewrite H by auto. rewrite IH by auto. reflexivity.
Qed.

Lemma tct_bezier_F mp xs : some_peaks mp -> (mp = None -> xs <> []) ->
  tct_bezier p lut mp xs = Ok (map (Ftct p c lut mp) xs).
Proof.
  intros Hm Hne. unfold tct_bezier. rewrite (corner_center p c) by auto. simpl.
  rewrite !Rleb_true by lra. simpl.
  destruct mp as [m|].
  - simpl in Hm.
    rewrite (mapM_ok (fun x => if in_wave p m x then W p c bez (x - start_x p) else 0)).
    2:{ intros x _. destruct (in_wave p m x); auto. apply (wave_value_W p c bez); auto. }
    simpl. destruct (forallb (in_wave p m) xs) eqn:Fa.
    + f_equal. apply map_ext_in. intros x Hx. rewrite forallb_forall in Fa. rewrite (Fa x Hx).
      specialize (Fa x Hx). unfold in_wave in Fa. apply andb_prop in Fa. destruct Fa as [F1 F2].
      destruct (Rleb_spec (start_x p) x); [|discriminate]. destruct (Rleb_spec x (wave_end p m)); [|discriminate].
      symmetry. apply F_wave; auto.
    + f_equal. clear Fa Hne. induction xs as [|x t IH]; [reflexivity|].
      simpl. f_equal; [|apply IH]. unfold Ftct, outer_value. fold bez.
      destruct (in_wave p m x) eqn:I; auto.
      unfold in_wave in I. destruct (Rleb_spec (start_x p) x); destruct (Rleb_spec x (wave_end p m)); 
        simpl in I; try discriminate;
        destruct (Rleb_spec (wave_end p m) x); destruct (Rleb_spec x (start_x p)); try lra; auto.
  - destruct xs as [|x t]; [exfalso; apply Hne; auto|].
    apply mapM_ok. intros; apply (wave_value_W p c bez); auto.
Qed.

Lemma tct_number_F mp x : some_peaks mp -> tct_bezier_number p lut mp x = Ok (Ftct p c lut mp x).
Proof. intros. unfold tct_bezier_number. rewrite tct_bezier_F by (auto; discriminate). reflexivity. Qed.

Lemma F_slopes mp : some_peaks mp -> slope_right p <= slope_left p ->
  (0 < bezier_length p -> slopes_int (slope_right p) (slope_left p) bez (start_x p) (end_x p)) ->
  slopes_in (slope_right p) (slope_left p) (Ftct p c lut mp).
Proof.
  intros Hm Hle Hbez.
  pose proof (W_slopes p c bez Hc Hb Hl Hr HP Hs He Hle Hbez) as WS.
  destruct mp as [m|].
  - simpl in Hm.
    assert (L : start_x p <= wave_end p m).
    { unfold wave_end. assert (1 <= INR m) by (apply (le_INR 1); lia).
      pose proof (Rmult_le_pos (INR m - 1) (len_left p + len_right p) ltac:(lra) ltac:(lra)). lra. }
    assert (HT : forall x y, x <= y -> slope_right p * (y - x) <= slope_left p * (y - x))
      by (intros; apply Rmult_le_compat_r; lra).
    assert (I1 : forall x y, x <= y -> y <= start_x p ->
      slope_right p * (y - x) <= Ftct p c lut (Some m) y - Ftct p c lut (Some m) x <= slope_left p * (y - x)).
    { assert (V : forall x, x <= start_x p -> Ftct p c lut (Some m) x = start_y p + (x - start_x p) * slope_left p).
      { intros x Hx. destruct (Req_dec x (start_x p)) as [E|E].
        - subst x. rewrite F_wave by (auto; lra). replace (start_x p - start_x p) with 0 by ring. rewrite W_start. ring.
        - unfold Ftct, outer_value. rewrite Rleb_false by lra. rewrite Rleb_true by lra. reflexivity. }
      intros x y L1 L2. rewrite !V by lra. pose proof (HT x y L1). lra. }
    assert (I2 : forall x y, x <= y -> start_x p <= x -> y <= wave_end p m ->
      slope_right p * (y - x) <= Ftct p c lut (Some m) y - Ftct p c lut (Some m) x <= slope_left p * (y - x)).
    { intros x y L1 L2 L3. rewrite !F_wave by (auto; lra).
      pose proof (WS (x - start_x p) (y - start_x p) ltac:(lra)) as Q.
      replace (y - x) with (y - start_x p - (x - start_x p)) by ring. exact Q. }
    assert (I3 : forall x y, x <= y -> wave_end p m <= x ->
      slope_right p * (y - x) <= Ftct p c lut (Some m) y - Ftct p c lut (Some m) x <= slope_left p * (y - x)).
    { intros x y L1 L2. unfold Ftct, outer_value. rewrite !(Rleb_true (wave_end p m)) by lra.
      pose proof (HT x y L1). lra. }
    intros x y L1.
    assert (J : forall a b d, a <= b -> b <= d ->
      slope_right p * (b - a) <= Ftct p c lut (Some m) b - Ftct p c lut (Some m) a <= slope_left p * (b - a) ->
      slope_right p * (d - b) <= Ftct p c lut (Some m) d - Ftct p c lut (Some m) b <= slope_left p * (d - b) ->
      slope_right p * (d - a) <= Ftct p c lut (Some m) d - Ftct p c lut (Some m) a <= slope_left p * (d - a)).
    { intros. lra. }
    destruct (Rle_dec y (start_x p)); [apply I1; lra|].
    destruct (Rle_dec (wave_end p m) x); [apply I3; lra|].
    assert (K : forall x', start_x p <= x' -> x' <= y -> x' <= wave_end p m ->
      slope_right p * (y - x') <= Ftct p c lut (Some m) y - Ftct p c lut (Some m) x' <= slope_left p * (y - x')).
    { intros x' A1 A2 A3. destruct (Rle_dec y (wave_end p m)).
      - apply I2; lra.
      - apply J with (wave_end p m); try lra; [apply I2|apply I3]; lra. }
    destruct (Rle_dec (start_x p) x); [apply K; lra|].
    apply J with (start_x p); try lra; [apply I1|apply K]; lra.
  - intros x y L1. unfold Ftct.
    pose proof (WS (x - start_x p) (y - start_x p) ltac:(lra)) as Q.
    replace (y - x) with (y - start_x p - (x - start_x p)) by ring. exact Q.
Qed.
End Tct.

(** ** anchors *)
Definition closed_anchors (p : tct_params) (c : point) (i : nat) : anchors :=
  let k := INR (i / 2) in
  let dl := fst c - start_x p in
  let dr := end_x p - fst c in
  let x := fst c + k * (len_left p + len_right p) in
  let y := snd c + k * (len_left p * slope_left p + len_right p * slope_right p) in
  if Nat.odd i then
    let x := x + len_right p in let y := y + len_right p * slope_right p in
    ((x - dr, y - dr * slope_right p), (x, y), (x + dl, y + dl * slope_left p))
  else ((x - dl, y - dl * slope_left p), (x, y), (x + dr, y + dr * slope_right p)).

Ltac split_pairs := repeat match goal with |- (_, _) = (_, _) => apply f_equal2 end.

Lemma half_even k : (2 * k / 2 = k)%nat. Proof. rewrite Nat.mul_comm. apply Nat.div_mul; lia. Qed.
Lemma half_odd k : ((2 * k + 1) / 2 = k)%nat.
Proof. rewrite Nat.mul_comm, Nat.div_add_l by lia. simpl. lia. Qed.
Lemma odd_even k : Nat.odd (2 * k) = false. Proof. rewrite Nat.odd_mul. reflexivity. Qed.
Lemma odd_odd k : Nat.odd (2 * k + 1) = true.
Proof. rewrite Nat.odd_add, Nat.odd_mul. reflexivity. Qed.

Lemma even_or_odd i : (exists k, i = 2 * k)%nat \/ (exists k, i = 2 * k + 1)%nat.
Proof.
  destruct (Nat.Even_or_Odd i) as [[k H]|[k H]]; [left|right]; exists k; lia.
Qed.

Lemma closed_next p c i :
  next_anchors p (fst c - start_x p) (end_x p - fst c) i (closed_anchors p c i) = closed_anchors p c (S i).
Proof.
  destruct (even_or_odd i) as [[k ->]|[k ->]].
  - replace (S (2 * k)) with (2 * k + 1)%nat by lia. unfold closed_anchors, next_anchors.
    rewrite odd_even, odd_odd, half_even, half_odd. split_pairs; ring.
  - replace (S (2 * k + 1)) with (2 * (k + 1))%nat by lia. unfold closed_anchors, next_anchors.
    rewrite odd_even, odd_odd, half_even, half_odd, plus_INR. simpl INR. 
    split_pairs; ring.
Qed.

Lemma anchor_loop_nth p c n : forall i j, (j < n)%nat ->
  nth_error (anchor_loop p (fst c - start_x p) (end_x p - fst c) i n (closed_anchors p c i)) j
  = Some (closed_anchors p c (i + j)).
Proof.
  induction n as [|n IH]; intros i j Hj; [lia|]. simpl.
  destruct j as [|j].
  - rewrite Nat.add_0_r. reflexivity.
  - simpl. rewrite closed_next. rewrite IH by lia. f_equal. f_equal. lia.
Qed.

Lemma anchor_loop_length p dl dr n : forall i a, length (anchor_loop p dl dr i n a) = n.
Proof. induction n; intros; simpl; auto. Qed.

Lemma first_closed p c : slope_left p <> slope_right p -> corner p c -> first_anchors p = closed_anchors p c 0.
Proof.
  intros Hs [A B]. unfold first_anchors.
  assert (Hd : slope_right p - slope_left p <> 0) by lra.
  assert (X : (start_y p - end_y p + end_x p * slope_right p - start_x p * slope_left p)
              / (slope_right p - slope_left p) = fst c).
  { apply Rmult_eq_reg_r with (slope_right p - slope_left p); auto.
    unfold Rdiv; rewrite Rmult_assoc, Rinv_l by auto. lra. }
  rewrite X. unfold closed_anchors. simpl. split_pairs; lra.
Qed.

Lemma tct_anchors_nth p c n i : slope_left p <> slope_right p -> corner p c -> (i < n * 2 - 1)%nat ->
  nth_error (tct_anchors p n) i = Some (closed_anchors p c i).
Proof.
  intros Hs Hc Hi. unfold tct_anchors. rewrite (first_closed p c) by auto.
  replace (fst (snd (fst (closed_anchors p c 0)))) with (fst c) by (unfold closed_anchors; simpl; ring).
  rewrite (anchor_loop_nth p c (n * 2 - 1) 0 i Hi). reflexivity.
Qed.

Lemma tct_anchors_length p n : length (tct_anchors p n) = (n * 2 - 1)%nat.
Proof. apply anchor_loop_length. Qed.

(** ** statements *)
Ltac open_admissible H :=
  let c := fresh "c" in
  destruct H as (Hsl & HP & c & Hc & Hb & Hl & Hr).

Lemma is_tct_F p c lut mp f : slope_left p <> slope_right p -> corner p c -> start_x p <= fst c <= end_x p ->
  2 * (fst c - start_x p) <= len_left p -> 2 * (end_x p - fst c) <= len_right p ->
  0 < len_left p + len_right p -> good_mode p lut -> some_peaks mp ->
  is_tct p lut mp f -> forall x, f x = Ftct p c lut mp x.
Proof.
  intros. specialize (H7 x). rewrite (tct_number_F p c lut) in H7 by auto. congruence.
Qed.

Lemma tct_total p lut mp : admissible p -> good_mode p lut -> some_peaks mp -> exists f, is_tct p lut mp f.
Proof.
  intros A G M. open_admissible A. exists (Ftct p c lut mp). intros x. apply tct_number_F; auto.
Qed.

Lemma tct_slopes p lut mp : admissible p -> peak p -> explicit lut -> some_peaks mp ->
  exists f, is_tct p lut mp f /\ slopes_in (slope_right p) (slope_left p) f.
Proof.
  intros A Pk E M. pose proof A as A'. open_admissible A. unfold peak in Pk.
  assert (G : good_mode p lut). { split; auto. destruct E; subst lut; discriminate. }
  exists (Ftct p c lut mp). split.
  - intros x. apply tct_number_F; auto.
  - apply F_slopes; auto; try lra. intros HL. unfold bezier_length in HL.
    destruct E; subst lut; apply bezier_solve_slopes; auto; lra.
Qed.

Lemma tct_continuous p lut mp : admissible p -> peak p -> explicit lut -> some_peaks mp ->
  exists f, is_tct p lut mp f /\ continuity f.
Proof.
  intros A Pk E M. destruct (tct_slopes p lut mp A Pk E M) as (f & H1 & H2).
  exists f; split; auto. eapply slopes_in_continuity; eauto.
Qed.

Lemma tct_periodic p lut f : admissible p -> good_mode p lut -> is_tct p lut None f ->
  forall x, f (x + (len_left p + len_right p)) = f x + (len_left p * slope_left p + len_right p * slope_right p).
Proof.
  intros A G H x. open_admissible A.
  rewrite !(is_tct_F p c lut None f) by (simpl; auto). unfold Ftct.
  replace (x + (len_left p + len_right p) - start_x p) with (x - start_x p + IZR 1 * period_length p)
    by (unfold period_length; simpl; ring).
  rewrite W_shift; auto; try (apply (bezier_ends p c lut G Hc Hb)).
  rewrite <- (offset_period p c Hc). simpl. ring.
Qed.

Lemma tct_periodic_limited p lut m f : admissible p -> good_mode p lut -> (1 <= m)%nat ->
  is_tct p lut (Some m) f ->
  forall x, start_x p <= x -> x + (len_left p + len_right p) <= end_x p + (INR m - 1) * (len_left p + len_right p) ->
  f (x + (len_left p + len_right p)) = f x + (len_left p * slope_left p + len_right p * slope_right p).
Proof.
  intros A G M H x X1 X2. open_admissible A.
  rewrite !(is_tct_F p c lut (Some m) f) by (simpl; auto).
  rewrite !F_wave by (auto; unfold wave_end; lra).
  replace (x + (len_left p + len_right p) - start_x p) with (x - start_x p + IZR 1 * period_length p)
    by (unfold period_length; simpl; ring).
  rewrite W_shift; auto; try (apply (bezier_ends p c lut G Hc Hb)).
  rewrite <- (offset_period p c Hc). simpl. ring.
Qed.

Lemma closed_on_W p c lut i : slope_left p <> slope_right p -> corner p c -> start_x p <= fst c <= end_x p ->
  2 * (fst c - start_x p) <= len_left p -> 2 * (end_x p - fst c) <= len_right p ->
  0 < len_left p + len_right p -> good_mode p lut ->
  let a := closed_anchors p c i in
  W p c (bezier_eval p c lut) (fst (left_anchor a) - start_x p) = snd (left_anchor a) /\
  W p c (bezier_eval p c lut) (fst (right_anchor a) - start_x p) = snd (right_anchor a).
Proof.
  intros Hsl Hc Hb Hl Hr HP G.
  pose proof (fun H => proj1 (bezier_ends p c lut G Hc Hb H)) as Hs.
  pose proof (fun H => proj2 (bezier_ends p c lut G Hc Hb H)) as He.
  destruct (lens p c Hb Hl Hr HP) as (L1 & L2 & L3 & L4 & L5).
  pose proof (offset_period p c Hc) as OP. pose proof Hc as [C1 C2].
  set (bz := bezier_eval p c lut) in *.
  assert (VP : forall k x, 0 <= x <= period_length p ->
    W p c bz (x + INR k * period_length p) = seg p c bz x + INR k * (len_left p * slope_left p + len_right p * slope_right p)).
  { intros k x Hx. rewrite INR_IZR_INZ. rewrite W_shift by auto.
    rewrite (W_on_period p c bz Hc Hb Hl Hr HP Hs He 0) by lra.
    rewrite Rmult_0_l, Rminus_0_r. rewrite <- OP. ring. }
  assert (Ex : snd c = start_y p + (fst c - start_x p) * slope_left p) by lra.
  assert (Ey : end_y p = snd c + (end_x p - fst c) * slope_right p) by lra.
  destruct (even_or_odd i) as [[k ->]|[k ->]]; unfold closed_anchors, left_anchor, right_anchor.
  - rewrite odd_even, half_even. cbn [fst snd]. split.
    + replace (fst c + INR k * (len_left p + len_right p) - (fst c - start_x p) - start_x p)
        with (0 + INR k * period_length p) by (unfold period_length; ring).
      rewrite VP by lra. rewrite seg_0 by auto. rewrite Ex. ring.
    + replace (fst c + INR k * (len_left p + len_right p) + (end_x p - fst c) - start_x p)
        with (bezier_length p + INR k * period_length p) by (unfold period_length, bezier_length; ring).
      rewrite VP by lra. rewrite seg2; auto; [|lra]. rewrite Ey. ring.
  - rewrite odd_odd, half_odd. cbn [fst snd]. split.
    + replace (fst c + INR k * (len_left p + len_right p) + len_right p - (end_x p - fst c) - start_x p)
        with (bezier_length p + right_lin_length p c + INR k * period_length p)
        by (unfold period_length, bezier_length, right_lin_length; ring).
      rewrite VP by lra. rewrite seg2; auto; [|lra]. rewrite Ey. unfold right_lin_length. ring.
    + replace (fst c + INR k * (len_left p + len_right p) + len_right p + (fst c - start_x p) - start_x p)
        with (bezier_length p * 2 + right_lin_length p c + INR k * period_length p)
        by (unfold period_length, bezier_length, right_lin_length; ring).
      rewrite VP by lra. rewrite seg4; auto; [|lra]. rewrite yoi, Ey, Ex. unfold right_lin_length. ring.
Qed.

Lemma closed_in_wave p c n i : corner p c -> start_x p <= fst c <= end_x p ->
  2 * (fst c - start_x p) <= len_left p -> 2 * (end_x p - fst c) <= len_right p ->
  0 < len_left p + len_right p -> (i < n * 2 - 1)%nat ->
  let a := closed_anchors p c i in
  start_x p <= fst (left_anchor a) <= wave_end p n /\ start_x p <= fst (right_anchor a) <= wave_end p n.
Proof.
  intros Hc Hb Hl Hr HP Hi. unfold wave_end.
  destruct (even_or_odd i) as [[k ->]|[k ->]]; unfold closed_anchors, left_anchor, right_anchor.
  - rewrite odd_even, half_even. cbn [fst snd].
    assert (K : INR k <= INR n - 1) by (change 1 with (INR 1); rewrite <- minus_INR by lia; apply le_INR; lia).
    pose proof (Rmult_le_compat_r (len_left p + len_right p) _ _ ltac:(lra) K).
    pose proof (Rmult_le_pos (INR k) (len_left p + len_right p) (pos_INR k) ltac:(lra)). lra.
  - rewrite odd_odd, half_odd. cbn [fst snd].
    assert (K : INR k + 1 <= INR n - 1).
    { rewrite <- S_INR. change 1 with (INR 1); rewrite <- minus_INR by lia. apply le_INR; lia. }
    pose proof (Rmult_le_compat_r (len_left p + len_right p) _ _ ltac:(lra) K).
    pose proof (Rmult_le_pos (INR k) (len_left p + len_right p) (pos_INR k) ltac:(lra)). lra.
Qed.

Lemma anchors_on_tct p lut mp n f : admissible p -> good_mode p lut ->
  mp = None \/ mp = Some n -> is_tct p lut mp f ->
  length (tct_anchors p n) = (2 * n - 1)%nat /\
  forall i a, nth_error (tct_anchors p n) i = Some a ->
  f (fst (left_anchor a)) = snd (left_anchor a) /\ f (fst (right_anchor a)) = snd (right_anchor a).
Proof.
  intros A G M H. split; [rewrite tct_anchors_length; lia|]. intros i a Ha. open_admissible A.
  assert (Hi : (i < n * 2 - 1)%nat).
  { rewrite <- (tct_anchors_length p n). apply nth_error_Some. congruence. }
  rewrite (tct_anchors_nth p c) in Ha by auto. inversion Ha; subst a; clear Ha.
  rewrite !(is_tct_F p c lut mp f) by (auto; destruct M; subst mp; simpl; auto; lia).
  destruct (closed_on_W p c lut i Hsl Hc Hb Hl Hr HP G) as [Q1 Q2].
  destruct M; subst mp.
  - unfold Ftct. split; auto.
  - destruct (closed_in_wave p c n i Hc Hb Hl Hr HP Hi) as [W1 W2].
    rewrite !F_wave by (auto; lia). auto.
Qed.

Lemma anchors_lines p n : admissible p ->
  forall i a, nth_error (tct_anchors p n) i = Some a ->
  let s1 := if Nat.even i then slope_left p else slope_right p in
  let s2 := if Nat.even i then slope_right p else slope_left p in
  snd (center_anchor a) - snd (left_anchor a) = s1 * (fst (center_anchor a) - fst (left_anchor a)) /\
  snd (right_anchor a) - snd (center_anchor a) = s2 * (fst (right_anchor a) - fst (center_anchor a)) /\
  fst (left_anchor a) <= fst (center_anchor a) <= fst (right_anchor a) /\
  forall b, nth_error (tct_anchors p n) (S i) = Some b ->
    snd (left_anchor b) - snd (right_anchor a) = s2 * (fst (left_anchor b) - fst (right_anchor a)) /\
    fst (right_anchor a) <= fst (left_anchor b).
Proof.
  intros A i a Ha. open_admissible A.
  assert (L : forall j x, nth_error (tct_anchors p n) j = Some x -> x = closed_anchors p c j).
  { intros j x Hx. assert (Hj : (j < n * 2 - 1)%nat).
    { rewrite <- (tct_anchors_length p n). apply nth_error_Some. congruence. }
    rewrite (tct_anchors_nth p c) in Hx by auto. congruence. }
  apply L in Ha. subst a. cbv zeta. rewrite <- Nat.negb_odd.
  destruct (even_or_odd i) as [[k ->]|[k ->]].
  - rewrite odd_even. simpl negb. cbn iota.
    unfold closed_anchors at 1 2 3 4 5 6 7 8 9 10 11 12. rewrite odd_even, half_even.
    unfold left_anchor at 1 2 3, right_anchor at 1 2 3, center_anchor. cbn [fst snd].
    repeat split; try ring; try lra.
    + apply L in H. subst b. replace (S (2 * k)) with (2 * k + 1)%nat by lia.
      unfold closed_anchors, left_anchor, right_anchor. rewrite odd_even, odd_odd, half_even, half_odd.
      cbn [fst snd]. ring.
    + apply L in H. subst b. replace (S (2 * k)) with (2 * k + 1)%nat by lia.
      unfold closed_anchors, left_anchor, right_anchor. rewrite odd_even, odd_odd, half_even, half_odd.
      cbn [fst snd]. lra.
  - rewrite odd_odd. simpl negb. cbn iota.
    unfold closed_anchors at 1 2 3 4 5 6 7 8 9 10 11 12. rewrite odd_odd, half_odd.
    unfold left_anchor at 1 2 3, right_anchor at 1 2 3, center_anchor. cbn [fst snd].
    repeat split; try ring; try lra.
    + apply L in H. subst b. replace (S (2 * k + 1)) with (2 * (k + 1))%nat by lia.
      unfold closed_anchors, left_anchor, right_anchor. rewrite odd_even, odd_odd, half_even, half_odd.
      cbn [fst snd]. rewrite plus_INR. simpl INR. ring.
    + apply L in H. subst b. replace (S (2 * k + 1)) with (2 * (k + 1))%nat by lia.
      unfold closed_anchors, left_anchor, right_anchor. rewrite odd_even, odd_odd, half_even, half_odd.
      cbn [fst snd]. rewrite plus_INR. simpl INR. lra.
Qed.

(** ** lookup table *)
Lemma curve_point_cx p c t : corner p c -> curve_point p c t = (cx p c t, cy p c t).
Proof.
  intros Hc. unfold curve_point. rewrite <- bez_x, <- bez_y by auto. reflexivity.
Qed.

Lemma between_entries (g : nat -> R) n x : (1 <= n)%nat -> g 0%nat <= x <= g n ->
  exists j, (j < n)%nat /\ g j <= x <= g (S j).
Proof.
  induction n as [|n IH]; intros Hn Hx; [lia|].
  destruct (Nat.eq_dec n 0) as [->|].
  - exists 0%nat; split; auto.
  - destruct (Rle_dec x (g n)).
    + destruct (IH ltac:(lia) ltac:(lra)) as (j & Hj & Q). exists j; split; auto.
    + exists n; split; auto; lra.
Qed.

Lemma lut_nearest p c n x : corner p c -> start_x p <= fst c <= end_x p -> (2 <= n)%nat ->
  start_x p <= x <= end_x p ->
  let entry i := curve_point p c (INR i / INR (n - 1)) in
  exists i, (i < n)%nat /\ lut_eval p c n x = snd (entry i) /\
    (forall j, (j < n)%nat -> Rabs (fst (entry i) - x) <= Rabs (fst (entry j) - x)) /\
    exists j, (S j < n)%nat /\ fst (entry j) <= x <= fst (entry (S j)) /\
              Rabs (fst (entry i) - x) <= (fst (entry (S j)) - fst (entry j)) / 2.
Proof.
  intros Hc Hb Hn Hx entry.
  set (l := map (fun q : point => Rabs (fst q - x)) (lut_points p c n)).
  assert (Ll : length l = n) by (unfold l; rewrite map_length; apply length_lut).
  assert (Hne : l <> []) by (intros E; rewrite E in Ll; simpl in Ll; lia).
  destruct (argmin_spec l Hne) as (A & B & _). rewrite Ll in A, B.
  assert (D : forall j, (j < n)%nat -> nth j l 0 = Rabs (fst (entry j) - x)).
  { intros j Hj. unfold l. rewrite nth_lut_dist by auto. reflexivity. }
  assert (Min : forall j, (j < n)%nat -> Rabs (fst (entry (argmin l)) - x) <= Rabs (fst (entry j) - x)).
  { intros j Hj. rewrite <- !D by auto. apply B; auto. }
  exists (argmin l). split; auto. split.
  { unfold lut_eval. fold l. rewrite nth_lut by auto. reflexivity. }
  split; auto.
  destruct (between_entries (fun i => fst (entry i)) (n - 1) x) as (j & Hj & Q); [lia| |].
  { unfold entry. rewrite !curve_point_cx by auto. cbn [fst].
    assert (0 < INR (n - 1)) by (apply lt_0_INR; lia).
    replace (INR (n - 1) / INR (n - 1)) with 1 by (field; lra).
    replace (INR 0 / INR (n - 1)) with 0 by (simpl; unfold Rdiv; ring). rewrite cx_0, cx_1. auto. }
  exists j. split; [lia|]. split; auto.
  pose proof (Min j ltac:(lia)) as M1. pose proof (Min (S j) ltac:(lia)) as M2.
  rewrite (Rabs_left1 (fst (entry j) - x)) in M1 by lra.
  rewrite (Rabs_right (fst (entry (S j)) - x)) in M2 by lra. lra.
Qed.

Lemma gap_bound p c n j : corner p c -> start_x p <= fst c <= end_x p -> (2 <= n)%nat -> (S j < n)%nat ->
  fst (curve_point p c (INR (S j) / INR (n - 1))) - fst (curve_point p c (INR j / INR (n - 1)))
  <= 2 * Rmax (fst c - start_x p) (end_x p - fst c) / INR (n - 1).
Proof.
  intros Hc Hb Hn Hj. rewrite !curve_point_cx by auto. cbn [fst].
  assert (N : 0 < INR (n - 1)) by (apply lt_0_INR; lia).
  pose proof (ratio_01 j n Hn ltac:(lia)) as T. pose proof (ratio_01 (S j) n Hn ltac:(lia)) as T'.
  assert (Dt : INR (S j) / INR (n - 1) - INR j / INR (n - 1) = 1 / INR (n - 1)).
  { rewrite S_INR. field. lra. }
  set (t := INR j / INR (n - 1)) in *. set (t' := INR (S j) / INR (n - 1)) in *.
  set (u := fst c - start_x p). set (v := end_x p - fst c).
  assert (U : 0 <= u) by (unfold u; lra). assert (V : 0 <= v) by (unfold v; lra).
  replace (cx p c t' - cx p c t) with ((t' - t) * (v * (t + t') + u * (2 - (t + t')))) by (unfold cx, u, v; ring).
  rewrite Dt. 
  replace (2 * Rmax u v / INR (n - 1)) with (1 / INR (n - 1) * (2 * Rmax u v)) by (field; lra).
  apply Rmult_le_compat_l; [apply Rle_mult_inv_pos; lra|].
  pose proof (Rmax_l u v). pose proof (Rmax_r u v).
  assert (v * (t + t') <= Rmax u v * (t + t')) by (apply Rmult_le_compat_r; lra).
  assert (u * (2 - (t + t')) <= Rmax u v * (2 - (t + t'))) by (apply Rmult_le_compat_r; lra). lra.
Qed.

Lemma abs_slope lo hi d e : lo * d <= e <= hi * d -> 0 <= d -> Rabs e <= Rmax (Rabs lo) (Rabs hi) * d.
Proof.
  intros H Hd. apply Rabs_le.
  pose proof (Rmax_l (Rabs lo) (Rabs hi)). pose proof (Rmax_r (Rabs lo) (Rabs hi)).
  pose proof (Rle_abs hi). pose proof (Rle_abs (- lo)) as N. rewrite Rabs_Ropp in N.
  set (M := Rmax (Rabs lo) (Rabs hi)) in *.
  assert (hi * d <= M * d) by (apply Rmult_le_compat_r; lra).
  assert (- M * d <= lo * d) by (apply Rmult_le_compat_r; lra). lra.
Qed.

Lemma lut_error p c n x : corner p c -> start_x p <= fst c <= end_x p -> peak p -> (2 <= n)%nat ->
  start_x p < end_x p -> start_x p <= x <= end_x p ->
  Rabs (lut_eval p c n x - bezier_solve p c x)
  <= Rmax (Rabs (slope_right p)) (Rabs (slope_left p))
     * (Rmax (fst c - start_x p) (end_x p - fst c) / INR (n - 1)).
Proof.
  intros Hc Hb Pk Hn HL Hx. unfold peak in Pk.
  destruct (lut_nearest p c n x Hc Hb Hn Hx) as (i & Hi & E & _ & j & Hj & _ & D).
  rewrite E. set (q := curve_point p c (INR i / INR (n - 1))) in *.
  assert (Eq : snd q = bezier_solve p c (fst q)).
  { unfold q. rewrite curve_point_cx by auto. cbn [fst snd].
    pose proof (ratio_01 i n Hn Hi) as T. set (t := INR i / INR (n - 1)) in *.
    assert (Rg : start_x p <= cx p c t <= end_x p).
    { split.
      - destruct (Req_dec t 0) as [->|]; [rewrite cx_0; lra|].
        pose proof (cx_mono p c Hb 0 t ltac:(lra) T ltac:(lra) ltac:(lra)) as M. rewrite cx_0 in M. lra.
      - destruct (Req_dec t 1) as [->|]; [rewrite cx_1; lra|].
        pose proof (cx_mono p c Hb t 1 T ltac:(lra) ltac:(lra) ltac:(lra)) as M. rewrite cx_1 in M. lra. }
    rewrite bezier_solve_value by (auto; lra). f_equal.
    pose proof (tpar_x p c Hb (cx p c t) Rg) as X. pose proof (tpar_01 p c Hb (cx p c t) Rg) as X01.
    destruct (Rtotal_order t (tpar p c (cx p c t))) as [L|[L|L]]; auto; exfalso.
    - pose proof (cx_mono p c Hb _ _ T X01 ltac:(lra) L). lra.
    - pose proof (cx_mono p c Hb _ _ X01 T ltac:(lra) L). lra. }
  assert (Rq : start_x p <= fst q <= end_x p).
  { unfold q. rewrite curve_point_cx by auto. cbn [fst].
    pose proof (ratio_01 i n Hn Hi) as T. set (t := INR i / INR (n - 1)) in *. split.
    - destruct (Req_dec t 0) as [->|]; [rewrite cx_0; lra|].
      pose proof (cx_mono p c Hb 0 t ltac:(lra) T ltac:(lra) ltac:(lra)) as M. rewrite cx_0 in M. lra.
    - destruct (Req_dec t 1) as [->|]; [rewrite cx_1; lra|].
      pose proof (cx_mono p c Hb t 1 T ltac:(lra) ltac:(lra) ltac:(lra)) as M. rewrite cx_1 in M. lra. }
  rewrite Eq.
  pose proof (gap_bound p c n j Hc Hb Hn Hj) as Gp.
  assert (D' : Rabs (fst q - x) <= Rmax (fst c - start_x p) (end_x p - fst c) / INR (n - 1)).
  { eapply Rle_trans; [exact D|]. unfold Rdiv in *. lra. }
  pose proof (bezier_solve_slopes p c Hc Hb ltac:(lra) ltac:(lra)) as S.
  set (M := Rmax (Rabs (slope_right p)) (Rabs (slope_left p))).
  assert (M0 : 0 <= M) by (unfold M; eapply Rle_trans; [apply Rabs_pos|apply Rmax_l]).
  assert (B : Rabs (bezier_solve p c (fst q) - bezier_solve p c x) <= M * Rabs (fst q - x)).
  { destruct (Rle_dec x (fst q)).
    - rewrite (Rabs_right (fst q - x)) by lra. apply abs_slope; [apply S; lra|lra].
    - rewrite (Rabs_left1 (fst q - x)) by lra. rewrite Rabs_minus_sym.
      replace (- (fst q - x)) with (x - fst q) by ring. apply abs_slope; [apply S; lra|lra]. }
  eapply Rle_trans; [exact B|]. apply Rmult_le_compat_l; auto.
Qed.

(** the LUT version of a whole TCT stays close to the exact one *)
Lemma tct_lut_error p n mp : admissible p -> peak p -> (2 <= n)%nat -> some_peaks mp ->
  exists f g, is_tct p None mp f /\ is_tct p (Some n) mp g /\
  forall x, Rabs (g x - f x) <=
    Rmax (Rabs (slope_right p)) (Rabs (slope_left p)) * ((end_x p - start_x p) / INR (n - 1)).
Proof.
  intros A Pk Hn M. open_admissible A.
  assert (G1 : good_mode p None) by (split; [discriminate|auto]).
  assert (G2 : good_mode p (Some n)).
  { split; [intros E; inversion E; lia|]. intros [E|E]; [discriminate|inversion E; lia]. }
  exists (Ftct p c None mp), (Ftct p c (Some n) mp).
  split; [intros x; apply tct_number_F; auto|]. split; [intros x; apply tct_number_F; auto|].
  set (eps := Rmax _ _ * _).
  assert (N : 0 < INR (n - 1)) by (apply lt_0_INR; lia).
  assert (Hbl : 0 <= end_x p - start_x p) by lra.
  assert (E0 : 0 <= eps).
  { unfold eps. apply Rmult_le_pos; [eapply Rle_trans; [apply Rabs_pos|apply Rmax_l]|apply Rle_mult_inv_pos; lra]. }
  assert (Bz : forall x, 0 < bezier_length p -> start_x p <= x <= end_x p ->
    Rabs (bezier_eval p c (Some n) x - bezier_eval p c None x) <= eps).
  { intros x L X. unfold bezier_length in L. simpl. destruct n as [|n']; [lia|].
    eapply Rle_trans; [apply lut_error; auto; lra|].
    unfold eps. apply Rmult_le_compat_l; [eapply Rle_trans; [apply Rabs_pos|apply Rmax_l]|].
    apply Rmult_le_compat_r; [apply Rlt_le, Rinv_0_lt_compat; auto|]. apply Rmax_lub; lra. }
  assert (Wz : forall x, Rabs (W p c (bezier_eval p c (Some n)) x - W p c (bezier_eval p c None) x) <= eps).
  { intros x. unfold W. set (k := Int_part _). set (y := x - _).
    destruct (lens p c Hb Hl Hr HP) as (L1 & L2 & L3 & L4 & L5).
    pose proof (div_bounds x (period_length p) L4) as DB. fold k in DB.
    assert (Y : 0 <= y) by (unfold y; lra).
    match goal with |- Rabs (?a - ?z - (?b - ?z)) <= _ => replace (a - z - (b - z)) with (a - b) by ring end.
    unfold seg.
    destruct (Rltb_spec y (bezier_length p)) as [B1|B1].
    - apply Bz; unfold bezier_length in *; lra.
    - destruct (Rltb_spec y (bezier_length p + right_lin_length p c)) as [B2|B2].
      + rewrite Rminus_diag_eq by auto. rewrite Rabs_R0. auto.
      + destruct (Rltb_spec y (bezier_length p * 2 + right_lin_length p c)) as [B3|B3].
        * match goal with |- Rabs (-1 * ?a + ?z - (-1 * ?b + ?z)) <= _ =>
            replace (-1 * a + z - (-1 * b + z)) with (- (a - b)) by ring end.
          rewrite Rabs_Ropp. apply Bz; unfold bezier_length in *; lra.
        * rewrite Rminus_diag_eq by auto. rewrite Rabs_R0. auto. }
  intros x. unfold Ftct. destruct mp as [m|]; [|apply Wz].
  unfold outer_value. destruct (Rleb_spec (wave_end p m) x).
  - rewrite Rminus_diag_eq by auto. rewrite Rabs_R0. auto.
  - destruct (Rleb_spec x (start_x p)).
    + rewrite Rminus_diag_eq by auto. rewrite Rabs_R0. auto.
    + apply Wz.
Qed.

(** ** explicit solution *)
Lemma explicit_curve p c x : corner p c -> start_x p <= fst c <= end_x p -> peak p -> start_x p < end_x p ->
  start_x p <= x <= end_x p ->
  exists t, 0 <= t <= 1 /\ curve_point p c t = (x, bezier_solve p c x).
Proof.
  intros Hc Hb Pk HL Hx. unfold peak in Pk. exists (tpar p c x).
  split; [apply tpar_01; auto|]. rewrite curve_point_cx by auto.
  rewrite tpar_x by auto. rewrite bezier_solve_value by (auto; lra). reflexivity.
Qed.

Definition valley_tct : tct_params := mk_tct 4 4 (-1) 1 0 0 3 1.

Lemma valley_admissible : admissible valley_tct.
Proof.
  split; [simpl; lra|]. split; [simpl; lra|]. exists (1, -1). unfold corner; simpl. lra.
Qed.

Lemma valley_start : tct_bezier_number valley_tct None (Some 1%nat) 0 = Ok 16.
Proof.
  unfold tct_bezier_number, tct_bezier. 
  rewrite (corner_center valley_tct (1, -1)) by (simpl; try lra; unfold corner; simpl; lra).
  simpl. rewrite !Rleb_true by lra. simpl.
  unfold in_wave, wave_end. simpl. rewrite !Rleb_true by lra. simpl.
  unfold wave_value, period_length. simpl. rewrite Reqb_false by lra.
  replace ((0 - 0) / (4 + 4)) with 0 by field.
  rewrite (Int_part_unique 0 0) by lra.
  rewrite Rltb_true by (unfold bezier_length; simpl; lra). simpl.
  f_equal. unfold bezier_solve. simpl. rewrite Reqb_false by lra.
  replace (2 * (1 - 0) * (2 * (1 - 0) * 1) - 4 * (0 - 2 * 1 + 3) * (0 - (0 - 0 - (4 + 4) * 0 + 0))) with (2 * 2) by ring.
  rewrite sqrt_square by lra.
  unfold bezier_at, y_offset_period; simpl.
  rewrite Rmax_left by (simpl; lra). unfold get_item; simpl. f_equal. field.
Qed.

Lemma tct_array p lut mp xs : admissible p -> good_mode p lut -> some_peaks mp -> (mp = None -> xs <> []) ->
  exists ys, tct_bezier p lut mp xs = Ok ys /\ length ys = length xs /\
  forall i x, nth_error xs i = Some x ->
    exists y, nth_error ys i = Some y /\ tct_bezier_number p lut mp x = Ok y.
Proof.
  intros A G M Hne. open_admissible A. exists (map (Ftct p c lut mp) xs).
  split; [apply tct_bezier_F; auto|]. split; [apply map_length|].
  intros i x Hx. exists (Ftct p c lut mp x). split; [apply map_nth_error; auto|]. apply tct_number_F; auto.
Qed.

(** malformed parameters are rejected *)
Lemma tct_rejects p lut mp xs c : bezier_center p = Ok c ->
  ~ (start_x p <= fst c <= end_x p /\ 2 * (fst c - start_x p) <= len_left p /\ 2 * (end_x p - fst c) <= len_right p) ->
  tct_bezier p lut mp xs = Err AssertionError.
Proof.
  intros E H. unfold tct_bezier. rewrite E. simpl.
  destruct (Rleb_spec (start_x p) (fst c)); simpl; auto.
  destruct (Rleb_spec (fst c) (end_x p)); simpl; auto.
  destruct (Rleb_spec (2 * (fst c - start_x p)) (len_left p)); simpl; auto.
  destruct (Rleb_spec (2 * (end_x p - fst c)) (len_right p)); simpl; auto.
  exfalso; apply H; auto.
Qed.

(** a concrete TCT with a corner at (1, 1) *)
Definition example_tct : tct_params := mk_tct 4 4 1 (-1) 0 0 2 0.
Lemma example_corner : corner example_tct (1, 1). Proof. unfold corner; simpl; lra. Qed.
Lemma example_admissible : admissible example_tct.
Proof. split; [simpl; lra|]. split; [simpl; lra|]. exists (1, 1). unfold corner; simpl; lra. Qed.
Lemma example_values :
  tct_bezier example_tct None (Some 2%nat) [-3; 0; 1; 4; 9] = Ok [-3; 0; 1/2; -2; 1/2].
Proof.
  rewrite (tct_bezier_F example_tct (1, 1)); simpl; try lra; try (exact example_corner); try lia; try discriminate.
  2:{ split; [discriminate|intros _; unfold peak; simpl; lra]. }
  unfold Ftct, outer_value, wave_end. simpl.
  rewrite ?(Rleb_true (2 + (1 + 1 - 1) * (4 + 4)) _) by lra.
  rewrite ?(Rleb_false (2 + (1 + 1 - 1) * (4 + 4)) _) by lra.
  rewrite (Rleb_true (-3)), (Rleb_true 0), ?(Rleb_false 1), ?(Rleb_false 4), ?(Rleb_false 9) by lra.
  unfold W, period_length, example_tct. simpl.
  rewrite (Int_part_unique ((1 - 0) / (4 + 4)) 0) by lra.
  rewrite (Int_part_unique ((4 - 0) / (4 + 4)) 0) by lra.
  rewrite (Int_part_unique ((9 - 0) / (4 + 4)) 1) by lra.
  unfold seg, bezier_length, right_lin_length, y_offset_period, y_offset_inv, left_lin_length, right_lin_length. simpl.
  rewrite (Rltb_true (1 - 0 - (4 + 4) * 0)) by lra.
  rewrite (Rltb_true (9 - 0 - (4 + 4) * 1)) by lra.
  rewrite !(Rltb_false (4 - 0 - (4 + 4) * 0) (2 - 0)) by lra.
  rewrite !(Rltb_false (4 - 0 - (4 + 4) * 0) (2 - 0 + (4 - 2 * (2 - 1)))) by lra.
  rewrite !(Rltb_true (4 - 0 - (4 + 4) * 0)) by lra.
  unfold bezier_solve. simpl. rewrite Reqb_true by lra. unfold bezier_at.
  apply f_equal. repeat (apply f_equal2; [field|]); reflexivity.
Qed.
