(** With fine enough sampling, unlabelled neighbours are on the same side of every TCT. *)
From Verif Require Import RPrelude Arr ModelSupport SpecSupport ProofsSupport ModelTct SpecTct ProofsTct
  ModelCsd SpecCsd ProofsCsd ProofsOcc ProofsRegions ProofsMask.
Local Open Scope R_scope.

(** ** one axis *)
Section Axis.
Variables (lims : R * R) (n : nat).
Hypothesis H : fst lims < snd lims.
Hypothesis Hn : (2 <= n)%nat.
Let s := spacing lims n.

Lemma voltage_in i : (i < n)%nat -> fst lims <= pixel_voltage lims n i <= snd lims.
Proof.
  intros Hi. rewrite pixel_voltage_spacing. pose proof (spacing_pos lims n H Hn). pose proof (spacing_span lims n Hn).
  assert (0 <= INR i) by apply pos_INR. assert (INR i <= INR n - 1).
  { apply (le_INR (S i)) in Hi. rewrite S_INR in Hi. lra. }
  nra.
Qed.

Lemma near_one i q : (i < n)%nat -> Rabs (q - pixel_voltage lims n i) < s / 2 -> nearest_pixel lims n i q /\ in_window lims n q.
Proof.
  intros Hi Hq. apply Rabs_def2 in Hq. pose proof (voltage_in i Hi). unfold nearest_pixel, in_window. fold s.
  split; [split; [auto|lra]|lra].
Qed.

Lemma near_two j q r : (S j < n)%nat -> pixel_voltage lims n j <= r <= pixel_voltage lims n (S j) -> Rabs (q - r) < s / 2 ->
  in_window lims n q /\ (nearest_pixel lims n j q \/ nearest_pixel lims n (S j) q).
Proof.
  intros Hj Hr Hq. apply Rabs_def2 in Hq. pose proof (voltage_in j ltac:(lia)). pose proof (voltage_in (S j) Hj).
  assert (E : pixel_voltage lims n (S j) = pixel_voltage lims n j + s) by (rewrite !pixel_voltage_spacing, S_INR; fold s; ring).
  unfold in_window, nearest_pixel. fold s. split; [lra|].
  destruct (Rlt_le_dec q (pixel_voltage lims n j + s / 2)); [left|right]; split; try lia; lra.
Qed.
End Axis.

(** ** samples *)
Lemma linspace_near a b n x : a <= b -> (2 <= n)%nat -> a <= x <= b ->
  exists y, In y (linspace a b n) /\ Rabs (y - x) <= (b - a) / INR (n - 1) / 2.
Proof.
  intros Hab Hn Hx. assert (P : 0 < INR (n - 1)) by (apply lt_0_INR; lia).
  set (d := (b - a) / INR (n - 1)).
  assert (D : d * INR (n - 1) = b - a) by (unfold d; field; lra).
  destruct (between_entries (fun i => a + INR i * d) (n - 1) x ltac:(lia)) as (j & Hj & L).
  { simpl. lra. }
  assert (I : forall i, (i < n)%nat -> In (a + INR i * d) (linspace a b n)).
  { intros i Hi. eapply nth_error_In. apply nth_error_linspace. auto. }
  rewrite S_INR in L.
  destruct (Rle_lt_dec (x - (a + INR j * d)) (d / 2)).
  - exists (a + INR j * d). split; [apply I; lia|]. apply Rabs_le. lra.
  - exists (a + INR (S j) * d). split; [apply I; lia|]. rewrite S_INR. apply Rabs_le. lra.
Qed.

Lemma fold_min_spec l d : (forall x, In x l -> fold_right Rmin d l <= x) /\ (fold_right Rmin d l = d \/ In (fold_right Rmin d l) l).
Proof.
  induction l as [|x t [A B]]; simpl; [split; [intros x []|auto]|].
  split.
  - intros y [<-|Hy]; [apply Rmin_l|]. pose proof (Rmin_r x (fold_right Rmin d t)). specialize (A y Hy). lra.
  - destruct (Rle_dec x (fold_right Rmin d t)); [rewrite Rmin_left by auto; right; left; auto|].
    rewrite Rmin_right by lra. destruct B; auto.
Qed.
Lemma fold_max_spec l d : (forall x, In x l -> x <= fold_right Rmax d l) /\ (fold_right Rmax d l = d \/ In (fold_right Rmax d l) l).
Proof.
  induction l as [|x t [A B]]; simpl; [split; [intros x []|auto]|].
  split.
  - intros y [<-|Hy]; [apply Rmax_l|]. pose proof (Rmax_r x (fold_right Rmax d t)). specialize (A y Hy). lra.
  - destruct (Rle_dec x (fold_right Rmax d t)); [rewrite Rmax_right by auto; destruct B; auto|].
    rewrite Rmax_left by lra. right; left; auto.
Qed.

Definition sample_lo (xl yl : R * R) (rot : R) : R :=
  let xs := map fst (rotate_points (- rot) [(fst xl, fst yl); (fst xl, snd yl); (snd xl, fst yl); (snd xl, snd yl)]) in
  fold_right Rmin (hd 0 xs) xs.
Definition sample_hi (xl yl : R * R) (rot : R) : R :=
  let xs := map fst (rotate_points (- rot) [(fst xl, fst yl); (fst xl, snd yl); (snd xl, fst yl); (snd xl, snd yl)]) in
  fold_right Rmax (hd 0 xs) xs.

Lemma view_x rot v : fst (tct_view rot v) = cos rot * fst v + sin rot * snd v.
Proof. unfold tct_view, rotate_point; simpl. rewrite cos_neg, sin_neg. ring. Qed.
Lemma view_y rot v : snd (tct_view rot v) = - sin rot * fst v + cos rot * snd v.
Proof. unfold tct_view, rotate_point; simpl. rewrite cos_neg, sin_neg. ring. Qed.

Lemma sample_bounds xl yl rot : fst xl <= snd xl -> fst yl <= snd yl ->
  (forall v, fst xl <= fst v <= snd xl -> fst yl <= snd v <= snd yl ->
     sample_lo xl yl rot <= fst (tct_view rot v) <= sample_hi xl yl rot) /\
  sample_hi xl yl rot - sample_lo xl yl rot <= rotated_extent xl yl rot.
Proof.
  intros Hx Hy. unfold sample_lo, sample_hi.
  set (xs := map fst _).
  assert (Exs : xs = [cos rot * fst xl + sin rot * fst yl; cos rot * fst xl + sin rot * snd yl;
                      cos rot * snd xl + sin rot * fst yl; cos rot * snd xl + sin rot * snd yl]).
  { unfold xs, rotate_points; simpl. rewrite cos_neg, sin_neg. f_equal; [ring|]. f_equal; [ring|]. f_equal; [ring|]. f_equal. ring. }
  destruct (fold_min_spec xs (hd 0 xs)) as [Mn1 Mn2]. destruct (fold_max_spec xs (hd 0 xs)) as [Mx1 Mx2].
  assert (H0 : In (hd 0 xs) xs) by (rewrite Exs; left; reflexivity).
  assert (In1 : In (fold_right Rmin (hd 0 xs) xs) xs) by (destruct Mn2 as [->|]; auto).
  assert (In2 : In (fold_right Rmax (hd 0 xs) xs) xs) by (destruct Mx2 as [->|]; auto).
  set (lo := fold_right Rmin (hd 0 xs) xs) in *. set (hi := fold_right Rmax (hd 0 xs) xs) in *. clearbody lo hi.
  rewrite Exs in *. clear Exs xs H0 Mn2 Mx2. cbn [In] in Mn1, Mx1, In1, In2.
  set (c := cos rot) in *. set (s := sin rot) in *. split.
  - intros v Hv1 Hv2. rewrite view_x. fold c s. split.
    + assert (B : exists a b, (a = fst xl \/ a = snd xl) /\ (b = fst yl \/ b = snd yl) /\ c * a <= c * fst v /\ s * b <= s * snd v).
      { destruct (Rle_lt_dec 0 c), (Rle_lt_dec 0 s);
          [exists (fst xl), (fst yl)|exists (fst xl), (snd yl)|exists (snd xl), (fst yl)|exists (snd xl), (snd yl)];
          (split; [auto|]; split; [auto|]; split; nra). }
      destruct B as (a & b & [-> | ->] & [-> | ->] & B1 & B2);
        [specialize (Mn1 (c * fst xl + s * fst yl))|specialize (Mn1 (c * fst xl + s * snd yl))
        |specialize (Mn1 (c * snd xl + s * fst yl))|specialize (Mn1 (c * snd xl + s * snd yl))];
        assert (lo <= _) by (apply Mn1; tauto); lra.
    + assert (B : exists a b, (a = fst xl \/ a = snd xl) /\ (b = fst yl \/ b = snd yl) /\ c * fst v <= c * a /\ s * snd v <= s * b).
      { destruct (Rle_lt_dec 0 c), (Rle_lt_dec 0 s);
          [exists (snd xl), (snd yl)|exists (snd xl), (fst yl)|exists (fst xl), (snd yl)|exists (fst xl), (fst yl)];
          (split; [auto|]; split; [auto|]; split; nra). }
      destruct B as (a & b & [-> | ->] & [-> | ->] & B1 & B2);
        [specialize (Mx1 (c * fst xl + s * fst yl))|specialize (Mx1 (c * fst xl + s * snd yl))
        |specialize (Mx1 (c * snd xl + s * fst yl))|specialize (Mx1 (c * snd xl + s * snd yl))];
        assert (_ <= hi) by (apply Mx1; tauto); lra.
  - unfold rotated_extent. fold c s.
    assert (K : forall k a b, a <= b -> Rabs (k * b - k * a) <= Rabs k * (b - a)).
    { intros k a b Hab. rewrite <- Rmult_minus_distr_l, Rabs_mult, (Rabs_pos_eq (b - a)) by lra. lra. }
    pose proof (K c _ _ Hx) as K1. pose proof (K s _ _ Hy) as K2.
    pose proof (Rabs_pos c). pose proof (Rabs_pos s).
    assert (0 <= Rabs c * (snd xl - fst xl)) by nra. assert (0 <= Rabs s * (snd yl - fst yl)) by nra.
    pose proof (Rle_abs (c * snd xl - c * fst xl)). pose proof (Rle_abs (- (c * snd xl - c * fst xl))). rewrite Rabs_Ropp in *.
    pose proof (Rle_abs (s * snd yl - s * fst yl)). pose proof (Rle_abs (- (s * snd yl - s * fst yl))). rewrite Rabs_Ropp in *.
    destruct In1 as [<-|[<-|[<-|[<-|[]]]]], In2 as [<-|[<-|[<-|[<-|[]]]]]; lra.
Qed.

Lemma sample_near xl yl nx ny rot v : fst xl < snd xl -> fst yl < snd yl -> (2 <= nx)%nat -> (2 <= ny)%nat ->
  fst xl <= fst v <= snd xl -> fst yl <= snd v <= snd yl ->
  exists x, In x (mask_samples xl yl nx ny rot) /\
    Rabs (x - fst (tct_view rot v)) <= sample_distance xl yl nx ny rot / 2.
Proof.
  intros Hx Hy Hnx Hny Hv1 Hv2. destruct (sample_bounds xl yl rot ltac:(lra) ltac:(lra)) as [B E].
  specialize (B v Hv1 Hv2). pose proof (spacing_pos xl nx Hx Hnx) as S.
  unfold mask_samples. fold (sample_lo xl yl rot) (sample_hi xl yl rot). rewrite pixel_step_spacing by lia.
  destruct (linspace_near (sample_lo xl yl rot - spacing xl nx) (sample_hi xl yl rot + spacing xl nx) ((nx + ny) * 4)
              (fst (tct_view rot v)) ltac:(lra) ltac:(lia) ltac:(lra)) as (x & I & D).
  exists x. split; [exact I|]. refine (Rle_trans _ _ _ D _).
  unfold sample_distance. assert (P : 0 < / INR ((nx + ny) * 4 - 1)) by (apply Rinv_0_lt_compat, lt_0_INR; lia).
  unfold Rdiv. nra.
Qed.

(** ** adjacent unlabelled pixels *)
Section Adjacent.
Variables (xl yl : R * R) (nx ny : nat) (rot L eps : R) (F f : R -> R).
Hypothesis Hx : fst xl < snd xl.
Hypothesis Hy : fst yl < snd yl.
Hypothesis Hnx : (2 <= nx)%nat.
Hypothesis Hny : (2 <= ny)%nat.
Hypothesis HL : 0 <= L.
Hypothesis Heps : 0 <= eps.
Hypothesis Lip : forall x y, Rabs (f x - f y) <= L * Rabs (x - y).
Hypothesis Close : forall x, Rabs (F x - f x) <= eps.
Hypothesis Fine : fine_sampling xl yl nx ny rot L eps.
Let volt (a : nat * nat) : point := (pixel_voltage xl nx (snd a), pixel_voltage yl ny (fst a)).
Let above (v : point) : Prop := F (fst (tct_view rot v)) <= snd (tct_view rot v).

Definition between (v w : point) (t : R) : point := (fst v + t * (fst w - fst v), snd v + t * (snd w - snd v)).

Lemma crossing v w : above v -> ~ above w ->
  exists t, 0 <= t <= 1 /\ Rabs (snd (tct_view rot (between v w t)) - f (fst (tct_view rot (between v w t)))) <= eps.
Proof.
  unfold above. intros A B. apply Rnot_le_lt in B.
  set (h := fun t => snd (tct_view rot (between v w t)) - f (fst (tct_view rot (between v w t)))).
  assert (B0 : between v w 0 = v) by (unfold between; destruct v; simpl; f_equal; ring).
  assert (B1 : between v w 1 = w) by (unfold between; destruct v, w; simpl; f_equal; ring).
  pose proof (Close (fst (tct_view rot v))) as Cv. pose proof (Close (fst (tct_view rot w))) as Cw.
  apply Rabs_le_inv in Cv. apply Rabs_le_inv in Cw.
  assert (h0 : - eps <= h 0) by (unfold h; rewrite B0; lra).
  assert (h1 : h 1 <= eps) by (unfold h; rewrite B1; lra).
  destruct (Rle_lt_dec (h 0) eps) as [C|C].
  { exists 0. split; [lra|]. apply Rabs_le. fold (h 0). lra. }
  destruct (Rle_lt_dec (- eps) (h 1)) as [D|D].
  { exists 1. split; [lra|]. apply Rabs_le. fold (h 1). lra. }
  set (dx := fst (tct_view rot w) - fst (tct_view rot v)).
  set (dy := snd (tct_view rot w) - snd (tct_view rot v)).
  assert (Ex : forall t, fst (tct_view rot (between v w t)) = fst (tct_view rot v) + t * dx).
  { intros t. unfold dx. rewrite !view_x. unfold between; simpl. ring. }
  assert (Ey : forall t, snd (tct_view rot (between v w t)) = snd (tct_view rot v) + t * dy).
  { intros t. unfold dy. rewrite !view_y. unfold between; simpl. ring. }
  set (K := Rabs dy + L * Rabs dx).
  assert (Sl : slopes_in (- K) K h).
  { intros s t Hst. unfold h. rewrite !Ex, !Ey.
    pose proof (Lip (fst (tct_view rot v) + t * dx) (fst (tct_view rot v) + s * dx)) as Lp.
    replace (fst (tct_view rot v) + t * dx - (fst (tct_view rot v) + s * dx)) with ((t - s) * dx) in Lp by ring.
    rewrite Rabs_mult, (Rabs_pos_eq (t - s)) in Lp by lra. apply Rabs_le_inv in Lp.
    pose proof (Rle_abs dy). pose proof (Rle_abs (- dy)). rewrite Rabs_Ropp in *. unfold K.
    set (ff := f (fst (tct_view rot v) + t * dx) - f (fst (tct_view rot v) + s * dx)) in *.
    replace (snd (tct_view rot v) + t * dy - f (fst (tct_view rot v) + t * dx) -
      (snd (tct_view rot v) + s * dy - f (fst (tct_view rot v) + s * dx))) with ((t - s) * dy - ff) by (unfold ff; ring).
    assert ((t - s) * dy <= (t - s) * Rabs dy) by (apply Rmult_le_compat_l; lra).
    assert ((t - s) * - dy <= (t - s) * Rabs dy) by (apply Rmult_le_compat_l; lra).
    lra. }
  destruct (IVT_cor h 0 1 (slopes_in_continuity _ _ _ Sl) ltac:(lra) ltac:(nra)) as (t & Ht & Zt).
  exists t. split; auto. fold (h t). rewrite Zt, Rabs_R0. auto.
Qed.

(** a sample close to the crossing *)
Lemma close_sample v w : above v -> ~ above w ->
  fst xl <= fst v <= snd xl -> fst yl <= snd v <= snd yl -> fst xl <= fst w <= snd xl -> fst yl <= snd w <= snd yl ->
  exists t x, 0 <= t <= 1 /\ In x (mask_samples xl yl nx ny rot) /\
    let q := rotate_point rot (x, F x) in
    Rabs (fst q - fst (between v w t)) < spacing xl nx / 2 /\ Rabs (snd q - snd (between v w t)) < spacing yl ny / 2.
Proof.
  intros A B V1 V2 W1 W2. destruct (crossing v w A B) as (t & Ht & Ct).
  set (r := between v w t) in *.
  assert (R1 : fst xl <= fst r <= snd xl) by (unfold r, between; simpl; nra).
  assert (R2 : fst yl <= snd r <= snd yl) by (unfold r, between; simpl; nra).
  destruct (sample_near xl yl nx ny rot r Hx Hy Hnx Hny R1 R2) as (x & I & D).
  exists t, x. split; auto. split; auto. cbv zeta. fold r.
  set (d := sample_distance xl yl nx ny rot / 2) in *.
  set (X := fst (tct_view rot r)) in *. set (Y := snd (tct_view rot r)) in *.
  assert (DY : Rabs (F x - Y) <= L * d + 2 * eps).
  { replace (F x - Y) with ((F x - f x) + ((f x - f X) - (Y - f X))) by ring.
    pose proof (Rabs_triang (F x - f x) ((f x - f X) - (Y - f X))).
    pose proof (Rabs_triang (f x - f X) (- (Y - f X))). rewrite Rabs_Ropp in *.
    pose proof (Close x). pose proof (Lip x X). assert (L * Rabs (x - X) <= L * d) by (apply Rmult_le_compat_l; auto). unfold Rminus in *. lra. }
  assert (E1 : fst (rotate_point rot (x, F x)) - fst r = cos rot * (x - X) - sin rot * (F x - Y)).
  { rewrite <- (view_rotate rot r) at 1. fold X Y. unfold rotate_point. cbn [fst snd]. fold X Y. ring. }
  assert (E2 : snd (rotate_point rot (x, F x)) - snd r = sin rot * (x - X) + cos rot * (F x - Y)).
  { rewrite <- (view_rotate rot r) at 1. unfold rotate_point. cbn [fst snd]. fold X Y. ring. }
  destruct Fine as [F1 F2]. fold d in F1, F2. rewrite E1, E2.
  pose proof (Rabs_pos (cos rot)). pose proof (Rabs_pos (sin rot)).
  assert (T : forall a b m M, Rabs a <= m -> Rabs b <= M -> forall c s, Rabs (c * a - s * b) <= Rabs c * m + Rabs s * M /\
             Rabs (c * a + s * b) <= Rabs c * m + Rabs s * M).
  { intros a b m M Ha Hb c s. pose proof (Rabs_triang (c * a) (s * b)) as T1. pose proof (Rabs_triang (c * a) (- (s * b))) as T2.
    rewrite Rabs_Ropp in T2. rewrite !Rabs_mult in *.
    assert (Rabs c * Rabs a <= Rabs c * m) by (apply Rmult_le_compat_l; [apply Rabs_pos|auto]).
    assert (Rabs s * Rabs b <= Rabs s * M) by (apply Rmult_le_compat_l; [apply Rabs_pos|auto]).
    unfold Rminus. lra. }
  destruct (T (x - X) (F x - Y) d (L * d + 2 * eps) D DY (cos rot) (sin rot)) as [T1 _].
  destruct (T (x - X) (F x - Y) d (L * d + 2 * eps) D DY (sin rot) (cos rot)) as [_ T2].
  split; lra.
Qed.

Definition hit (a : nat * nat) : Prop :=
  exists x, In x (mask_samples xl yl nx ny rot) /\ lands xl yl nx ny a (rotate_point rot (x, F x)).

Lemma adjacent_hit a b : (fst a < ny)%nat -> (snd a < nx)%nat -> (fst b < ny)%nat -> (snd b < nx)%nat ->
  adjacent a b -> above (volt a) -> ~ above (volt b) -> hit a \/ hit b.
Proof.
  intros Ha1 Ha2 Hb1 Hb2 Adj A B.
  destruct (close_sample (volt a) (volt b) A B) as (t & x & Ht & I & Q1 & Q2);
    try (apply voltage_in; auto).
  set (q := rotate_point rot (x, F x)) in *.
  assert (Mid : forall u v w t, 0 <= t <= 1 -> u <= v -> w = u + t * (v - u) -> u <= w <= v) by (intros; nra).
  destruct a as [i j], b as [i' j']. unfold volt, between in Q1, Q2. cbn [fst snd] in *.
  assert (Mono : forall lims n k, fst lims < snd lims -> (2 <= n)%nat -> pixel_voltage lims n (S k) = pixel_voltage lims n k + spacing lims n).
  { intros. rewrite !pixel_voltage_spacing, S_INR. ring. }
  pose proof (spacing_pos xl nx Hx Hnx). pose proof (spacing_pos yl ny Hy Hny).
  destruct Adj as [[E J]|[E J]]; cbn [fst snd] in *.
  - subst i'. replace (pixel_voltage yl ny i + t * (pixel_voltage yl ny i - pixel_voltage yl ny i)) with (pixel_voltage yl ny i) in Q2 by ring.
    destruct (near_one yl ny Hy Hny i (snd q) Ha1 Q2) as [N2 W2].
    destruct J as [J|J].
    + subst j. pose proof (fun H => near_two xl nx Hx Hnx j' (fst q) _ Ha2 H Q1) as NT. destruct NT as [W1 [N1|N1]]; [rewrite (Mono xl nx j') by auto; nra| |].
      * right. exists x. split; auto. repeat split; auto; try apply W1; try apply W2; try apply N1; apply N2.
      * left. exists x. split; auto. repeat split; auto; try apply W1; try apply W2; try apply N1; apply N2.
    + subst j'. pose proof (fun H => near_two xl nx Hx Hnx j (fst q) _ Hb2 H Q1) as NT. destruct NT as [W1 [N1|N1]]; [rewrite (Mono xl nx j) by auto; nra| |].
      * left. exists x. split; auto. repeat split; auto; try apply W1; try apply W2; try apply N1; apply N2.
      * right. exists x. split; auto. repeat split; auto; try apply W1; try apply W2; try apply N1; apply N2.
  - subst j'. replace (pixel_voltage xl nx j + t * (pixel_voltage xl nx j - pixel_voltage xl nx j)) with (pixel_voltage xl nx j) in Q1 by ring.
    destruct (near_one xl nx Hx Hnx j (fst q) Ha2 Q1) as [N2 W2].
    destruct J as [J|J].
    + subst i. pose proof (fun H => near_two yl ny Hy Hny i' (snd q) _ Ha1 H Q2) as NT. destruct NT as [W1 [N1|N1]]; [rewrite (Mono yl ny i') by auto; nra| |].
      * right. exists x. split; auto. repeat split; auto; try apply W1; try apply W2; try apply N1; apply N2.
      * left. exists x. split; auto. repeat split; auto; try apply W1; try apply W2; try apply N1; apply N2.
    + subst i'. pose proof (fun H => near_two yl ny Hy Hny i (snd q) _ Hb1 H Q2) as NT. destruct NT as [W1 [N1|N1]]; [rewrite (Mono yl ny i) by auto; nra| |].
      * left. exists x. split; auto. repeat split; auto; try apply W1; try apply W2; try apply N1; apply N2.
      * right. exists x. split; auto. repeat split; auto; try apply W1; try apply W2; try apply N1; apply N2.
Qed.
End Adjacent.
