(** Property theorems about total charge transitions. *)
From Verif Require Import RPrelude ModelSupport ModelTct SpecTct ProofsTct ProofsTctShape.
Local Open Scope R_scope.

(** C08: evaluated explicitly, a TCT is a continuous function on the whole real line. *)
Theorem C08_tct_continuous p lut mp :
  admissible p -> peak p -> explicit lut -> some_peaks mp ->
  exists f, is_tct p lut mp f /\ continuity f.
Proof. exact (tct_continuous p lut mp). Qed.
Print Assumptions C08_tct_continuous.

(** ... and with a lookup table of n entries it differs from that continuous function by at most
    (steepest slope) * (width of the rounded part) / (n - 1). *)
Theorem C08_tct_lookup_table_close p n mp :
  admissible p -> peak p -> (2 <= n)%nat -> some_peaks mp ->
  exists f g, is_tct p None mp f /\ is_tct p (Some n) mp g /\
  forall x, Rabs (g x - f x) <=
    Rmax (Rabs (slope_right p)) (Rabs (slope_left p)) * ((end_x p - start_x p) / INR (n - 1)).
Proof. exact (tct_lut_error p n mp). Qed.
Print Assumptions C08_tct_lookup_table_close.

(** C62: all secant slopes of a TCT lie between its two gradients. *)
Theorem C62_tct_slopes p lut mp :
  admissible p -> peak p -> explicit lut -> some_peaks mp ->
  exists f, is_tct p lut mp f /\
  forall x y, x <= y -> slope_right p * (y - x) <= f y - f x <= slope_left p * (y - x).
Proof. exact (tct_slopes p lut mp). Qed.
Print Assumptions C62_tct_slopes.
Example C62_example : exists f, is_tct example_tct None (Some 2%nat) f /\ f 1 = 1/2 /\ f 4 = -2 /\ f 4 - f 1 = -5/6 * (4 - 1).
Proof.
  destruct (C62_tct_slopes example_tct None (Some 2%nat)) as (f & F & _).
  - exact example_admissible.
  - unfold peak; simpl; lra.
  - left; reflexivity.
  - simpl; lia.
  - exists f. split; [exact F|].
    destruct (tct_array example_tct None (Some 2%nat) [-3; 0; 1; 4; 9]) as (ys & E & _ & H).
    + exact example_admissible.
    + split; [discriminate|]. intros _. unfold peak; simpl; lra.
    + simpl; lia.
    + discriminate.
    + rewrite example_values in E. injection E as <-.
      destruct (H 2%nat 1 eq_refl) as (y & Y & V). destruct (H 3%nat 4 eq_refl) as (z & Z & U).
      injection Y as <-. injection Z as <-. rewrite F in V, U. injection V as V. injection U as U. rewrite V, U. repeat split; lra.
Qed.


Example C08_example : admissible example_tct /\ peak example_tct /\
  tct_bezier example_tct None (Some 2%nat) [-3; 0; 1; 4; 9] = Ok [-3; 0; 1/2; -2; 1/2].
Proof. split; [exact example_admissible|]. split; [unfold peak; simpl; lra|exact example_values]. Qed.

(** C09: one period further, the TCT is shifted by a fixed amount; with limited peaks this holds as
    long as both points belong to the wave part. *)
Theorem C09_tct_periodic p lut f :
  admissible p -> good_mode p lut -> is_tct p lut None f ->
  forall x, f (x + (len_left p + len_right p))
            = f x + (len_left p * slope_left p + len_right p * slope_right p).
Proof. exact (tct_periodic p lut f). Qed.
Print Assumptions C09_tct_periodic.

Theorem C09_tct_periodic_limited p lut m f :
  admissible p -> good_mode p lut -> (1 <= m)%nat -> is_tct p lut (Some m) f ->
  forall x, start_x p <= x ->
  x + (len_left p + len_right p) <= end_x p + (INR m - 1) * (len_left p + len_right p) ->
  f (x + (len_left p + len_right p)) = f x + (len_left p * slope_left p + len_right p * slope_right p).
Proof. exact (tct_periodic_limited p lut m f). Qed.
Print Assumptions C09_tct_periodic_limited.

Example C09_example : exists f, is_tct example_tct None (Some 2%nat) f /\ f (1 + 8) = f 1 + (4 * 1 + 4 * -1).
Proof.
  destruct (tct_total example_tct None (Some 2%nat) example_admissible) as [f Hf];
    [split; [discriminate|intros _; unfold peak; simpl; lra]|simpl; lia|].
  exists f; split; auto.
  replace 8 with (len_left example_tct + len_right example_tct) by (simpl; lra).
  rewrite (C09_tct_periodic_limited example_tct None 2 f example_admissible); simpl; auto; try lra; try lia.
  split; [discriminate|intros _; unfold peak; simpl; lra].
Qed.

(** C10: the n-th TCT has 2n-1 peaks and valleys, whose left and right anchors lie on the curve the
    code evaluates - for the curve limited to n peaks as well as for the unlimited one. *)
Theorem C10_anchors_on_tct p lut mp n f :
  admissible p -> good_mode p lut -> mp = None \/ mp = Some n -> is_tct p lut mp f ->
  length (tct_anchors p n) = (2 * n - 1)%nat /\
  forall i a, nth_error (tct_anchors p n) i = Some a ->
  f (fst (left_anchor a)) = snd (left_anchor a) /\ f (fst (right_anchor a)) = snd (right_anchor a).
Proof. exact (anchors_on_tct p lut mp n f). Qed.
Print Assumptions C10_anchors_on_tct.

(** The centre anchor is where the straight parts on both sides meet: peaks have the left gradient
    before and the right gradient after the corner, valleys the other way round, and the straight
    part up to the next anchor continues with the same gradient. *)
Theorem C10_anchor_lines p n :
  admissible p ->
  forall i a, nth_error (tct_anchors p n) i = Some a ->
  let s1 := if Nat.even i then slope_left p else slope_right p in
  let s2 := if Nat.even i then slope_right p else slope_left p in
  snd (center_anchor a) - snd (left_anchor a) = s1 * (fst (center_anchor a) - fst (left_anchor a)) /\
  snd (right_anchor a) - snd (center_anchor a) = s2 * (fst (right_anchor a) - fst (center_anchor a)) /\
  fst (left_anchor a) <= fst (center_anchor a) <= fst (right_anchor a) /\
  forall b, nth_error (tct_anchors p n) (S i) = Some b ->
    snd (left_anchor b) - snd (right_anchor a) = s2 * (fst (left_anchor b) - fst (right_anchor a)) /\
    fst (right_anchor a) <= fst (left_anchor b).
Proof. exact (anchors_lines p n). Qed.
Print Assumptions C10_anchor_lines.

Example C10_example :
  map center_anchor (tct_anchors example_tct 2) = [(1, 1); (1 + 4, 1 + 4 * -1); (1 + 4 + 4, 1 + 4 * -1 + 4 * 1)].
Proof.
  unfold tct_anchors, example_tct, first_anchors; simpl.
  replace ((0 - 0 + 2 * -1 - 0 * 1) / (-1 - 1)) with 1 by field.
  replace (0 + 1 * (1 - 0)) with 1 by ring. reflexivity.
Qed.

(** C12: the lookup table returns the y-value of the entry with the nearest x-value, which is at most
    half the width of the table cell around x away. *)
Theorem C12_lookup_nearest p c n x :
  corner p c -> start_x p <= fst c <= end_x p -> (2 <= n)%nat -> start_x p <= x <= end_x p ->
  let entry i := curve_point p c (INR i / INR (n - 1)) in
  exists i, (i < n)%nat /\ lut_eval p c n x = snd (entry i) /\
    (forall j, (j < n)%nat -> Rabs (fst (entry i) - x) <= Rabs (fst (entry j) - x)) /\
    exists j, (S j < n)%nat /\ fst (entry j) <= x <= fst (entry (S j)) /\
              Rabs (fst (entry i) - x) <= (fst (entry (S j)) - fst (entry j)) / 2.
Proof. exact (lut_nearest p c n x). Qed.
Print Assumptions C12_lookup_nearest.

Theorem C12_lookup_error p c n x :
  corner p c -> start_x p <= fst c <= end_x p -> peak p -> (2 <= n)%nat -> start_x p < end_x p ->
  start_x p <= x <= end_x p ->
  Rabs (lut_eval p c n x - bezier_solve p c x)
  <= Rmax (Rabs (slope_right p)) (Rabs (slope_left p))
     * (Rmax (fst c - start_x p) (end_x p - fst c) / INR (n - 1)).
Proof. exact (lut_error p c n x). Qed.
Print Assumptions C12_lookup_error.

(** With a single entry the table misses the right end of the curve. *)
Example C12_single_entry : lut_eval (mk_tct 4 4 1 (-1) 0 0 3 (-1)) (1, 1) 1 3 = 0.
Proof. unfold lut_eval, lut_points, linspace, bezier_at. simpl. unfold Rdiv. ring. Qed.

(** C63: the explicitly solved value is the point of the bezier curve above x. *)
Theorem C63_explicit_on_curve p c x :
  corner p c -> start_x p <= fst c <= end_x p -> peak p -> start_x p < end_x p ->
  start_x p <= x <= end_x p ->
  exists t, 0 <= t <= 1 /\ curve_point p c t = (x, bezier_solve p c x).
Proof. exact (explicit_curve p c x). Qed.
Print Assumptions C63_explicit_on_curve.
Example C63_example : curve_point example_tct (1, 1) (1/2) = (1, 1/2) /\ bezier_solve example_tct (1, 1) 1 = 1/2.
Proof.
  split; [unfold curve_point; simpl; f_equal; field|].
  unfold bezier_solve, bezier_at. simpl. rewrite Reqb_true by ring. field.
Qed.


(** For a corner pointing downwards the wrong branch is taken: the curve does not start at its start
    point. *)
Theorem C63_valley_refuted :
  exists p, admissible p /\ ~ peak p /\
  tct_bezier_number p None (Some 1%nat) (start_x p) <> Ok (start_y p).
Proof.
  exists valley_tct. split; [exact valley_admissible|]. split; [unfold peak; simpl; lra|].
  change (start_x valley_tct) with 0. rewrite valley_start. simpl. intros E. inversion E. lra.
Qed.
Print Assumptions C63_valley_refuted.

(** C64: evaluating an array gives the values of its entries evaluated one by one. *)
Theorem C64_array_pointwise p lut mp xs :
  admissible p -> good_mode p lut -> some_peaks mp -> (mp = None -> xs <> []) ->
  exists ys, tct_bezier p lut mp xs = Ok ys /\ length ys = length xs /\
  forall i x, nth_error xs i = Some x ->
    exists y, nth_error ys i = Some y /\ tct_bezier_number p lut mp x = Ok y.
Proof. exact (tct_array p lut mp xs). Qed.
Print Assumptions C64_array_pointwise.

(** Parameters whose corner is not between the anchors, or whose straight parts would have negative
    length, are rejected for every input. *)
Theorem C64_malformed_rejected p lut mp xs c :
  bezier_center p = Ok c ->
  ~ (start_x p <= fst c <= end_x p /\ 2 * (fst c - start_x p) <= len_left p /\
     2 * (end_x p - fst c) <= len_right p) ->
  tct_bezier p lut mp xs = Err AssertionError.
Proof. exact (tct_rejects p lut mp xs c). Qed.
Print Assumptions C64_malformed_rejected.
Example C64_example : tct_bezier example_tct None (Some 2%nat) [0; 4] = Ok [0; -2] /\
  tct_bezier (mk_tct 1 4 1 (-1) 0 0 2 0) None None [0; 4] = Err AssertionError.
Proof.
  split.
  - destruct (tct_array example_tct None (Some 2%nat) [-3; 0; 1; 4; 9]) as (ys & E & _ & H).
    + exact example_admissible.
    + split; [discriminate|]. intros _. unfold peak; simpl; lra.
    + simpl; lia.
    + discriminate.
    + rewrite example_values in E. injection E as <-.
      destruct (H 1%nat 0 eq_refl) as (y & Y & V). destruct (H 3%nat 4 eq_refl) as (z & Z & U).
      injection Y as <-. injection Z as <-.
      destruct (tct_array example_tct None (Some 2%nat) [0; 4]) as (ys & E & N & G).
      * exact example_admissible.
      * split; [discriminate|]. intros _. unfold peak; simpl; lra.
      * simpl; lia.
      * discriminate.
      * rewrite E. destruct (G 0%nat 0 eq_refl) as (a & A & V'). destruct (G 1%nat 4 eq_refl) as (b & B & U').
        rewrite V in V'. rewrite U in U'. injection V' as <-. injection U' as <-.
        destruct ys as [|y0 [|y1 [|]]]; try discriminate. injection A as ->. injection B as ->. reflexivity.
  - apply C64_malformed_rejected with (c := (1, 1)).
    + unfold bezier_center. simpl. rewrite (Reqb_false 0 2) by lra. simpl. rewrite (Reqb_false (-1) 1) by lra.
      do 2 f_equal; field.
    + simpl. lra.
Qed.


(** C82: one period of a TCT consists of the bezier curve, a straight line with the right gradient,
    the bezier curve rotated by 180 degrees about the middle of that line, and a straight line with
    the left gradient. *)
Theorem C82_one_period p lut f :
  admissible p -> good_mode p lut -> is_tct p lut None f ->
  exists c, corner p c /\
  let straight := len_right p - 2 * (end_x p - fst c) in
  let next := start_x p + (len_left p + len_right p) in
  (explicit lut -> forall x, start_x p <= x <= end_x p -> exists t, 0 <= t <= 1 /\ curve_point p c t = (x, f x)) /\
  (forall x, end_x p <= x <= end_x p + straight -> f x = end_y p + slope_right p * (x - end_x p)) /\
  (forall x, start_x p <= x <= end_x p ->
     f (2 * end_x p + straight - x) = 2 * end_y p + slope_right p * straight - f x) /\
  (forall x, 2 * end_x p + straight - start_x p <= x <= next -> f x = f next - slope_left p * (next - x)).
Proof. exact (tct_one_period p lut f). Qed.
Print Assumptions C82_one_period.

(** C82: a TCT with limited peaks follows the unlimited one from its first to its last peak, and is a
    straight line with the left gradient before and with the right gradient after. *)
Theorem C82_outer_lines p lut m f g :
  admissible p -> good_mode p lut -> (1 <= m)%nat -> is_tct p lut None f -> is_tct p lut (Some m) g ->
  let last := end_x p + (INR m - 1) * (len_left p + len_right p) in
  (forall x, start_x p <= x <= last -> g x = f x) /\
  (forall x, x <= start_x p -> g x = start_y p + slope_left p * (x - start_x p)) /\
  (forall x, last <= x ->
     g x = end_y p + (INR m - 1) * (len_left p * slope_left p + len_right p * slope_right p) + slope_right p * (x - last)).
Proof. exact (tct_outer p lut m f g). Qed.
Print Assumptions C82_outer_lines.
Example C82_example : exists f g, is_tct example_tct None None f /\ is_tct example_tct None (Some 2%nat) g /\
  f 0 = 0 /\ f 2 = 0 /\ f 4 = -2 /\ g (-3) = -3 /\ g 12 = -2.
Proof. exact example_shape. Qed.
