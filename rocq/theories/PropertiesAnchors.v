(** Property theorems about the dictionary of bezier anchors. *)
From Verif Require Import RPrelude ModelSupport ModelTct SpecTct ProofsTct ProofsAnchors.
Local Open Scope R_scope.

(** C10: the dictionary has one entry per TCT; the keys are the numbers of peaks. *)
Theorem C10_keys tcts m rot : map fst (calculate_all_bezier_anchors tcts m rot) = seq m (length tcts).
Proof. exact (dictionary_keys tcts m rot). Qed.
Print Assumptions C10_keys.

(** The entry of a TCT consists of the anchors of all its peaks and valleys, turned by the rotation of the diagram: before turning, left
    and right anchors lie on the curve of the same number and centre anchors where the straight parts meet. *)
Theorem C10_dictionary tcts m rot i p :
  nth_error tcts i = Some p -> admissible p ->
  exists l, nth_error (calculate_all_bezier_anchors tcts m rot) i = Some ((m + i)%nat, l) /\
  length l = (2 * (m + i) - 1)%nat /\
  forall j a, nth_error l j = Some a ->
  exists x1 y1 xc yc x2 y2,
    a = ((cos rot * x1 - sin rot * y1, sin rot * x1 + cos rot * y1),
         (cos rot * xc - sin rot * yc, sin rot * xc + cos rot * yc),
         (cos rot * x2 - sin rot * y2, sin rot * x2 + cos rot * y2)) /\
    (forall lut f, good_mode p lut -> is_tct p lut (Some (m + i)%nat) f -> f x1 = y1 /\ f x2 = y2) /\
    x1 <= xc <= x2 /\
    yc - y1 = (if Nat.even j then slope_left p else slope_right p) * (xc - x1) /\
    y2 - yc = (if Nat.even j then slope_right p else slope_left p) * (x2 - xc) /\
    nth_error (tct_anchors p (m + i)) j = Some ((x1, y1), (xc, yc), (x2, y2)).
Proof. exact (dictionary_anchors tcts m rot i p). Qed.
Print Assumptions C10_dictionary.

Example C10_keys_example : map fst (calculate_all_bezier_anchors [example_tct; example_tct; example_tct] 1 (- (PI / 4))) = [1; 2; 3]%nat.
Proof. apply C10_keys. Qed.

(** Without rotation: the right anchor of the peak of the first TCT, and that there are three anchors for the second *)
Example C10_dictionary_example : exists l1 l2 a, calculate_all_bezier_anchors [example_tct; example_tct] 1 0 = [(1%nat, l1); (2%nat, l2)] /\
  length l2 = 3%nat /\ l1 = [a] /\ right_anchor a = (2, 0).
Proof.
  do 3 eexists. split; [reflexivity|]. split; [reflexivity|]. split; [reflexivity|].
  unfold right_anchor, rotate_anchors, first_anchors, rotate_point, example_tct; simpl. rewrite cos_0, sin_0. f_equal; ring.
Qed.

(** C12 for the TCT as a whole: with a lookup table of n entries, the value returned in the rounded part of the first peak is the one of the
    nearest of the n entries. *)
Theorem C12_tct p n mp f x : admissible p -> (2 <= n)%nat -> some_peaks mp -> is_tct p (Some n) mp f ->
  start_x p < end_x p -> start_x p <= x <= end_x p ->
  exists c, corner p c /\ start_x p <= fst c <= end_x p /\
  let entry i := curve_point p c (INR i / INR (n - 1)) in
  exists i, (i < n)%nat /\ f x = snd (entry i) /\
    (forall j, (j < n)%nat -> Rabs (fst (entry i) - x) <= Rabs (fst (entry j) - x)) /\
    exists j, (S j < n)%nat /\ fst (entry j) <= x <= fst (entry (S j)) /\
              Rabs (fst (entry i) - x) <= (fst (entry (S j)) - fst (entry j)) / 2.
Proof. exact (tct_nearest p n mp f x). Qed.
Print Assumptions C12_tct.
Example C12_tct_example : exists f y, is_tct example_tct (Some 2%nat) (Some 1%nat) f /\ f (1/2) = y /\ y = 0.
Proof.
  destruct (tct_total example_tct (Some 2%nat) (Some 1%nat) example_admissible) as [f T]; [split; [discriminate|intros [E|E]; discriminate]|simpl; lia|].
  exists f, (f (1/2)). split; [exact T|]. split; [reflexivity|].
  destruct (C12_tct example_tct 2 (Some 1%nat) f (1/2) example_admissible ltac:(lia) ltac:(simpl; lia) T ltac:(simpl; lra) ltac:(simpl; lra))
    as (c & _ & _ & i & I & E & _).
  rewrite E. destruct i as [|[|i]]; [| |lia]; unfold curve_point; simpl; field.
Qed.

(** C63 for the TCT as a whole: without lookup table the value is the point of the bezier curve above x. *)
Theorem C63_tct p mp f x : admissible p -> peak p -> some_peaks mp -> is_tct p None mp f ->
  start_x p < end_x p -> start_x p <= x <= end_x p ->
  exists c t, corner p c /\ start_x p <= fst c <= end_x p /\ 0 <= t <= 1 /\ curve_point p c t = (x, f x).
Proof. exact (tct_explicit p mp f x). Qed.
Print Assumptions C63_tct.
Example C63_tct_example : exists f c t, is_tct example_tct None None f /\ corner example_tct c /\ curve_point example_tct c t = (1, f 1).
Proof.
  destruct (tct_total example_tct None None example_admissible) as [f T]; [split; [discriminate|intros _; unfold peak; simpl; lra]|exact I|].
  destruct (C63_tct example_tct None f 1 example_admissible ltac:(unfold peak; simpl; lra) I T ltac:(simpl; lra) ltac:(simpl; lra)) as (c & t & C & _ & _ & E).
  exists f, c, t. auto.
Qed.
