(** Property theorems about TCTs with parameters and x-values of type int or float. *)
From Flocq Require Import Core.
From Verif Require Import RPrelude ModelSupport ModelTct SpecTct ModelTctTyped ExamplesTctTyped ProofsTctTyped.
Local Open Scope R_scope.

(** C154: floats give the curve of the other properties. One float among the x-coordinates of the outer anchors and one among the y-coordinates
    are enough. *)
Theorem C154_float_partial p t lut mp xs :
  t_start_x t = FloatType \/ t_end_x t = FloatType -> t_start_y t = FloatType \/ t_end_y t = FloatType ->
  tct_bezier_typed p t lut mp FloatType xs = tct_bezier p lut mp xs.
Proof. intros X Y. apply typed_same; [apply typed_float_center; apply common_float; assumption|discriminate]. Qed.
Print Assumptions C154_float_partial.

(** Ints among the parameters change nothing if the straight sides of the first peak meet in a point with integer coordinates. *)
Theorem C154_int_partial p t lut mp xt xs a b :
  slope_left p <> slope_right p -> corner p (IZR a, IZR b) -> (xt = IntType -> t_start_x t = IntType /\ t_end_x t = IntType) ->
  tct_bezier_typed p t lut mp xt xs = tct_bezier p lut mp xs.
Proof.
  intros D C X. apply typed_same; [apply (typed_int_center p t a b D C)|]. intros E. destruct (X E) as [-> ->]. reflexivity.
Qed.
Print Assumptions C154_int_partial.

(** Otherwise they change the curve: the second half of the first period of this curve is 2 too high, without an error. *)
Theorem C154_int_refuted lut :
  tct_bezier_typed (unit_peak 4 0) float_types lut (Some 2%nat) FloatType [7] = Ok [-1] /\
  tct_bezier_typed (unit_peak 4 0) int_types lut (Some 2%nat) FloatType [7] = Ok [1].
Proof. split; [|apply unit_int]. rewrite <- (unit_float lut). apply C154_float_partial; left; reflexivity. Qed.
Print Assumptions C154_int_refuted.

(** Parameters that describe a curve are rejected as ints, whatever is asked. *)
Theorem C154_rejected_refuted lut mp xt xs :
  admissible (unit_peak 1 (-1)) /\ tct_bezier_typed (unit_peak 1 (-1)) int_types lut mp xt xs = Err AssertionError.
Proof. split; [exact unit_admissible|apply unit_int_rejected]. Qed.
Print Assumptions C154_rejected_refuted.

(** x-values given as ints, also a single one, raise TypeError for every curve with float parameters (as above) that can be evaluated. *)
Theorem C154_x_refuted p t lut mp xs ys :
  t_start_x t = FloatType \/ t_end_x t = FloatType -> t_start_y t = FloatType \/ t_end_y t = FloatType ->
  tct_bezier_typed p t lut mp FloatType xs = Ok ys -> tct_bezier_typed p t lut mp IntType xs = Err TypeError.
Proof.
  intros X Y E. rewrite (C154_float_partial _ _ _ _ _ X Y) in E. exact (typed_x p t lut mp xs ys (common_float _ _ X) (common_float _ _ Y) E).
Qed.
Print Assumptions C154_x_refuted.

(** Parallel sides are rejected for floats; for ints the exception depends on the position of the anchors. *)
Theorem C154_parallel p t lut mp xt xs : slope_left p = slope_right p -> (start_x p, start_y p) <> (end_x p, end_y p) ->
  let on_line := end_y p - start_y p = slope_left p * (end_x p - start_x p) in
  let out := tct_bezier_typed p t lut mp xt xs in
  (t_start_x t = FloatType \/ t_end_x t = FloatType -> out = Err AssertionError) /\
  (t_start_x t = IntType -> t_end_x t = IntType -> (on_line -> out = Err ValueError) /\ (~ on_line -> out = Err OverflowError)).
Proof. exact (parallel p t lut mp xt xs). Qed.
Print Assumptions C154_parallel.

Example C154_example_corner l : corner (mk_tct l l 1 (-1) 0 0 2 0) (IZR 1, IZR 1).
Proof. split; cbn; lra. Qed.
Example C154_example_x lut : tct_bezier_typed (unit_peak 4 0) float_types lut (Some 2%nat) IntType [7] = Err TypeError.
Proof. apply (C154_x_refuted _ _ _ _ _ [-1]); [left; reflexivity|left; reflexivity|apply C154_int_refuted]. Qed.
Example C154_example_parallel lut mp xt xs :
  tct_bezier_typed (mk_tct 4 4 1 1 0 0 2 2) int_types lut mp xt xs = Err ValueError /\
  tct_bezier_typed (mk_tct 4 4 1 1 0 0 2 0) int_types lut mp xt xs = Err OverflowError.
Proof.
  split; [apply (C154_parallel (mk_tct 4 4 1 1 0 0 2 2) int_types)|apply (C154_parallel (mk_tct 4 4 1 1 0 0 2 0) int_types)]; cbn; try reflexivity; try lra;
    intros H; injection H; intros; lra.
Qed.
