(** Properties of the support functions (C14 - C20). *)
From Verif Require Import RPrelude ModelSupport SpecSupport ProofsSupport.
Local Open Scope R_scope.

(** C14: sigmoid and cauchy CDFs are distribution functions. Widths with |gamma| <= 1e-8 count as
    zero (np.isclose); at the centre of a zero-width step the value is 0, so the symmetry and
    the value 1/2 are stated for the other widths. *)
Theorem C14_cdf_laws : forall f : R -> R -> R -> R,
  f = sigmoid_cdf \/ f = cauchy_cdf ->
  (forall x x0 g, 0 <= f x x0 g <= 1) /\
  (forall x y x0 g, 0 <= g -> x <= y -> f x x0 g <= f y x0 g) /\
  (forall x y x0 g, 1 / 100000000 < g -> x < y -> f x x0 g < f y x0 g) /\
  (forall x0 g, 1 / 100000000 < Rabs g -> f x0 x0 g = 1/2) /\
  (forall x0 d g, 1 / 100000000 < Rabs g -> f (x0 + d) x0 g + f (x0 - d) x0 g = 1) /\
  (forall x x0, x < x0 -> f x x0 0 = 0) /\ (forall x x0, x0 < x -> f x x0 0 = 1).
Proof. exact cdf_laws_ex. Qed.
Print Assumptions C14_cdf_laws.

Theorem C14_multi_cdf_bound : forall f : R -> R -> R -> R,
  f = sigmoid_cdf \/ f = cauchy_cdf ->
  forall x n params, length params = (2 * n)%nat ->
  exists v, multi_cdf f x params = Ok v /\ 0 <= v <= INR n.
Proof. exact multi_cdf_bound. Qed.
Print Assumptions C14_multi_cdf_bound.

Theorem C14_multi_cdf_odd_rejected : forall f x params,
  Nat.Odd (length params) -> multi_cdf f x params = Err AssertionError.
Proof. exact multi_cdf_odd. Qed.
Print Assumptions C14_multi_cdf_odd_rejected.

Example C14_case : sigmoid_cdf 3 3 (1/10) = 1/2 /\ cauchy_cdf 4 3 0 = 1 /\
  length [0; 1/10; 1; 1/5] = (2 * 2)%nat.
Proof.
  split; [apply (proj1 (proj2 (proj2 (proj2 (cdf_laws_ex sigmoid_cdf (or_introl eq_refl)))))); rewrite Rabs_pos_eq; lra|].
  split; [apply (cdf_laws_ex cauchy_cdf (or_intror eq_refl)); lra|reflexivity].
Qed.

(** C15: round trip, for every denominator offset C > 0; the values between the asymptotes are
    those between the left asymptote and A + (K-A)/C^(1/nu). *)
Theorem C15_glf_inverse : forall p, glf_admissible p ->
  (forall x, inverse_glf p (glf p x) = x) /\
  (forall v, strictly_between (asymptote_left p) (glf_far_asymptote p) v -> glf p (inverse_glf p v) = v).
Proof. exact glf_round_trip. Qed.
Print Assumptions C15_glf_inverse.

Theorem C15_glf_inverse_default_denominator : forall p, glf_admissible p -> denominator_offset p = 1 ->
  (forall x, inverse_glf p (glf p x) = x) /\
  (forall v, strictly_between (asymptote_left p) (asymptote_right p) v -> glf p (inverse_glf p v) = v).
Proof. exact glf_round_trip_C1. Qed.
Print Assumptions C15_glf_inverse_default_denominator.

Example C15_case :
  let p := {| asymptote_left := 0; asymptote_right := 3; growth_rate := 15; asymmetry := 1/2;
              shape_factor := 2; denominator_offset := 1; offset := -1 |} in
  glf_admissible p /\ strictly_between (asymptote_left p) (asymptote_right p) (1/100).
Proof. unfold glf_admissible, strictly_between; simpl; lra. Qed.

(** C16: strictly monotone between the asymptotes, all values in between are taken. *)
Theorem C16_glf_growth : forall p,
  glf_admissible p -> 0 < growth_rate p -> asymptote_left p < asymptote_right p ->
  (forall x y, x < y -> glf p x < glf p y) /\
  (forall x, asymptote_left p < glf p x < glf_far_asymptote p) /\
  (forall v, asymptote_left p < v < glf_far_asymptote p -> exists x, glf p x = v).
Proof. exact glf_growth. Qed.
Print Assumptions C16_glf_growth.

(** The documented mirror rule for negative growth rates. *)
Theorem C16_glf_mirror : forall p x, glf_admissible p ->
  glf {| asymptote_left := asymptote_left p; asymptote_right := asymptote_right p;
         growth_rate := - growth_rate p; asymmetry := asymmetry p; shape_factor := shape_factor p;
         denominator_offset := denominator_offset p; offset := offset p |} (2 * offset p - x) = glf p x.
Proof. exact glf_mirror. Qed.
Print Assumptions C16_glf_mirror.

Example C16_case :
  let p := {| asymptote_left := 1; asymptote_right := 3; growth_rate := 15; asymmetry := 2;
              shape_factor := 2; denominator_offset := 1; offset := 0 |} in
  glf_admissible p /\ 0 < growth_rate p /\ asymptote_left p < asymptote_right p.
Proof. unfold glf_admissible; simpl; lra. Qed.

(** C17 *)
Theorem C17_rotation : forall a b p q,
  dist2 (rotate_point a p) (rotate_point a q) = dist2 p q /\
  rotate_point b (rotate_point a p) = rotate_point (a + b) p /\
  rotate_point (- a) (rotate_point a p) = p /\
  rotate_point (2 * PI) p = p.
Proof. exact rotate_laws. Qed.
Print Assumptions C17_rotation.

Theorem C17_rotation_arrays : forall a ps,
  rotate_points (- a) (rotate_points a ps) = ps /\ length (rotate_points a ps) = length ps.
Proof. exact rotate_points_list. Qed.
Print Assumptions C17_rotation_arrays.

(** the orientation of the rotation is pinned: a quarter turn maps e1 to e2 (counter-clockwise) *)
Example C17_case : rotate_point (PI/2) (1, 0) = (0, 1).
Proof. unfold rotate_point; rewrite cos_PI2, sin_PI2; simpl; f_equal; ring. Qed.

(** C18 *)
Theorem C18_signed_distance : forall p l0 l1, l0 <> l1 ->
  (forall q, on_line_through l0 l1 q -> Rabs (signed_dist p l0 l1) <= dist2 p q) /\
  (exists q, on_line_through l0 l1 q /\ dist2 p q = Rabs (signed_dist p l0 l1)) /\
  (0 < signed_dist p l0 l1 <-> right_of l0 l1 p) /\
  (signed_dist p l0 l1 < 0 <-> right_of l1 l0 p) /\
  (signed_dist p l0 l1 = 0 <-> on_line_through l0 l1 p) /\
  (forall a, signed_dist (rotate_point a p) (rotate_point a l0) (rotate_point a l1) = signed_dist p l0 l1).
Proof. exact signed_dist_laws. Qed.
Print Assumptions C18_signed_distance.

Example C18_case : ((0, 0) : point) <> (0, 2) /\ signed_dist (3, 1) (0, 0) (0, 2) = 3.
Proof.
  split; [intros H; injection H; lra|].
  unfold signed_dist; simpl. replace ((0 - 0) * ((0 - 0) * 1) + (2 - 0) * ((2 - 0) * 1)) with (2 * 2) by ring.
  rewrite sqrt_square by lra. lra.
Qed.

(** C19 *)
Theorem C19_line_line : forall l1 l2, well_formed_line l1 -> well_formed_line l2 ->
  (parallel l1 l2 -> line_line_intersection l1 l2 = Err ValueError) /\
  (~ parallel l1 l2 -> exists q, line_line_intersection l1 l2 = Ok q /\ on_line l1 q /\ on_line l2 q /\
      forall q', on_line l1 q' -> on_line l2 q' -> q' = q) /\
  line_line_intersection l1 l2 = line_line_intersection l2 l1.
Proof. exact lli_laws. Qed.
Print Assumptions C19_line_line.

Example C19_case : well_formed_line (LSlope 1 0) /\ well_formed_line (LVert 2) /\
  ~ parallel (LSlope 1 0) (LVert 2) /\ ~ parallel (LSlope 1 0) (LSlope (-1) 4).
Proof. repeat split; try discriminate; simpl; try tauto. lra. Qed.

(** C20 *)
Theorem C20_line_circle : forall l c r, well_formed_line l ->
  (r <= 0 -> line_circle_intersection l c r = Err ValueError) /\
  (0 < r -> exists pts, line_circle_intersection l c r = Ok pts /\ NoDup pts /\ (length pts <= 2)%nat /\
     forall q, In q pts <-> on_line l q /\ on_circle c r q).
Proof. exact lci_laws. Qed.
Print Assumptions C20_line_circle.

Example C20_case : well_formed_line (LSlope 0 1) /\ 0 < 1 /\
  on_line (LSlope 0 1) (0, 1) /\ on_circle (0, 0) 1 (0, 1).
Proof.
  split; [discriminate|split; [lra|split; [simpl; lra|]]].
  apply on_circle_sq; simpl; lra.
Qed.

(** C73: multi_glf takes complete parameter tuples, in any number, and adds up their curves; rising
    curves add up to a rising curve. Everything else is rejected. *)
Theorem C73_multi_glf_sum x gs : multi_glf x (flat_map glf_tuple gs) = Ok (glf_total gs x).
Proof. exact (multi_glf_sum_of x gs). Qed.
Print Assumptions C73_multi_glf_sum.
Theorem C73_multi_glf_rejected x ps : (forall gs, ps <> flat_map glf_tuple gs) -> multi_glf x ps = Err AssertionError.
Proof. exact (multi_glf_domain x ps). Qed.
Print Assumptions C73_multi_glf_rejected.
Theorem C73_multi_glf_rises gs x y : gs <> [] -> x < y ->
  (forall g, In g gs -> glf_admissible g /\ 0 < growth_rate g /\ asymptote_left g < asymptote_right g) ->
  glf_total gs x < glf_total gs y.
Proof. exact (glf_total_rises gs x y). Qed.
Print Assumptions C73_multi_glf_rises.

Example C73_case : multi_glf 5 [] = Ok 0 /\ multi_glf 5 [1; 2; 3] = Err AssertionError.
Proof. split; reflexivity. Qed.

(** C74: pixel_to_volt_1d runs uniformly from the first limit (pixel 0) to the last (pixel pixel_num), ... *)
Theorem C74_pixel_to_volt n v0 v1 : (0 < n)%nat ->
  pixel_to_volt_1d 0 n v0 v1 = Ok v0 /\ pixel_to_volt_1d n n v0 v1 = Ok v1 /\
  exists f, (forall k, pixel_to_volt_1d k n v0 v1 = Ok (f k)) /\ forall k, f (S k) - f k = (v1 - v0) / INR n.
Proof. exact (pixel_to_volt_ends n v0 v1). Qed.
Print Assumptions C74_pixel_to_volt.
(** ... so with the documented meaning of pixel_num (the number of pixels) the last pixel misses the
    last limit. *)
Theorem C74_last_pixel_refuted n v0 v1 : (2 <= n)%nat -> v0 <> v1 -> pixel_to_volt_1d (n - 1) n v0 v1 <> Ok v1.
Proof. exact (pixel_to_volt_last n v0 v1). Qed.
Print Assumptions C74_last_pixel_refuted.

Example C74_case : pixel_to_volt_1d 1 0 3 4 = Err ZeroDivisionError.
Proof. exact (pixel_to_volt_zero 1 3 4). Qed.

(** C75: the answer of is_point_below_line is right whenever there is one, ... *)
Theorem C75_below_line p l b : is_point_below_line p l = Ok b -> (b = true <-> below l p).
Proof. exact (below_line_spec p l b). Qed.
Print Assumptions C75_below_line.
(** ... and it fails exactly for horizontal lines given as a float, which the documentation allows. *)
Theorem C75_float_rejected_refuted p l : (exists b, is_point_below_line p l = Ok b) <-> ~ exists x, l = BFloat x.
Proof. exact (below_line_accepts p l). Qed.
Print Assumptions C75_float_rejected_refuted.

Example C75_case : is_point_below_line (1, 2) (BFloat 3) = Err ValueError /\ is_point_below_line (1, 2) (BInt 3) = Ok true.
Proof. split; [reflexivity|]. simpl. rewrite Rltb_true by lra. reflexivity. Qed.
