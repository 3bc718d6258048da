(** Model of simcats/support_functions: CDFs, generalized logistic function, linear algebra helpers,
    rotation, signed distance, pixel-to-volt conversion. Real numbers stand for float64. *)
From Verif Require Import RPrelude.
Local Open Scope R_scope.

(** ** _cumulative_distribution_functions.py *)

(** The shared step branch, lines 24-28 and 64-68: result = x - x0; positive -> 1; negative -> 0;
    (zero stays 0). *)
Definition step_cdf (x x0 : R) : R :=
  let r := x - x0 in
  if Rltb 0 r then 1 else if Rltb r 0 then 0 else r.

(** _cumulative_distribution_functions.py:11-29 (one array entry; the function is elementwise). *)
Definition sigmoid_cdf (x x0 gam : R) : R :=
  if isclose0 gam then step_cdf x x0
  else (1/2) * (1 + tanh ((x - x0) / gam)).

(** _cumulative_distribution_functions.py:51-69 (elementwise). *)
Definition cauchy_cdf (x x0 gam : R) : R :=
  if isclose0 gam then step_cdf x x0
  else 1 / PI * atan ((x - x0) / gam) + 1/2.

(** range(0, len, 2) over the flat parameter list: consume two entries at a time.
    Precondition of the caller: even length (assert in line 47 / 87). *)
Fixpoint sum_cdf (f : R -> R -> R -> R) (x : R) (params : list R) : R :=
  match params with
  | x0 :: gam :: rest => f x x0 gam + sum_cdf f x rest
  | _ => 0
  end.

(** _cumulative_distribution_functions.py:32-48 / 72-88: [assert not (len(params) % 2)] then the sum. *)
Definition multi_cdf (f : R -> R -> R -> R) (x : R) (params : list R) : result R :=
  raise_if (Nat.odd (length params)) AssertionError (Ok (sum_cdf f x params)).

Definition multi_sigmoid_cdf := multi_cdf sigmoid_cdf.
Definition multi_cauchy_cdf := multi_cdf cauchy_cdf.

(** ** _generalized_logistic_function.py *)

(** Parameters of a generalized logistic function, in the order of the Python signature
    (lines 11-19). *)
Record glf_params := {
  asymptote_left : R; asymptote_right : R; growth_rate : R; asymmetry : R;
  shape_factor : R; denominator_offset : R; offset : R }.

(** _generalized_logistic_function.py:11-55. [np.power] of a positive base is [Rpower]; for a
    non-positive base numpy gives nan/0/inf, which [Rpower] does not model: theorems state the guard
    that keeps the base positive. *)
Definition glf (p : glf_params) (potential : R) : R :=
  asymptote_left p + (asymptote_right p - asymptote_left p) /
    Rpower (denominator_offset p + shape_factor p * exp (- growth_rate p * (potential - offset p)))
           (1 / asymmetry p).

(** _generalized_logistic_function.py:58-101. *)
Definition inverse_glf (p : glf_params) (value : R) : R :=
  (growth_rate p * offset p
   - ln ((Rpower ((asymptote_left p - asymptote_right p) / (asymptote_left p - value)) (asymmetry p)
          - denominator_offset p) / shape_factor p)) / growth_rate p.

(** multi_glf, _generalized_logistic_function.py:104-146: parameter tuples of seven numbers,
    [assert len(params) % 7 == 0], sum of the single GLFs. *)
Fixpoint multi_glf_sum (potential : R) (params : list R) : R :=
  match params with
  | a :: k :: b :: nu :: q :: c :: o :: rest =>
      glf {| asymptote_left := a; asymptote_right := k; growth_rate := b; asymmetry := nu;
             shape_factor := q; denominator_offset := c; offset := o |} potential
      + multi_glf_sum potential rest
  | _ => 0
  end.
Definition multi_glf (potential : R) (params : list R) : result R :=
  raise_if (negb (length params mod 7 =? 0)%nat) AssertionError (Ok (multi_glf_sum potential params)).

(** ** _rotate_points.py:22-24 (one point; the function maps over the rows) *)
Definition rotate_point (angle : R) (p : point) : point :=
  (cos angle * fst p - sin angle * snd p, sin angle * fst p + cos angle * snd p).
Definition rotate_points (angle : R) (ps : list point) : list point := map (rotate_point angle) ps.

(** ** _signed_dist_points_line.py:22: -cross(l1 - l0, p - l0) / norm(l1 - l0) *)
Definition signed_dist (p l0 l1 : point) : R :=
  - ((fst l1 - fst l0) * (snd p - snd l0) - (snd l1 - snd l0) * (fst p - fst l0))
  / sqrt ((fst l1 - fst l0)^2 + (snd l1 - snd l0)^2).

(** ** _linear_algebra.py *)

(** A line argument: (m, b) or a single number. Other lengths of sequences are rejected in line 59;
    they are represented by [LBad]. *)
Inductive line := LSlope (m b : R) | LVert (x : R) | LBad.

(** line_line_intersection, _linear_algebra.py:58-95. *)
Definition line_line_intersection (l1 l2 : line) : result point :=
  match l1, l2 with
  | LBad, _ | _, LBad => Err ValueError
  | LSlope m1 b1, LSlope m2 b2 =>
      raise_if (Reqb m1 m2) ValueError
        (let x := (b2 - b1) / (m1 - m2) in Ok (x, m1 * x + b1))
  | LSlope m1 b1, LVert c => Ok (c, m1 * c + b1)
  | LVert c, LSlope m2 b2 => Ok (c, m2 * c + b2)
  | LVert c1, LVert c2 => Err ValueError
  end.

(** line_circle_intersection, _linear_algebra.py:114-171 (a tuple is a sloped line, everything else
    is taken as the x coordinate of a vertical line). *)
Definition line_circle_intersection (l : line) (c : point) (radius : R) : result (list point) :=
  raise_if (Rleb radius 0) ValueError
  (let cx := fst c in let cy := snd c in
   match l with
   | LSlope m b =>
      let A := 1 + m ^ 2 in
      let B := 2 * (m * b - m * cy - cx) in
      let C := cx ^ 2 + cy ^ 2 + b ^ 2 - 2 * b * cy - radius ^ 2 in
      let disc := B ^ 2 - 4 * A * C in
      if Rltb disc 0 then Ok []
      else if Reqb disc 0 then
        let x := - B / (2 * A) in Ok [(x, m * x + b)]
      else
        let s := sqrt disc in
        let x1 := (- B + s) / (2 * A) in
        let x2 := (- B - s) / (2 * A) in
        Ok [(x1, m * x1 + b); (x2, m * x2 + b)]
   | LVert x =>
      let A := 1 in
      let B := -2 * cy in
      let C := cy ^ 2 + (x - cx) ^ 2 - radius ^ 2 in
      let disc := B ^ 2 - 4 * A * C in
      if Rltb disc 0 then Ok []
      else if Reqb disc 0 then Ok [(x, - B / (2 * A))]
      else
        let s := sqrt disc in
        Ok [(x, (- B + s) / (2 * A)); (x, (- B - s) / (2 * A))]
   | LBad => Err ValueError   (* a tuple of another length fails to unpack in line 121 *)
   end).

(** is_point_below_line, _linear_algebra.py:24-37. [isinstance(line, int)]: a float is NOT accepted
    although the documentation allows it. *)
Inductive below_line := BTuple (m b : R) | BInt (b : Z) | BFloat (b : R).
Definition is_point_below_line (p : point) (l : below_line) : result bool :=
  match l with
  | BInt b => Ok (Rltb (snd p) (IZR b))
  | BTuple m b => Ok (Rltb (snd p) (m * fst p + b))
  | BFloat _ => Err ValueError
  end.

(** ** _pixel_volt_transformation.py:24 *)
Definition pixel_to_volt_1d (pixel pixel_num : nat) (v0 v1 : R) : result R :=
  raise_if (pixel_num =? 0)%nat ZeroDivisionError (Ok (v0 + (v1 - v0) * (INR pixel / INR pixel_num))).
