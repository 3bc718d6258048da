(** The straight parts of the lead transitions, and the dot that gets the electron there. *)
From Verif Require Import RPrelude ModelSupport ModelTct ModelCsd SpecSupport SpecTct SpecCsd SpecQuant.
Local Open Scope R_scope.

(** From a peak down to the next valley ([right]), and from a valley up to the next peak. *)
Definition branch_vector (right : bool) (p : tct_params) : point :=
  if right then (len_right p, len_right p * slope_right p) else (len_left p, len_left p * slope_left p).

(** The branch right of the last peak and the one left of the first peak go on forever. *)
Definition outer (right : bool) (n k : nat) : Prop := if right then S k = n else k = 0%nat.

(** [b] lies on the line from the k-th (from 0) peak of TCT n to the next valley on the right or left: t = 0 at the peak, t = 1 at the valley. *)
Definition on_branch (params : list tct_params) (n k : nat) (right : bool) (t : R) (b : point) : Prop :=
  exists p c, (k < n)%nat /\ nth_error params (n - 1) = Some p /\ corner p c /\ 0 <= t /\ (outer right n k \/ t <= 1) /\
    let s := if right then t else - t in
    b = (fst (peak_point p c k) + s * fst (branch_vector right p), snd (peak_point p c k) + s * snd (branch_vector right p)).

(** ... and outside of the rounded parts around peaks and valleys (which are symmetric to those around the peaks). *)
Definition straight_part (params : list tct_params) (n k : nat) (right : bool) (b : point) : Prop :=
  exists p c, nth_error params (n - 1) = Some p /\ corner p c /\
    let x := fst (peak_point p c k) in
    if right then x + (end_x p - fst c) <= fst b /\ (outer right n k \/ fst b <= x + len_right p - (end_x p - fst c))
    else fst b <= x - (fst c - start_x p) /\ (outer right n k \/ x - len_left p + (fst c - start_x p) <= fst b).

(** Length of a vector perpendicular to the reference line, in units of the width of the interdot transitions. *)
Definition span (u l : point) (po : tct_params) (w : point) : R := cross (vec u l) w / cross (vec u l) (coupling_vector po).

(** How far the occupation of a dot can be from an integer at a distance [c] from all n transitions, which are [p] apart. *)
Definition tail_bound (kind : cdf_kind) (g : R) (n : nat) (c p : R) : R :=
  match kind with
  | Sigmoid => exp (- (2 * g * c)) / (1 - exp (- (2 * g * p)))
  | _ => INR n / (PI * g * c)
  end.
