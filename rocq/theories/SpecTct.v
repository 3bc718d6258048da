(** Specification vocabulary for total charge transitions, independent of the model's functions. *)
From Verif Require Import RPrelude ModelTct.
Local Open Scope R_scope.

(** [c] is where the straight line with the left slope through the start point meets the straight
    line with the right slope through the end point. *)
Definition corner (p : tct_params) (c : point) : Prop :=
  snd c - start_y p = slope_left p * (fst c - start_x p) /\
  end_y p - snd c = slope_right p * (end_x p - fst c).

(** Parameters that describe a curve: the corner lies between the two ends of the rounded part, and
    the straight parts do not have negative length. *)
Definition admissible (p : tct_params) : Prop :=
  slope_left p <> slope_right p /\ 0 < len_left p + len_right p /\
  exists c, corner p c /\ start_x p <= fst c <= end_x p /\
            2 * (fst c - start_x p) <= len_left p /\ 2 * (end_x p - fst c) <= len_right p.

(** The corner points upwards (the usual orientation of a TCT). *)
Definition peak (p : tct_params) : Prop := slope_right p < slope_left p.

(** All secants of [f] have slopes in [lo, hi]. *)
Definition slopes_in (lo hi : R) (f : R -> R) : Prop :=
  forall x y, x <= y -> lo * (y - x) <= f y - f x <= hi * (y - x).

(** A lookup table needs both ends of the curve. *)
Definition usable_lut (lut : option nat) : Prop := lut <> Some 1%nat.
(** evaluation without a lookup table *)
Definition explicit (lut : option nat) : Prop := lut = None \/ lut = Some 0%nat.

(** Point of the bezier curve at parameter t. *)
Definition curve_point (p : tct_params) (c : point) (t : R) : point :=
  ((1 - t)^2 * start_x p + 2 * (1 - t) * t * fst c + t^2 * end_x p,
   (1 - t)^2 * start_y p + 2 * (1 - t) * t * snd c + t^2 * end_y p).

Definition left_anchor (a : anchors) : point := fst (fst a).
Definition center_anchor (a : anchors) : point := snd (fst a).
Definition right_anchor (a : anchors) : point := snd a.

(** Evaluation modes for which the rounded part is meaningful: a lookup table with both curve ends,
    or the explicit solution of an upward corner. *)
Definition good_mode (p : tct_params) (lut : option nat) : Prop :=
  usable_lut lut /\ (explicit lut -> peak p).

(** The TCT as a function: what the code returns for single numbers. *)
Definition is_tct (p : tct_params) (lut mp : option nat) (f : R -> R) : Prop :=
  forall x, tct_bezier_number p lut mp x = Ok (f x).

(** number of peaks: unlimited or at least one *)
Definition some_peaks (mp : option nat) : Prop := match mp with None => True | Some n => (1 <= n)%nat end.
