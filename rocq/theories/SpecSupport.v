(** Specification vocabulary for the support functions: plain geometry, independent of the model. *)
From Verif Require Import RPrelude.
From Verif Require Import ModelSupport.
Local Open Scope R_scope.

(** Euclidean distance. *)
Definition dist2 (p q : point) : R := sqrt ((fst p - fst q)^2 + (snd p - snd q)^2).

(** q lies on the straight line through a and b. *)
Definition on_line_through (a b q : point) : Prop :=
  exists t, q = (fst a + t * (fst b - fst a), snd a + t * (snd b - snd a)).

(** p lies strictly to the right of the directed line from a to b: turning from (b-a) to (p-a) is
    clockwise. *)
Definition right_of (a b p : point) : Prop :=
  (fst b - fst a) * (snd p - snd a) < (snd b - snd a) * (fst p - fst a).

(** A point of a line given as slope/intercept or as x coordinate. *)
Definition on_line (l : line) (q : point) : Prop :=
  match l with
  | LSlope m b => snd q = m * fst q + b
  | LVert x => fst q = x
  | LBad => False
  end.

Definition well_formed_line (l : line) : Prop := l <> LBad.

(** same direction *)
Definition parallel (l1 l2 : line) : Prop :=
  match l1, l2 with
  | LSlope m1 _, LSlope m2 _ => m1 = m2
  | LVert _, LVert _ => True
  | _, _ => False
  end.

Definition on_circle (c : point) (r : R) (q : point) : Prop := dist2 q c = r.

(** The value a GLF approaches for potential -> +infinity (growth rate > 0) according to the
    documentation of [glf]. *)
Definition glf_far_asymptote (p : glf_params) : R :=
  asymptote_left p + (asymptote_right p - asymptote_left p)
                     / Rpower (denominator_offset p) (1 / asymmetry p).

Definition strictly_between (a b v : R) : Prop := a < v < b \/ b < v < a.

(** Parameter tuples for which the GLF is a proper growth curve. *)
Definition glf_admissible (p : glf_params) : Prop :=
  0 < asymmetry p /\ 0 < shape_factor p /\ 0 < denominator_offset p /\
  growth_rate p <> 0 /\ asymptote_left p <> asymptote_right p.

(** A parameter tuple as the seven numbers in the order of the arguments. *)
Definition glf_tuple (p : glf_params) : list R :=
  [asymptote_left p; asymptote_right p; growth_rate p; asymmetry p; shape_factor p; denominator_offset p; offset p].
Definition glf_total (gs : list glf_params) (x : R) : R := fold_right Rplus 0 (map (fun g => glf g x) gs).
(** Points strictly below a line. *)
Definition below (l : below_line) (p : point) : Prop :=
  match l with BTuple m b => snd p < m * fst p + b | BInt b => snd p < IZR b | BFloat b => snd p < b end.
