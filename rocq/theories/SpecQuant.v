(** Positions relative to the interdot transitions. *)
From Verif Require Import RPrelude ModelSupport ModelTct SpecCsd.
Local Open Scope R_scope.

(** From a peak to the next one. *)
Definition period_vector (p : tct_params) : point :=
  (len_left p + len_right p, len_left p * slope_left p + len_right p * slope_right p).

(** How far [q] is beyond the k-th (from 0) interdot transition, and how far consecutive transitions are apart:
    perpendicular to the reference line from [u] to [l], in units of the width of the rounded part of the TCT. *)
Definition beyond (u l : point) (po : tct_params) (k : nat) (q : point) : R :=
  cross (vec u l) (vec (peak_point po l k) q) / cross (vec u l) (coupling_vector po).
Definition pitch (u l : point) (po : tct_params) : R :=
  cross (vec u l) (period_vector po) / cross (vec u l) (coupling_vector po).

(** [q] is at least [c] beyond the first m of the n interdot transitions and at least [c] before the others. *)
Definition between (u l : point) (po : tct_params) (n m : nat) (c : R) (q : point) : Prop :=
  (m <= n)%nat /\ ((1 <= m)%nat -> c <= beyond u l po (m - 1) q) /\ ((m < n)%nat -> beyond u l po m q <= - c).
