(** Positions relative to interdot transitions of no width. *)
From Verif Require Import RPrelude ModelSupport ModelTct SpecSupport SpecCsd.
Local Open Scope R_scope.

(** On which side of the k-th (from 0) interdot transition [q] is, with respect to the line from [u] to [l]: the sign of
    the cross product with the vector from the k-th peak. *)
Definition side (u l : point) (po : tct_params) (k : nat) (q : point) : R := cross (vec u l) (vec (peak_point po l k) q).
(** The width of the rounded part across the line; up to 1e-8 (after division by the gamma factor) it counts as zero. *)
Definition width_across (u l : point) (po : tct_params) : R := cross (vec u l) (coupling_vector po).
Definition no_coupling (g : R) (u l : point) (po : tct_params) : Prop := Rabs (width_across u l po) <= 1 / 100000000 * g * dist2 u l.
(** [q] is past the first [m] of the [n] transitions. *)
Definition past (u l : point) (po : tct_params) (n m : nat) (q : point) : Prop :=
  (m <= n)%nat /\ (forall k, (k < m)%nat -> 0 < side u l po k q) /\ (forall k, (m <= k < n)%nat -> side u l po k q < 0).
(** [u] lies above both edges of the peak [l] (the straight lines on its left and right), as in every usual diagram. *)
Definition above_edges (u l : point) (po : tct_params) : Prop :=
  slope_left po * (fst u - fst l) < snd u - snd l /\ slope_right po * (fst u - fst l) < snd u - snd l.
