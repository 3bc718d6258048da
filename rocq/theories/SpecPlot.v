(** Vocabulary for the statements about plots. *)
From Verif Require Import RPrelude Arr ModelPlot.
Local Open Scope R_scope.

(** The voltage at the position [p], in pixels, of an axis with [n] pixels that starts at [fst l] and ends at [snd l]. *)
Definition volt_at (n : nat) (l : R * R) (p : R) : R := fst l + p * ((snd l - fst l) / (INR n - 1)).
(** The same ends, from the lower to the upper one. *)
Definition ascending (l : R * R) : R * R := (Rmin (fst l) (snd l), Rmax (fst l) (snd l)).
(** The axis of a plot. *)
Definition axis (sort_volts : bool) (l : R * R) : R * R := if sort_volts then ascending l else l.
(** The tick shows the rounded voltage of its position, which is within the image. *)
Definition true_tick (round3 : R -> R) (n : nat) (l : R * R) (t : R * R) : Prop :=
  0 <= fst t <= INR n - 1 /\ snd t = round3 (volt_at n l (fst t)).
