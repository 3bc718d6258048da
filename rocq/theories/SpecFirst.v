(** Which pixel of a connected region decides about its number of electrons. *)
From Verif Require Import RPrelude Arr ModelCsd SpecCsd.
Local Open Scope R_scope.

(** Voltages of pixel (row, column) of a scan. *)
Definition pixel_point (xl yl : R * R) (nx ny : nat) (a : nat * nat) : point :=
  (pixel_voltage xl nx (snd a), pixel_voltage yl ny (fst a)).

(** Lower second gate voltage, or the same one and no higher first gate voltage. *)
Definition not_after (v w : point) : Prop := snd v < snd w \/ (snd v = snd w /\ fst v <= fst w).

(** [b] comes first among the pixels of the connected region of [a]. *)
Definition first_of_region (xl yl : R * R) (lead : arr2 nat) (a b : nat * nat) : Prop :=
  connected lead a b /\
  forall c, connected lead a c ->
    not_after (pixel_point xl yl (cols lead) (rows lead) b) (pixel_point xl yl (cols lead) (rows lead) c).
