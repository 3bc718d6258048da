(** Specification of the heights of jumps: block number b of the noise has the b-th of the drawn lengths and, if b is odd, the b-th of
    the drawn heights; blocks with even numbers are quiet. *)
From Verif Require Import RPrelude.
Local Open Scope nat_scope.

(** The generator after k draws, and the draw number k (counted from 0) *)
Fixpoint after_draws {V G} (draw : G -> V * G) (k : nat) (g : G) : G :=
  match k with O => g | S k' => after_draws draw k' (snd (draw g)) end.
Definition nth_draw {V G} (draw : G -> V * G) (k : nat) (g : G) : V := fst (draw (after_draws draw k g)).

(** First pixel of block b *)
Definition first_pixel (lengths : list nat) (b : nat) : nat := fold_right Nat.add 0 (firstn b lengths).

Definition drawn_heights {V G} (zero : V) (height : G -> V * G) (lengths : list nat) (size : nat) (g : G) (noise : list V) : Prop :=
  length noise = size /\
  forall i b, i < size -> first_pixel lengths b <= i < first_pixel lengths (S b) ->
    nth_error noise i = Some (if Nat.odd b then nth_draw height b g else zero).

(** Two scales: a quiet block draws its length only, a burst its length and then its height. The first k blocks: *)
Fixpoint two_scale_blocks {G} (quiet_length burst_length : G -> nat * G) (height : G -> R * G) (k : nat) (burst : bool) (g : G) : list (nat * R) :=
  match k with
  | O => []
  | S k' =>
      if burst then
        let '(w, g1) := burst_length g in let '(h, g2) := height g1 in (w, h) :: two_scale_blocks quiet_length burst_length height k' false g2
      else let '(w, g1) := quiet_length g in (w, 0%R) :: two_scale_blocks quiet_length burst_length height k' true g1
  end.
