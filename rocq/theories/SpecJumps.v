(** Specification of dot jumps: closed forms, no loops. *)
From Verif Require Import RPrelude Arr.
Local Open Scope nat_scope.

(** pixel p of a line after a jump of s pixels shows pixel max(0, p - s), unless that one is NaN *)
Definition jumped {A} (isnan : A -> bool) (line : nat -> A) (s p : nat) : A :=
  if isnan (line (p - s)) then line p else line (p - s).

(** A block pattern: widths (all at least one pixel) with heights, quiet and active blocks
    alternating, starting with a quiet one. *)
Fixpoint alternating {V} (zero : V) (quiet : bool) (blocks : list (nat * V)) : Prop :=
  match blocks with
  | [] => True
  | (w, h) :: rest => 0 < w /\ (quiet = true -> h = zero) /\ alternating zero (negb quiet) rest
  end.

Definition expand {V} (blocks : list (nat * V)) : list V :=
  flat_map (fun b => repeat (snd b) (fst b)) blocks.

Definition quiet_jump_pattern {V} (zero : V) (size : nat) (noise : list V) : Prop :=
  length noise = size /\
  exists blocks, alternating zero true blocks /\ noise = firstn size (expand blocks).
