(** Vocabulary for the statements about pixel voltages and sampled parameters in double precision. *)
From Flocq Require Import Core.
From Verif Require Import RPrelude ModelFloat.
Local Open Scope R_scope.

(** 2^k *)
Notation pow2 k := (bpow radix2 k).
(** A random number of 53 bits, at least 0 and below 1. *)
Definition random_double (v : R) : Prop := exists k : Z, (0 <= k < 2 ^ 53)%Z /\ v = IZR k * pow2 (-53).
(** The voltage of pixel i of n, without rounding. *)
Definition exact_voltage (a b : R) (n i : nat) : R := a + INR i * ((b - a) / INR (n - 1)).
(** The larger magnitude of two numbers. *)
Definition magnitude (a b : R) : R := Rmax (Rabs a) (Rabs b).
(** Equal ends, or ends that are not closer together than 2^-900. *)
Definition wide (a b : R) : Prop := a = b \/ pow2 (-900) <= Rabs (b - a).
