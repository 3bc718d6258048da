(** Vocabulary for the statements about double precision. *)
From Verif Require Import RPrelude ModelFloat.
Local Open Scope R_scope.

(** A float64 number between 0 and 1. *)
Definition unit_double (v : R) : Prop := double v /\ 0 <= v <= 1.
