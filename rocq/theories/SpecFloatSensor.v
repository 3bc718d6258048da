(** Vocabulary for the statements about sensor responses in double precision. *)
From Verif Require Import RPrelude.
Local Open Scope R_scope.

(** The conductance of three conductances in series. *)
Definition in_series (s b1 b2 : R) : R := / (/ s + / b1 + / b2).
