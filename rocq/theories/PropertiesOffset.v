(** C27 for every denominator offset. *)
From Verif Require Import RPrelude ModelSupport ModelSensor SpecSupport SpecSensor ExamplesSensor ProofsOffset.
Local Open Scope R_scope.

(** ** C27 *)

(** Whenever some potential reaches the percentage at all, the reported potential reaches it. *)
Theorem C27_any_offset p pinch full b : glf_admissible p -> barrier_glf p pinch full = Ok b ->
  ((exists x, percentage_reached p x pinch) -> percentage_reached p (pinch_off b) pinch) /\
  ((exists x, percentage_reached p x full) -> percentage_reached p (fully_conductive b) full) /\
  (forall x, get_value b x = glf p x).
Proof. exact (any_offset p pinch full b). Qed.
Print Assumptions C27_any_offset.

(** Which percentages a rising barrier reaches. *)
Theorem C27_reachable p pct : glf_admissible p -> asymptote_left p < asymptote_right p ->
  ((exists x, percentage_reached p x pct) <-> 0 < pct /\ pct * Rpower (denominator_offset p) (1 / asymmetry p) < 1).
Proof. exact (reachable p pct). Qed.
Print Assumptions C27_reachable.

(** Which percentages a falling barrier reaches. *)
Theorem C27_reachable_falling p pct : glf_admissible p -> asymptote_right p < asymptote_left p ->
  ((exists x, percentage_reached p x pct) <-> pct < 1 /\ (1 - pct) * Rpower (denominator_offset p) (1 / asymmetry p) < 1).
Proof. exact (reachable_falling p pct). Qed.
Print Assumptions C27_reachable_falling.

(** A barrier with denominator offset 2 is accepted with any percentages, although none of 1/2 or more is reached. *)
Theorem C27_offset_refuted : exists p, glf_admissible p /\ (forall pinch full, exists b, barrier_glf p pinch full = Ok b) /\
  (forall pct, 0 < pct < 1/2 -> exists x, percentage_reached p x pct) /\
  (forall pct x, 1/2 <= pct -> ~ percentage_reached p x pct).
Proof. exact never_reached_offset. Qed.
Print Assumptions C27_offset_refuted.

Example C27_reachable_example : exists x, percentage_reached logistic x (3/4).
Proof. apply C27_reachable; [exact logistic_admissible|cbn; lra|]. cbn. unfold Rpower. rewrite ln_1, Rmult_0_r, exp_0. lra. Qed.
Example C27_any_offset_example : exists b, barrier_glf half_barrier (1/10) (3/10) = Ok b /\ percentage_reached half_barrier (fully_conductive b) (3/10).
Proof.
  destruct half_made with (pinch := 1/10) (full := 3/10) as [b Hb]. exists b. split; [exact Hb|].
  apply (proj1 (proj2 (C27_any_offset half_barrier (1/10) (3/10) b half_admissible Hb))). apply (proj1 (proj2 never_reached)). lra.
Qed.
