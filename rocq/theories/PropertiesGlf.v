(** Properties of the slope of the generalized logistic function (glf). *)
From Verif Require Import RPrelude ModelSupport SpecSupport ProofsGlf.
Local Open Scope R_scope.

(** * C129: growth_rate and asymmetry mean what the documentation says *)

(** The glf solves the differential equation of generalized logistic growth: the slope is growth_rate / asymmetry times the height
    above the left asymptote times one minus the relative height to the power asymmetry. *)
Theorem C129_growth : forall p x, glf_admissible p ->
  derivable_pt_lim (glf p) x (growth_rate p / asymmetry p * (glf p x - asymptote_left p) *
    (1 - Rpower ((glf p x - asymptote_left p) / (glf_far_asymptote p - asymptote_left p)) (asymmetry p))).
Proof. exact glf_slope_formula. Qed.
Print Assumptions C129_growth.

(** A rising glf has exactly one steepest point. It lies above half of the height for asymmetry > 1, below for asymmetry < 1. *)
Theorem C129_asymmetry : forall p, glf_admissible p -> 0 < growth_rate p -> asymptote_left p < asymptote_right p ->
  exists m g, derivable_pt_lim (glf p) m g /\ 0 < g /\
    (forall x h, x <> m -> derivable_pt_lim (glf p) x h -> h < g) /\
    (1 < asymmetry p -> (asymptote_left p + glf_far_asymptote p) / 2 < glf p m) /\
    (asymmetry p = 1 -> glf p m = (asymptote_left p + glf_far_asymptote p) / 2) /\
    (asymmetry p < 1 -> glf p m < (asymptote_left p + glf_far_asymptote p) / 2).
Proof. exact glf_steepest. Qed.
Print Assumptions C129_asymmetry.

Example C129_example : let p := {| asymptote_left := 0; asymptote_right := 2/100; growth_rate := 3; asymmetry := 5; shape_factor := 1;
    denominator_offset := 1; offset := 0 |} in
  glf_admissible p /\ 0 < growth_rate p /\ asymptote_left p < asymptote_right p.
Proof. unfold glf_admissible; simpl; lra. Qed.
