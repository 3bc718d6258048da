(** C125: accuracy of total charge transitions in double precision. *)
From Flocq Require Import Core.
From Verif Require Import RPrelude ModelFloat SpecFloatRange ModelTct ModelFloatDraw ModelInstance ModelSampling ModelDefault SpecTct SpecFloatTct ProofsFloatTct ProofsFloatTct2.
Local Open Scope R_scope.

(** C125: from the first peak on, the double precision value of a TCT of ordinary size with mp peaks is the exact one in the k-th period, up to the error [e]
    of the evaluation of the rounded part and (17000 + 2610 (k + mp)) 2^-53. Directly before the end of a period it may also be the
    exact one plus the offset between two periods, as in [C125_value_refuted]. *)
Theorem C125_error_partial p bez mp e g x y : ordinary_tct p -> admissible p -> peak p -> (1 <= mp <= 1000)%nat -> is_tct p None (Some mp) g ->
  0 <= e <= 1/2 -> (forall c t, float_center p = Ok c -> start_x p - pow2 (-41) <= t <= end_x p + pow2 (-41) -> Rabs (bez c t - g t) <= e) ->
  double (start_x p) -> start_x p <= x <= 1 -> float_tct p bez mp x = Ok y -> 0 < float_period p ->
  let x0 := fl (x - start_x p) in let k := Zfloor (x0 / float_period p) in (k <= 1000)%Z ->
  let bound := e + (17000 + 2610 * (IZR k + INR mp)) * pow2 (-53) in
  Rabs (y - g x) <= bound \/
  (IZR k + 1) * float_period p * (1 - pow2 (-53)) <= x0 /\
  Rabs (y - (g x + (len_left p * slope_left p + len_right p * slope_right p))) <= bound.
Proof. exact (tct_accuracy p bez mp e g x y). Qed.
Print Assumptions C125_error_partial.

(** Outside of the range with the peaks the value depends neither on the evaluation of the rounded part nor on the number of the period. *)
Theorem C125_outer_error p bez mp g x y : ordinary_tct p -> admissible p -> peak p -> (1 <= mp <= 1000)%nat -> is_tct p None (Some mp) g ->
  -1 <= x <= 1 -> float_tct p bez mp x = Ok y ->
  let x1 := fl (fl (x - start_x p) + start_x p) in x1 < start_x p \/ float_wave_end p mp < x1 ->
  Rabs (y - g x) <= (50 + 2610 * INR mp) * pow2 (-53).
Proof. exact (outer_tct_accuracy p bez mp g x y). Qed.
Print Assumptions C125_outer_error.

(** This holds for all voltages below the first point of the first peak. *)
Theorem C125_below p bez mp g x y : ordinary_tct p -> admissible p -> peak p -> (1 <= mp <= 1000)%nat -> is_tct p None (Some mp) g ->
  double (start_x p) -> double x -> -1 <= x < start_x p -> float_tct p bez mp x = Ok y ->
  Rabs (y - g x) <= (50 + 2610 * INR mp) * pow2 (-53).
Proof. exact (below_accuracy p bez mp g x y). Qed.
Print Assumptions C125_below.

(** The TCTs of the default configuration, with parameters rounded to double precision, are of this size and are accepted for all voltages. *)
Theorem C125_default n q : nth_error default_tcts n = Some q -> let p := as_doubles q in
  exists g, is_tct p None (Some (S n)) g /\ forall bez e x, 0 <= e <= 1/2 ->
  (forall c t, float_center p = Ok c -> start_x p - pow2 (-41) <= t <= end_x p + pow2 (-41) -> Rabs (bez c t - g t) <= e) ->
  double x -> -1 <= x <= 1 -> exists y, float_tct p bez (S n) x = Ok y /\
  (Rabs (y - g x) <= e + pow2 (-35) \/
   let x0 := fl (x - start_x p) in let k := Zfloor (x0 / float_period p) in
   start_x p <= x /\ (IZR k + 1) * float_period p * (1 - pow2 (-53)) <= x0 /\
   Rabs (y - (g x + (len_left p * slope_left p + len_right p * slope_right p))) <= e + pow2 (-35)).
Proof. exact (default_accuracy n q). Qed.
Print Assumptions C125_default.

(** The first TCT of the default configuration is one. *)
Example C125_error_example q : nth_error default_tcts 0 = Some q -> ordinary_tct (as_doubles q) /\ admissible (as_doubles q) /\ peak (as_doubles q).
Proof. intros H. destruct (default_ordinary 0 q H) as (A & B & C & _). exact (conj A (conj B C)). Qed.
