(** Property theorems about sensor responses in double precision. *)
From Flocq Require Import Core.
From Verif Require Import RPrelude ModelFloat SpecFloatRange SpecFloatSensor ModelFloatSensor ProofsFloat ProofsFloatRange ProofsFloatDraw ProofsFloatSensor.
Local Open Scope R_scope.

(** C126: rounding does not disturb the shape of a Lorentzian peak: it falls on both sides of mu0 ... *)
Theorem C126_falling mu mu' mu0 gamma height offset : 0 <= height -> 0 < fl (gamma * gamma) ->
  mu0 <= mu <= mu' \/ mu' <= mu <= mu0 ->
  float_lorentz mu' mu0 gamma height offset <= float_lorentz mu mu0 gamma height offset.
Proof. exact (lorentz_monotone mu mu' mu0 gamma height offset). Qed.
Print Assumptions C126_falling.

(** ... is highest at mu0 and never below its offset ... *)
Theorem C126_bounds mu mu0 gamma height offset : 0 <= height -> 0 < fl (gamma * gamma) -> double offset ->
  offset <= float_lorentz mu mu0 gamma height offset <= float_lorentz mu0 mu0 gamma height offset.
Proof.
  intros Hh Hg D. exact (conj (lorentz_lower mu mu0 gamma height offset Hh Hg D) (lorentz_upper mu mu0 gamma height offset Hh Hg)).
Qed.
Print Assumptions C126_bounds.

(** ... and is as high as configured, up to 2^-51. *)
Theorem C126_height_partial mu0 gamma height : pow2 (-500) <= height -> pow2 (-500) <= fl (gamma * gamma) ->
  Rabs (float_lorentz mu0 mu0 gamma height 0 - height) <= pow2 (-51) * height.
Proof. exact (lorentz_height mu0 gamma height). Qed.
Print Assumptions C126_height_partial.

(** But it can be higher than configured: height 0.015, gamma 3. *)
Theorem C126_height_refuted : exists gamma height, double gamma /\ double height /\ 0 < gamma /\ 0 < height /\
  height < float_lorentz 0 0 gamma height 0.
Proof.
  exists 3, peak_height. split; [exact (double_int 3 ltac:(lia))|]. split; [exact peak_height_double|]. rewrite peak_exceeds. unfold peak_height.
  pose proof (bpow_gt_0 radix2 (-59)) as P. split; [lra|]. split; [lra|lra].
Qed.
Print Assumptions C126_height_refuted.

Example C126_example : float_lorentz 1 0 1 1 0 <= float_lorentz 0 0 1 1 0.
Proof. apply C126_falling; [lra| |left; lra]. rewrite Rmult_1_l, (fl_id 1) by exact double_1'. lra. Qed.

(** C127: the combined response is that of the three conductances in series, up to 2^-49 ... *)
Theorem C127_series_partial s b1 b2 : pow2 (-300) <= s -> pow2 (-300) <= b1 -> pow2 (-300) <= b2 ->
  Rabs (float_series s b1 b2 - in_series s b1 b2) <= pow2 (-49) * in_series s b1 b2.
Proof. exact (series_accurate s b1 b2). Qed.
Print Assumptions C127_series_partial.

(** ... never negative, and zero as soon as one part blocks, however small the responses are. *)
Theorem C127_blocked s b1 b2 : 0 <= s -> 0 <= b1 -> 0 <= b2 ->
  0 <= float_series s b1 b2 /\ (s = 0 \/ b1 = 0 \/ b2 = 0 -> float_series s b1 b2 = 0).
Proof. intros Hs H1 H2. exact (conj (series_nonneg s b1 b2 Hs H1 H2) (series_blocked s b1 b2)). Qed.
Print Assumptions C127_blocked.

(** Responses below 2^-300 can be lost. *)
Theorem C127_tiny_refuted : exists s b1 b2, 0 < s /\ 0 < b1 /\ 0 < b2 /\ 0 < in_series s b1 b2 /\ float_series s b1 b2 = 0.
Proof.
  exists (pow2 (-500)), (pow2 (-500)), (pow2 (-500)). pose proof (bpow_gt_0 radix2 (-500)) as P.
  repeat split; [exact P|exact P|exact P| |exact tiny_series]. unfold in_series. apply Rinv_0_lt_compat.
  pose proof (Rinv_0_lt_compat _ P). lra.
Qed.
Print Assumptions C127_tiny_refuted.

Example C127_example : Rabs (float_series 1 1 1 - 1/3) <= pow2 (-49) * (1/3).
Proof.
  replace (1/3) with (in_series 1 1 1) by (unfold in_series; field). assert (pow2 (-300) <= 1) by (apply (bpow_le radix2 (-300) 0); lia).
  apply C127_series_partial; assumption.
Qed.
