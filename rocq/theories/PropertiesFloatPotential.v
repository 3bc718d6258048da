(** Property theorems about the potential of the generic sensor in double precision. *)
From Flocq Require Import Core.
From Verif Require Import RPrelude ModelFloat SpecFloatRange SpecSensor ModelFloatPotential ProofsFloat ProofsFloatRange ProofsFloatPotential.
Local Open Scope R_scope.

(** C134: rounding never reverses the direction of the potential: if no product of a lever-arm with its voltage or
    occupation falls, the computed potential does not fall ... *)
Theorem C134_monotone k1 k2 dot gate off v occ v' occ' :
  fst gate * fst v <= fst gate * fst v' -> snd gate * snd v <= snd gate * snd v' ->
  fst dot * fst occ <= fst dot * fst occ' -> snd dot * snd occ <= snd dot * snd occ' ->
  float_potential k1 k2 dot gate off v occ <= float_potential k1 k2 dot gate off v' occ'.
Proof. exact (potential_monotone k1 k2 dot gate off v occ v' occ'). Qed.
Print Assumptions C134_monotone.

(** ... and it is the affine function of voltages and occupations up to 2^-50 of its terms. *)
Theorem C134_accurate k1 k2 dot gate off v occ :
  Rabs (float_potential k1 k2 dot gate off v occ - affine off gate dot v occ)
  <= pow2 (-50) * (Rabs (fst dot * fst occ) + Rabs (snd dot * snd occ) + Rabs (fst gate * fst v) + Rabs (snd gate * snd v) + Rabs off)
     + pow2 (-1070).
Proof. exact (potential_accurate k1 k2 dot gate off v occ). Qed.
Print Assumptions C134_accurate.

Example C134_example : float_potential NoneFused FirstFused (0, 0) (1, 0) 0 (1, 0) (0, 0) = 1.
Proof. exact (stale_potential NoneFused FirstFused). Qed.

(** C135: after resetting the offset the computed potential of the first pixel is the target up to rounding errors of
    the previous offset, the target and the terms ... *)
Theorem C135_bound_partial k1 k2 dot gate off target v occ : double off -> double target ->
  Rabs (float_potential k1 k2 dot gate (float_reset k1 k2 dot gate off target v occ) v occ - target)
  <= pow2 (-50) * (Rabs (fst dot * fst occ) + Rabs (snd dot * snd occ) + Rabs (fst gate * fst v) + Rabs (snd gate * snd v)
                   + Rabs off + Rabs target) + pow2 (-1070).
Proof. exact (reset_bound k1 k2 dot gate off target v occ). Qed.
Print Assumptions C135_bound_partial.

(** ... and exactly if there was no offset and the target is within a factor of two of the potential. *)
Theorem C135_exact_partial k1 k2 dot gate target v occ : double target ->
  float_potential k1 k2 dot gate 0 v occ / 2 <= target <= 2 * float_potential k1 k2 dot gate 0 v occ ->
  float_potential k1 k2 dot gate (float_reset k1 k2 dot gate 0 target v occ) v occ = target.
Proof. exact (reset_close k1 k2 dot gate target v occ). Qed.
Print Assumptions C135_exact_partial.

(** But a large previous offset swallows the contribution of the voltages: the target is missed, and resetting once more
    changes the offset again. *)
Theorem C135_stale_refuted : exists dot gate off target v occ, double off /\ double target /\ forall k1 k2,
  let off' := float_reset k1 k2 dot gate off target v occ in
  target = 0 /\ float_potential k1 k2 dot gate off' v occ = 1 /\ float_reset k1 k2 dot gate off' target v occ <> off'.
Proof.
  exists (0, 0), (1, 0), (pow2 54), 0, (1, 0), (0, 0). split; [exact (double_pow2 54 ltac:(lia))|]. split; [exact double_0|]. intros k1 k2. cbv zeta.
  rewrite stale_reset. split; [reflexivity|]. split; [exact (stale_potential k1 k2)|]. rewrite fresh_reset. lra.
Qed.
Print Assumptions C135_stale_refuted.

Example C135_example : float_potential NoneFused NoneFused (0, 0) (1, 0) (float_reset NoneFused NoneFused (0, 0) (1, 0) 0 2 (1, 0) (0, 0)) (1, 0) (0, 0) = 2.
Proof. apply C135_exact_partial; [exact double_2|]. rewrite stale_potential. lra. Qed.
