(** A run of the sampler of ideal charge stability diagrams with all draws at the centres of their ranges. *)
From Verif Require Import RPrelude Arr ModelSupport ModelTct ModelCsd ModelSensor ModelSampling ModelSimulation ModelInstance
  ModelConfig ModelConfigCsd SpecTct SpecCsd SpecOrder SpecSampling SpecInstance SpecConfig SpecConfigCsd
  ProofsSampling ProofsConfig ExamplesConfig ProofsConfigCsd.
Local Open Scope R_scope.

Lemma atan_low s : 0 <= s -> s / (1 + s ^ 2) <= atan s.
Proof.
  intros [H|<-]; [|rewrite atan_0; lra].
  destruct (MVT_cor2 atan (fun x => / (1 + x ^ 2)) 0 s H) as (c & E & B).
  { intros c _. apply derivable_pt_lim_atan. }
  rewrite atan_0 in E.
  assert (/ (1 + s ^ 2) <= / (1 + c ^ 2)) by (apply Rinv_le_contravar; [pose proof (pow2_ge_0 c); lra|nra]).
  unfold Rdiv. nra.
Qed.
Lemma middle_slopes n : sample_slopes middle (S n) tt = (Ok (0.380585, -0.25846), tt).
Proof.
  cbn [sample_slopes]. rewrite (bind_go _ _ _ _ _ (middle_uniform 0.21429 0.54688 ltac:(lra))).
  rewrite (bind_go _ _ _ _ _ (middle_uniform (-0.44) (-0.07692) ltac:(lra))).
  replace ((0.21429 + 0.54688) / 2) with 0.380585 by lra. replace ((-0.44 + -0.07692) / 2) with (-0.25846) by lra.
  rewrite lead_angle_atan by lra.
  assert (L1 : 0.33 <= atan 0.380585).
  { eapply Rle_trans; [|apply atan_low; lra]. apply Rmult_le_reg_r with (1 + 0.380585 ^ 2); [lra|]. unfold Rdiv. rewrite Rmult_assoc, Rinv_l by lra. lra. }
  assert (L2 : 0.24 <= atan 0.25846).
  { eapply Rle_trans; [|apply atan_low; lra]. apply Rmult_le_reg_r with (1 + 0.25846 ^ 2); [lra|]. unfold Rdiv. rewrite Rmult_assoc, Rinv_l by lra. lra. }
  pose proof (atan_small_range 0.380585 ltac:(lra)). pose proof (atan_small_range 0.25846 ltac:(lra)).
  replace (-0.25846) with (Ropp 0.25846) by lra. rewrite atan_opp. rewrite !Rleb_true by lra. reflexivity.
Qed.
Lemma middle_direction n : exists v, sample_interdot_direction middle (S n) 0.380585 tt = (Ok v, tt).
Proof.
  cbn [sample_interdot_direction]. rewrite (bind_go _ _ _ _ _ (middle_uniform 0.58153916891 1.396938844 ltac:(lra))).
  set (a := (0.58153916891 + 1.396938844) / 2). pose proof PI2_3_2 as P. pose proof PI_4 as P4.
  rewrite slope_polar, !rotate_polar. pose proof (norm_pos 0.380585) as N.
  assert (Rg : 0 < atan 0.380585 + a + - (PI / 4) < PI / 2).
  { assert (L1 : 0.33 <= atan 0.380585).
    { eapply Rle_trans; [|apply atan_low; lra]. apply Rmult_le_reg_r with (1 + 0.380585 ^ 2); [lra|]. unfold Rdiv. rewrite Rmult_assoc, Rinv_l by lra. lra. }
    pose proof (atan_small_range 0.380585 ltac:(lra)). unfold a. lra. }
  pose proof (cos_gt_0 (atan 0.380585 + a + - (PI / 4)) ltac:(lra) ltac:(lra)) as C.
  pose proof (sin_gt_0 (atan 0.380585 + a + - (PI / 4)) ltac:(lra) ltac:(lra)) as Sn.
  unfold scale. cbn [fst snd]. rewrite !Rltb_false by (left; apply Rmult_lt_0_compat; auto). eexists. reflexivity.
Qed.
Lemma middle_first_tct n : exists p d, sample_first_tct middle (S n) tt = (Ok (p, d), tt).
Proof.
  unfold sample_first_tct. rewrite (bind_go _ _ _ _ _ (middle_slopes n)).
  rewrite (bind_go _ _ _ _ _ (middle_uniform 0.01 0.025 ltac:(lra))). rewrite (bind_go _ _ _ _ _ (middle_uniform 0.01 0.025 ltac:(lra))).
  destruct (middle_direction n) as (v & E). rewrite (bind_go _ _ _ _ _ E).
  assert (L : sample_interdot_length middle (S n) tt = (Ok ((0.00261 + 0.00987) / 2), tt)).
  { cbn [sample_interdot_length]. rewrite (bind_go _ _ _ _ _ (middle_uniform 0.00261 0.00987 ltac:(lra))). rewrite !Rltb_false by lra. reflexivity. }
  rewrite (bind_go _ _ _ _ _ L). rewrite (bind_go _ _ _ _ _ (middle_uniform 0.00043 0.00814 ltac:(lra))).
  assert (W : fit_width middle (S n) ((0.00261 + 0.00987) / 2) ((0.00043 + 0.00814) / 2) tt = (Ok ((0.00261 + 0.00987) / 2, (0.00043 + 0.00814) / 2), tt)).
  { cbn [fit_width]. rewrite !Rleb_true by lra. reflexivity. }
  rewrite (bind_go _ _ _ _ _ W).
  rewrite (bind_go _ _ _ _ _ (middle_uniform (-0.14) (-0.14) ltac:(lra))). rewrite (bind_go _ _ _ _ _ (middle_uniform (-0.14) (-0.14) ltac:(lra))).
  eexists. eexists. reflexivity.
Qed.
