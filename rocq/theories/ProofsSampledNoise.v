(** Proofs about the distortions of sampled configurations. *)
From Verif Require Import RPrelude ModelSampling ModelSimulation ModelNoise ModelConfig ModelSampledSim SpecSampling SpecSampledNoise
  ProofsSampling ProofsExponential ProofsConfig.
Local Open Scope R_scope.

Section S.
Context {G : Type} (r : rng G) (U : uniform_ok r).

Lemma drawn_between a total lo hi : admissible_range a total -> ordered total -> fst total = lo -> snd total = hi ->
  strength_between r (Drawn a total) lo hi.
Proof.
  intros A O <- <- g sm w g1 fuel n g2 vs sm' g3 N M.
  destruct (sampled_in_total r a total None g sm w g1 fuel n g2 vs sm' g3 U A I N M) as [L F].
  split; [exact L|]. refine (Forall_impl _ _ F). intros v [B1 B2]. unfold ordered in O.
  rewrite Rmin_left in B1 by exact O. rewrite Rmax_right in B2 by exact O. split; assumption.
Qed.

Lemma drawn_weak lo hi : lo < hi -> mostly_weak r (Drawn (AExponential (exponential_scale 1)) (lo, hi)) lo hi.
Proof.
  intros O. exists (exponential_scale 1).
  assert (P : 0 < exponential_scale 1).
  { destruct (quantile 0.99 (0.6 * 1)) as [P _]; [lra|lra|exact P]. }
  split; [exact P|]. split.
  { pose proof (config_quantile 1 ltac:(lra)) as Q. rewrite Rmult_1_r in Q. exact Q. }
  exists (AExponential (exponential_scale 1)), (lo, hi). split; [reflexivity|].
  intros g sm w g1 fuel g2 v sm' g3 N E.
  destruct (exponential_ordered r (exponential_scale 1) (lo, hi) None g sm w g1 fuel g2 v sm' g3 U ltac:(unfold ordered; cbn [fst snd]; lra) I N E) as (g' & Ev).
  exists g'. cbn [new_sampler] in N. unfold narrow_exponential in N. injection N as <- _ _.
  cbn [sm_range fst snd] in Ev. rewrite Rmin_left in Ev by lra. rewrite Rmax_right in Ev by lra. exact Ev.
Qed.

Lemma occupation_moderate q : Forall (moderate r) (sample_occupation_distortions q).
Proof.
  unfold sample_occupation_distortions. constructor; [|constructor; [|constructor; [|constructor]]]; cbn [moderate]; unfold reference_pixel; try lra.
  apply drawn_between; unfold admissible_range, ordered; cbn [fst snd]; lra.
Qed.
Lemma potential_moderate : Forall (moderate r) (sample_potential_distortions 1).
Proof.
  unfold sample_potential_distortions. constructor; [|constructor; [|constructor]]; cbn [moderate].
  - split; [apply drawn_between; unfold admissible_range, ordered; cbn [fst snd]; auto; lra | apply drawn_weak; lra].
  - lra.
Qed.
Lemma response_moderate : Forall (moderate r) (sample_response_distortions 1).
Proof.
  unfold sample_response_distortions. constructor; [|constructor; [|constructor]]; cbn [moderate].
  - lra.
  - split; [apply drawn_between; unfold admissible_range, ordered; cbn [fst snd]; auto; lra | apply drawn_weak; lra].
Qed.

Lemma config_moderate {C} choice fuel (sample_csd : action G C) kind q compensated steepest g csd c g' :
  sample_config r choice fuel sample_csd kind q compensated steepest g = (Ok (csd, c), g') ->
  Forall (moderate r) (sc_occupation c ++ sc_potential c ++ sc_response c) /\
  map kind_of (sc_occupation c) = [Blurring; Jumps 0; Jumps 1] /\
  map kind_of (sc_potential c) = [Pink1; Telegraphic] /\ map kind_of (sc_response c) = [Telegraphic; White1].
Proof.
  intros E. destruct (config_result r choice fuel sample_csd kind q compensated steepest g csd c g' E) as (_ & _ & _ & _ & _ & _ & -> & -> & ->).
  split; [|auto]. apply Forall_app. split; [apply occupation_moderate|]. apply Forall_app. split; [apply potential_moderate|apply response_moderate].
Qed.
End S.

Section O.
Context {G : Type} (draw : sampler_args -> R * R -> param G) (kernel : R -> Z -> R) (radius : R -> nat).
Lemma config_objects {H C} (r : rng H) choice fuel (sample_csd : action H C) kind q compensated steepest g csd c g' :
  sample_config r choice fuel sample_csd kind q compensated steepest g = (Ok (csd, c), g') ->
  Forall2 (occ_realised draw kernel radius) (sc_occupation c) (occupation_objects draw kernel radius 0 (sc_occupation c)) /\
  NoDup (map key_of (occupation_objects draw kernel radius 0 (sc_occupation c))) /\
  Forall2 (image_realised draw) (sc_potential c) (image_objects draw (sc_potential c)) /\
  Forall2 (image_realised draw) (sc_response c) (image_objects draw (sc_response c)).
Proof.
  intros E. destruct (config_result r choice fuel sample_csd kind q compensated steepest g csd c g' E) as (_ & _ & _ & _ & _ & _ & -> & -> & ->).
  unfold sample_occupation_distortions, sample_potential_distortions, sample_response_distortions.
  cbn [occupation_objects image_objects of_strength map key_of].
  repeat split; repeat constructor; try reflexivity; cbn [In]; intuition discriminate.
Qed.
End O.
