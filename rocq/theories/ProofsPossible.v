(** Proofs: the distortions of the default and of sampled configurations are possible. *)
From Verif Require Import RPrelude Arr ModelSampling ModelSensor ModelCsd ModelNoise ModelConfig ModelConfigCsd ModelDefaultNoise ModelSampledSim SpecSampling SpecConfig SpecSampledSim SpecPossible ProofsSampledSim2.
Local Open Scope R_scope.

Ltac possible := repeat (apply Forall_cons); try apply Forall_nil; cbn [possible_image possible_occupation]; unfold nonnegative, given; cbn [fst];
  try assumption; repeat split; intros; try lra.
Lemma default_possible {G} kernel radius (pink white : param G) : nonnegative pink -> nonnegative white ->
  Forall possible_occupation (default_occupation (G := G) kernel radius) /\ Forall possible_image (default_potential pink ++ default_response white).
Proof. intros P W. split; cbn [default_occupation default_potential default_response app]; possible. Qed.
Lemma sampled_possible {G H} label (r : rng H) choice (draw : sampler_args -> R * R -> param G) kernel radius x c :
  uniform_ok r -> choice_ok choice -> drawn_within draw -> sampled r choice label x c ->
  Forall possible_occupation (occupation_objects draw kernel radius 0 (sc_occupation c)) /\
  Forall possible_image (image_objects draw (sc_potential c) ++ image_objects draw (sc_response c)).
Proof.
  intros U C D S. destruct (sampled_fields label r choice U C draw kernel radius x c S) as (_ & _ & _ & _ & _ & -> & -> & -> & _).
  assert (P : forall a, nonnegative (draw a (1e-10, 0.0005))).
  { intros a g. destruct (D a (1e-10, 0.0005) g) as [L _]; cbn [fst snd] in *; lra. }
  assert (B : forall a, nonnegative (draw a (0.25 * 0.03 / 100, 2 * 0.03 / 100))).
  { intros a g. destruct (D a (0.25 * 0.03 / 100, 2 * 0.03 / 100) g) as [L _]; cbn [fst snd] in *; lra. }
  split; cbn [sampled_occs sampled_pots sampled_resps app]; possible; try apply P; apply B.
Qed.
