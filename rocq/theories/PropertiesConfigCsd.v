(** Property theorems about sampled ideal charge stability diagrams. *)
From Verif Require Import RPrelude Arr ModelSupport ModelTct ModelCsd ModelSensor ModelSampling ModelSimulation ModelInstance
  ModelConfig ModelConfigCsd SpecTct SpecCsd SpecOrder SpecSampling SpecInstance SpecConfig SpecConfigCsd
  ProofsLabel ProofsConfig ExamplesConfig ProofsConfigCsd ExamplesConfigCsd.
Local Open Scope R_scope.

(** C55: every TCT of a sampled configuration is the one before it, shifted by the same vector; the first
    one and the shift have parameters in the documented ranges. *)
Theorem C55_translates {G} (r : rng G) fuel label g x g1 : uniform_ok r -> (forall m, is_labelling m (label m)) ->
  sample_ideal_csd r fuel label g = (Ok x, g1) ->
  exists p d, sampled_tct p d /\ sampled_attributes x /\ (1 <= length (g_tcts x) <= 91)%nat /\ translates p d (g_tcts x).
Proof. intros U Lab. exact (sampled_shape r fuel U label Lab g x g1). Qed.
Print Assumptions C55_translates.

(** The test measurement succeeds, and fails for all shorter lists of TCTs. *)
Theorem C55_minimal {G} (r : rng G) fuel label g x g1 : uniform_ok r -> (forall m, is_labelling m (label m)) ->
  sample_ideal_csd r fuel label g = (Ok x, g1) ->
  (exists m, test_measurement label (g_tcts x) = Ok m) /\
  forall k, (1 <= k < length (g_tcts x))%nat -> test_measurement label (firstn k (g_tcts x)) = Err IndexError.
Proof. intros U Lab. exact (sampled_minimal r fuel U label Lab g x g1). Qed.
Print Assumptions C55_minimal.

(** All voltages of the range have an electron number, although only 100 of them were tested. *)
Theorem C55_covers {G} (r : rng G) fuel label g x g1 v : uniform_ok r -> (forall m, is_labelling m (label m)) ->
  sample_ideal_csd r fuel label g = (Ok x, g1) -> in_range v ->
  exists n, (n < length (g_tcts x))%nat /\ electrons (g_tcts x) (g_lut x) (g_rotation x) v n.
Proof. intros U Lab. exact (sampled_covers r fuel U label Lab g x g1 v). Qed.
Print Assumptions C55_covers.

(** 2D scans within the range succeed if their pixels are at most 11.9 mV apart. *)
Theorem C55_scans {G} (r : rng G) fuel label g x g1 a1 b1 a2 b2 nx ny : uniform_ok r -> (forall m, is_labelling m (label m)) ->
  sample_ideal_csd r fuel label g = (Ok x, g1) ->
  in_range (a1, a2) -> in_range (b1, b2) -> a1 <> b1 -> a2 <> b2 -> (2 <= nx)%nat -> (2 <= ny)%nat ->
  Rabs (b1 - a1) <= 0.0119 * INR (nx - 1) -> Rabs (b2 - a2) <= 0.0119 * INR (ny - 1) ->
  exists occ lead, ideal_csd_geometric label (g_tcts x) [a1; b1] [a2; b2] (ResArray [Z.of_nat nx; Z.of_nat ny])
    (g_rotation x) (g_lut x) (g_cdf x) (g_gamma x) = Ok (Csd2 occ lead).
Proof. intros U Lab. exact (sampled_scans r fuel U label Lab g x g1 a1 b1 a2 b2 nx ny). Qed.
Print Assumptions C55_scans.

(** C91: the TCTs of sampled configurations do not touch, and all theorems about scans apply to them. *)
Theorem C91_ordered {G} (r : rng G) fuel label g x g1 : uniform_ok r -> (forall m, is_labelling m (label m)) ->
  sample_ideal_csd r fuel label g = (Ok x, g1) ->
  config_ok label x /\ Forall (bounded_tct 0.55 0.000005 (g_lut x)) (g_tcts x) /\ stacked 0.0014 (g_tcts x).
Proof. intros U Lab. exact (sampled_ordered r fuel U label Lab g x g1). Qed.
Print Assumptions C91_ordered.

(** C92: sampling raises no exception, and once the first TCT is sampled, the loop that adds TCTs ends
    after at most 91 test measurements. *)
Theorem C92_no_exception {G} (r : rng G) fuel label g e g1 : uniform_ok r -> (forall m, is_labelling m (label m)) ->
  sample_ideal_csd r fuel label g = (Err e, g1) -> e = OutOfFuel.
Proof. intros U Lab. exact (sample_csd_err r fuel U label Lab g e g1). Qed.
Print Assumptions C92_no_exception.
Theorem C92_loop_ends {G} (r : rng G) fuel label g p d g1 : uniform_ok r -> (forall m, is_labelling m (label m)) ->
  (91 <= fuel)%nat -> sample_first_tct r fuel g = (Ok (p, d), g1) ->
  exists x, sample_ideal_csd r fuel label g = (Ok x, g1).
Proof. intros U Lab. exact (sample_csd_ends r fuel U label Lab g p d g1). Qed.
Print Assumptions C92_loop_ends.

Example C92_example : exists x, sample_ideal_csd middle 91 component_label tt = (Ok x, tt).
Proof. destruct (middle_first_tct 90) as (p & d & E). exact (C92_loop_ends middle 91 component_label tt p d tt middle_ok component_labelling (le_n _) E). Qed.
Example C55_example : exists x n, sample_ideal_csd middle 91 component_label tt = (Ok x, tt) /\
  electrons (g_tcts x) (g_lut x) (g_rotation x) (-0.06, -0.06) n.
Proof.
  destruct C92_example as (x & E). destruct (C55_covers middle 91 component_label tt x tt (-0.06, -0.06) middle_ok component_labelling E) as (n & _ & N).
  { unfold in_range. cbn. lra. }
  exists x, n. auto.
Qed.
Example C91_example : exists x, sample_ideal_csd middle 91 component_label tt = (Ok x, tt) /\ stacked 0.0014 (g_tcts x).
Proof.
  destruct C92_example as (x & E). exists x. split; [exact E|]. exact (proj2 (proj2 (C91_ordered middle 91 component_label tt x tt middle_ok component_labelling E))).
Qed.
