(** The warnings of whole simulations. *)
From Verif Require Import RPrelude Arr ModelSupport ModelTct ModelCsd ModelJumps ModelDistortions ModelSampling ModelConfig ModelConfigCsd ModelSensor ModelSimulation ModelInstance ModelNoise
  ModelScanInstance ModelDefault ModelDefaultNoise ModelScanNoise ModelSampledSim ModelWarnings SpecSupport SpecSensor SpecSimulation SpecSampling SpecConfig SpecConfigCsd SpecSampledSim SpecWarnings
  ProofsSimulation ProofsWarnings ProofsWarnings2.
Local Open Scope R_scope.

Lemma same_results {W L I K} (c : config W L I K) pot resp s1 s2 v1 v2 res w log :
  (same_outcome same_diagram (fst (measure (logged_config c pot resp) s1 s2 v1 v2 res (w, log))) (fst (measure c s1 s2 v1 v2 res w)) /\
   fst (snd (measure (logged_config c pot resp) s1 s2 v1 v2 res (w, log))) = snd (measure c s1 s2 v1 v2 res w)) /\
  (same_outcome same_scan (fst (logged_sensor_scan (logged_config c pot resp) s1 s2 v1 v2 res (w, log))) (fst (measure_sensor_scan c s1 s2 v1 v2 res w)) /\
   fst (snd (logged_sensor_scan (logged_config c pot resp) s1 s2 v1 v2 res (w, log))) = snd (measure_sensor_scan c s1 s2 v1 v2 res w)).
Proof. split; [exact (same_measure pot resp c s1 s2 v1 v2 res w log)|]. unfold logged_sensor_scan. cbn [fst snd]. apply same_sensor_scan. Qed.

Section Given.
Context {G : Type}.
Variable src : sources G.
Variable label : arr2 nat -> arr2 nat.
Variables lim1 lim2 lims1 lims2 : option (R * R).
Variable x : option geometric.
Variable s : scan_sensor.
Variables (occs : list (occ_noise G)) (pots resps : list (image_noise G)).
Notation plain := (noisy_scan_config src label lim1 lim2 lims1 lims2 x s occs pots resps).
Notation conf := (with_warnings s plain).

Lemma scan_log s1 s2 v1 v2 res w : nonnegative_sensor s ->
  snd (snd (logged_sensor_scan conf s1 s2 v1 v2 res w)) = snd w ++ request_warnings conf s1 s2 v1 v2 res.
Proof. intros N. unfold logged_sensor_scan. rewrite scan_quiet by exact N. reflexivity. Qed.
Lemma quiet_cases s1 s2 v1 v2 res w : nonnegative_sensor s ->
  (ss_deform s = [] -> snd (snd (measure conf s1 s2 v1 v2 res w)) = snd w) /\
  (x = None \/ (v1 <> None /\ v2 <> None) -> snd (snd (logged_sensor_scan conf s1 s2 v1 v2 res w)) = snd w).
Proof.
  intros N. split; [intros D; apply measure_quiet; assumption|]. intros H. rewrite scan_log by exact N. rewrite request_none; [apply app_nil_r|].
  destruct H as [->|H]; [left; reflexivity|right; exact H].
Qed.
Lemma request_scan s1 s2 v1 v2 res w : nonnegative_sensor s -> valid_scan plain s1 s2 v1 v2 res ->
  (snd (snd (logged_sensor_scan conf s1 s2 v1 v2 res w)) = snd w <-> x = None \/ v1 <> None) /\
  (x <> None -> v1 = None -> snd (snd (logged_sensor_scan conf s1 s2 v1 v2 res w)) = snd w ++ [IgnoredCsd None None] /\
     forall w0, same_outcome same_scan (fst (measure_sensor_scan plain s1 s2 v1 v2 res w0)) (fst (measure_sensor_scan (without_csd plain) s1 s2 v1 v2 res w0))).
Proof.
  intros N V.
  assert (C : exists l, check_sensor_scan conf s1 s2 v1 v2 res = Ok l).
  { pose proof (vs_pair1 _ _ _ _ _ _ V) as P1. pose proof (vs_pair2 _ _ _ _ _ _ V) as P2.
    destruct s1 as [|a1 [|b1 [|? ?]]]; try discriminate P1. destruct s2 as [|a2 [|b2 [|? ?]]]; try discriminate P2.
    exists ((a1, b1), (a2, b2)). change (check_sensor_scan plain [a1; b1] [a2; b2] v1 v2 res = Ok ((a1, b1), (a2, b2))). apply check_scan_iff. auto. }
  destruct C as [l C]. apply checked_before in C.
  assert (Miss : x <> None -> v1 = None -> snd (snd (logged_sensor_scan conf s1 s2 v1 v2 res w)) = snd w ++ [IgnoredCsd None None]).
  { intros Hx ->. rewrite scan_log by exact N. rewrite request_given; [|destruct x; [discriminate|contradiction]|now left|exact C]. rewrite (proj1 (vs_both _ _ _ _ _ _ V) eq_refl). reflexivity. }
  split.
  - split.
    + intros E. destruct x as [y|]; [|now left]. right. intros ->. rewrite Miss in E by (reflexivity || discriminate). apply (f_equal (@length _)) in E. rewrite app_length in E. cbn in E. lia.
    + intros H. apply quiet_cases; [exact N|]. destruct H as [H|H]; [now left|right]. split; [exact H|]. intros E. apply H, (vs_both _ _ _ _ _ _ V), E.
  - intros Hx Hv. split; [apply Miss; assumption|]. intros w0. apply ignored. now left.
Qed.
End Given.

Lemma default_log {G} (src : sources G) label kernel radius pink white s s1 s2 v1 v2 res w : default_sensor_v2 = Ok s ->
  let conf := with_warnings s (default_noisy_v2 src label kernel radius pink white s) in
  snd (snd (measure conf s1 s2 v1 v2 res w)) = snd w /\ (v1 <> None -> v2 <> None -> snd (snd (logged_sensor_scan conf s1 s2 v1 v2 res w)) = snd w).
Proof.
  intros M conf. destruct (default_nonnegative s M) as [N D]. subst conf. unfold default_noisy_v2.
  match goal with |- context [noisy_scan_config src label ?l1 ?l2 ?k1 ?k2 ?x s ?o ?p ?r] => destruct (quiet_cases src label l1 l2 k1 k2 x s o p r s1 s2 v1 v2 res w N) as [A B] end.
  split; [exact (A D)|auto].
Qed.
Lemma sampled_log {G} (r : rng G) choice (src : sources G) label draw kernel radius x c p s s1 s2 v1 v2 res w :
  uniform_ok r -> sampled r choice label x c -> sc_sensor c = SampledScan p -> sensor_of p = Ok s ->
  let conf := with_warnings s (sampled_scan src label draw kernel radius x c s) in
  snd (snd (measure conf s1 s2 v1 v2 res w)) = snd w /\ (v1 <> None -> v2 <> None -> snd (snd (logged_sensor_scan conf s1 s2 v1 v2 res w)) = snd w).
Proof.
  intros U Smp Hs M conf. destruct (sampled_nonnegative r choice label x c p s U Smp Hs M) as [N D]. subst conf. unfold sampled_scan.
  match goal with |- context [noisy_scan_config src label ?l1 ?l2 ?k1 ?k2 ?x s ?o ?p ?r] => destruct (quiet_cases src label l1 l2 k1 k2 x s o p r s1 s2 v1 v2 res w N) as [A B] end.
  split; [exact (A D)|auto].
Qed.
Lemma wrong_text {G} (src : sources G) label kernel radius pink white s a1 b1 a2 b2 y n w :
  -1 <= a1 <= 0.4 -> -1 <= b1 <= 0.4 -> -1 <= a2 <= 0.4 -> -1 <= b2 <= 0.4 -> -0.2 <= y <= -0.047 ->
  logged_sensor_scan (with_warnings s (default_noisy_v2 src label kernel radius pink white s)) [a1; b1] [a2; b2] None (Some y) (ResInt n) w =
  (Err ValueError, (fst w, snd w ++ [IgnoredCsd (Some y) (Some y)])).
Proof.
  intros A1 B1 A2 B2 Y. unfold logged_sensor_scan. rewrite request_given; [|discriminate|now left|].
  - rewrite single_raises by reflexivity. reflexivity.
  - unfold before_warning. cbn [with_warnings logged_config default_noisy_v2 noisy_scan_config so_scan sensor logged_sensor scan_sensor_object scan_object negb raise_if volt_limits_sensor_g1 volt_limits_sensor_g2 volt_limits_g1 volt_limits_g2].
    unfold limits_sensor, limits_g2. cbn [plunger_volt_outside limits_g1]. unfold range_outside. cbn [fst snd is_2d andb raise_if].
    repeat match goal with |- context [Rltb ?a ?b] => rewrite (Rltb_false a b) by (unfold Rmin, Rmax; repeat destruct Rle_dec; lra) end. reflexivity.
Qed.
