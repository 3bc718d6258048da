(** The peaks of sampled sensors have the sampled parameters. *)
From Verif Require Import RPrelude Arr ModelSupport ModelSampling ModelCsd ModelSensor ModelSimulation ModelConfig SpecSampling SpecConfig ProofsConfig.
Local Open Scope R_scope.

Lemma lorentz_shape p : 0 < lz_gamma p -> has_shape p (lorentz_peak p).
Proof.
  intros H. split; [reflexivity|]. intros x. unfold sensor_function, lorentz_peak, sensor_response_lorentz, lorentz_value. cbn [mu0 peak_fun].
  pose proof (pow2_ge_0 (x - lz_mu0 p)). pose proof (pow_lt (lz_gamma p) 2 H).
  replace (1 + ((x - lz_mu0 p) / lz_gamma p) ^ 2) with ((lz_gamma p ^ 2 + (x - lz_mu0 p) ^ 2) / lz_gamma p ^ 2) by (field; lra).
  field. split; [lra|]. apply Rgt_not_eq. lra.
Qed.
Lemma shapes ps : Forall (fun p => 0 < lz_gamma p) ps -> Forall2 has_shape ps (map lorentz_peak ps).
Proof. induction 1; cbn; constructor; auto using lorentz_shape. Qed.
Lemma sum_shapes ps x : Forall (fun p => 0 < lz_gamma p) ps -> sum_peaks (map lorentz_peak ps) x = Rsum (map (fun p => lorentz_value p x) ps).
Proof.
  unfold sum_peaks. intros H. f_equal. rewrite map_map. apply map_ext_in. intros p I.
  apply (proj2 (lorentz_shape p (proj1 (Forall_forall _ _) H p I))).
Qed.

Lemma generic_shape {G} (r : rng G) choice fuel q compensated steepest g s g' : uniform_ok r -> choice_ok choice -> 0 < q <= 1 ->
  sample_sensor_generic r choice fuel q compensated steepest g = (Ok s, g') ->
  exists ps ks, gs_peaks s = Some ks /\ Forall2 has_shape ps ks /\ consistent_arms q compensated (gs_gate s) (gs_dot s) /\
    (3 <= length ps <= 6)%nat /\ similar_peaks ps /\ Forall (fun p => between_ends (gs_gate s) (gs_dot s) (lz_mu0 p)) ps /\
    apart (end_distance (gs_gate s) (gs_dot s) / (2 * INR (length ps))) (map lz_mu0 ps) /\
    (steepest = false -> gs_offset s = 0).
Proof.
  intros U C Q H. destruct (sensor_generic_spec r choice fuel q compensated steepest g s g' U C Q H) as (ps & E & A & L & Sim & K).
  exists ps, (map lorentz_peak ps). split; [exact E|]. split; [|tauto].
  apply shapes. apply Forall_forall. intros p I. destruct Sim as (p0 & _ & _ & _ & B). specialize (B p I). lra.
Qed.

Lemma rise_shape {G} (r : rng G) fuel off q g ps rise g' : uniform_ok r ->
  sample_sensor_function r fuel off q g = (Ok (ps, rise), g') ->
  (20 <= length ps <= 30)%nat /\
  (let n := Z.to_nat 500000 in let y i := Rsum (map (fun p => lorentz_value p (grid (-5, 5) n i)) ps) in
   (forall i, (i < n)%nat -> 1.05 * y i <= asymptote_right (rise_glf rise)) /\
   exists i, (i < n)%nat /\ asymptote_right (rise_glf rise) = 1.05 * y i) /\
  asymptote_left (rise_glf rise) = 0 /\ 0 <= asymptote_right (rise_glf rise) /\ denominator_offset (rise_glf rise) = 1 /\
  400 <= growth_rate (rise_glf rise) <= 600 /\ 0.01 <= asymmetry (rise_glf rise) <= 1 /\
  0.01 <= shape_factor (rise_glf rise) <= 100 /\ rise_percentage rise = 0.95.
Proof.
  intros U E. destruct (sensor_function_spec r fuel U off q g ps rise g' E) as (P & L & M & K).
  assert (W : Forall (fun p => 0 < lz_gamma p) ps). { destruct P as [P _]. eapply Forall_impl; [|exact P]. cbn. tauto. }
  split; [exact L|]. split; [|exact K]. cbv zeta in *. destruct M as [M1 (i & I & M2)]. split.
  - intros j J. rewrite <- sum_shapes by exact W. exact (M1 j J).
  - exists i. split; [exact I|]. rewrite <- sum_shapes by exact W. exact M2.
Qed.
