(** The sensors of the package never have negative responses; the warning of measure_sensor_scan. *)
From Verif Require Import RPrelude Arr ModelSupport ModelTct ModelCsd ModelJumps ModelDistortions ModelSampling ModelConfig ModelConfigCsd ModelSensor ModelSimulation ModelInstance ModelNoise
  ModelScanInstance ModelDefault ModelDefaultNoise ModelScanNoise ModelSampledSim ModelWarnings SpecSupport SpecSensor SpecSimulation SpecSampling SpecConfig SpecConfigCsd SpecSampledSim SpecWarnings
  ProofsConfig ProofsSampledSim2 ProofsAreas2 ProofsWarnings.
Local Open Scope R_scope.

Lemma glf_nonneg p x : asymptote_left p = 0 -> 0 <= asymptote_right p -> 0 <= glf p x.
Proof.
  intros E H. unfold glf. rewrite E, Rplus_0_l, Rminus_0_r. unfold Rdiv. apply Rmult_le_pos; [exact H|]. left. apply Rinv_0_lt_compat. unfold Rpower. apply exp_pos.
Qed.
Lemma made_peaks l ps : mapM (fun mg : R * R => sensor_peak_lorentzian (fst mg) (snd mg) 0.09 0) l = Ok ps -> Forall (fun p => forall m mu, 0 <= peak_fun p m mu) ps.
Proof.
  revert ps. induction l as [|[m g] t IH]; intros ps H; cbn [mapM] in H.
  - injection H as <-. constructor.
  - unfold sensor_peak_lorentzian at 1, raise_if in H. cbn [fst snd] in H. destruct (Rleb g 0) eqn:E; [discriminate|]. cbn [bind] in H.
    destruct (mapM _ t) as [ps'|] eqn:Et; [|discriminate]. cbn [bind] in H. injection H as <-. constructor; [|exact (IH ps' eq_refl)].
    assert (0 < g). { apply Rnot_le_lt. intros L. rewrite Rleb_true in E by exact L. discriminate. }
    intros m' mu. apply lorentz_nonneg, H.
Qed.
Lemma default_nonnegative s : default_sensor_v2 = Ok s -> nonnegative_sensor s /\ ss_deform s = [].
Proof.
  unfold default_sensor_v2, barrier_glf, raise_if. destruct (Rleb _ 0); [discriminate|]. destruct (Rleb _ 0); [discriminate|]. cbn [bind].
  destruct (mapM _ default_peaks_v2) as [ps|] eqn:Ep; [|discriminate]. cbn [bind set_alpha_sensor set_alpha]. intros E. injection E as <-.
  split; [|reflexivity]. split; [|split]; cbn [ss_barrier1 ss_barrier2 get_value ss_peaks].
  - intros x. apply glf_nonneg; [reflexivity|cbn; lra].
  - intros x. apply glf_nonneg; [reflexivity|cbn; lra].
  - exists ps. split; [reflexivity|exact (made_peaks _ _ Ep)].
Qed.
Lemma sampled_nonnegative {G} (r : rng G) choice label x c p s : uniform_ok r -> sampled r choice label x c -> sc_sensor c = SampledScan p -> sensor_of p = Ok s ->
  nonnegative_sensor s /\ ss_deform s = [].
Proof.
  intros U (fuel & fuel' & kind & q & comp & steep & g & g1 & E) Es Made.
  destruct (config_result r choice fuel _ kind q comp steep g x c g1 E) as (Hq & (g2 & g3 & _ & Em) & _). rewrite Es in Em. destruct Em as [_ Em].
  destruct (scan_sensor_spec r fuel U q comp _ _ _ Hq Em) as (_ & _ & _ & (Ps & _) & _ & Bar).
  destruct (sensor_made p) as (s' & ks & M & _ & _ & B1 & B2 & _ & _ & _ & _ & _ & D). assert (s' = s) by congruence. subst s'. destruct (sensor_parts p s Made) as [_ Pk].
  split; [|exact D]. split; [|split].
  - intros y. rewrite B1. destruct (Bar (sp_barrier1 p) _ (or_introl eq_refl)) as (_ & _ & _ & _ & V & _). specialize (V y). lra.
  - intros y. rewrite B2. destruct (Bar (sp_barrier2 p) _ (or_intror eq_refl)) as (_ & _ & _ & _ & V & _). specialize (V y). lra.
  - exists (map lorentz_peak (sp_peaks p)). split; [exact Pk|]. apply Forall_forall. intros k I. apply in_map_iff in I. destruct I as (z & <- & Iz).
    rewrite Forall_forall in Ps. destruct (Ps z Iz) as (A & B & C). intros m mu. cbn [lorentz_peak peak_fun]. unfold sensor_response_lorentz. rewrite C, Rplus_0_l.
    apply Rmult_le_pos; [apply Rmult_le_pos; [exact B|left; apply pow_lt, A]|]. left. apply Rinv_0_lt_compat. pose proof (pow_lt _ 2 A). pose proof (pow2_ge_0 (mu - m)). lra.
Qed.

(** ** measure_sensor_scan *)
Section Request.
Context {W L I K : Type}.
Lemma request_cases (c : config W L I K) s1 s2 v1 v2 res :
  request_warnings c s1 s2 v1 v2 res = [] \/
  request_warnings c s1 s2 v1 v2 res = [IgnoredCsd v2 v2] /\ ideal_csd_config c <> None /\ (v1 = None \/ v2 = None).
Proof.
  unfold request_warnings. destruct (before_warning _ _ _ _ _ _); [|now left]. destruct (ideal_csd_config c); [|now left].
  destruct v1, v2; cbn; [now left| | |]; right; (split; [reflexivity|]); (split; [discriminate|auto]).
Qed.
Lemma request_none (c : config W L I K) s1 s2 v1 v2 res : ideal_csd_config c = None \/ (v1 <> None /\ v2 <> None) -> request_warnings c s1 s2 v1 v2 res = [].
Proof. intros H. destruct (request_cases c s1 s2 v1 v2 res) as [E|(_ & A & B)]; [exact E|]. destruct H as [H|[H H']]; [contradiction|]. destruct B; contradiction. Qed.
(** A request that passes the checks is one that reaches the warning. *)
Lemma request_given (c : config W L I K) s1 s2 v1 v2 res : ideal_csd_config c <> None -> (v1 = None \/ v2 = None) -> before_warning c s1 s2 v1 v2 res = Ok tt ->
  request_warnings c s1 s2 v1 v2 res = [IgnoredCsd v2 v2].
Proof.
  intros H V B. unfold request_warnings. rewrite B. destruct (ideal_csd_config c); [|contradiction]. destruct V as [->| ->]; [reflexivity|]. destruct v1; reflexivity.
Qed.
Lemma checked_before (c : config W L I K) s1 s2 v1 v2 res l : check_sensor_scan c s1 s2 v1 v2 res = Ok l -> before_warning c s1 s2 v1 v2 res = Ok tt.
Proof.
  unfold check_sensor_scan, before_warning, raise_if. destruct (negb _); [discriminate|]. destruct s1 as [|a1 [|b1 [|? ?]]]; try discriminate. destruct s2 as [|a2 [|b2 [|? ?]]]; try discriminate.
  destruct (_ || _); [discriminate|]. destruct (_ && _); [discriminate|]. destruct (_ || _); [discriminate|]. reflexivity.
Qed.
Lemma ignored (c : config W L I K) s1 s2 v1 v2 res w : v1 = None \/ v2 = None ->
  same_outcome same_scan (fst (measure_sensor_scan c s1 s2 v1 v2 res w)) (fst (measure_sensor_scan (without_csd c) s1 s2 v1 v2 res w)).
Proof.
  intros V. unfold measure_sensor_scan.
  replace (check_sensor_scan (without_csd c) s1 s2 v1 v2 res) with (check_sensor_scan c s1 s2 v1 v2 res) by reflexivity.
  destruct (check_sensor_scan c s1 s2 v1 v2 res) as [[l1 l2]|e]; [|reflexivity].
  assert (O : scan_occupations (without_csd c) v1 v2 res = scan_occupations c v1 v2 res).
  { unfold scan_occupations. cbn [without_csd ideal_csd_config]. destruct (ideal_csd_config c); [|reflexivity]. destruct V as [->| ->]; [reflexivity|]. destruct v1; reflexivity. }
  rewrite O. unfold mbind. destruct (scan_occupations c v1 v2 res w) as [[[occ res']|e] w1]; [|reflexivity].
  cbn [without_csd sensor sensor_potential_distortions sensor_response_distortions].
  destruct (so_potential (sensor c) occ _ _ _ w1) as [[p|e] w2]; [|reflexivity].
  destruct (so_potential (sensor c) occ _ _ _ w2) as [[pu|e] w3]; [|reflexivity].
  destruct (so_labels (sensor c) _ _ _ _ pu w3) as [[la|e] w4]; [|reflexivity].
  destruct (distort_potential _ l1 l2 occ p w4) as [[p'|e] w5]; [|reflexivity].
  destruct (so_response (sensor c) p' w5) as [[r|e] w6]; [|reflexivity].
  destruct (image_loop _ l1 l1 r w6) as [[y|e] w7]; [|reflexivity]. split; reflexivity.
Qed.
(** One missing voltage *)
Lemma single_raises (c : config W L I K) s1 s2 v1 v2 res w : xorb (is_none v1) (is_none v2) = true -> measure_sensor_scan c s1 s2 v1 v2 res w = (Err ValueError, w).
Proof.
  intros X. unfold measure_sensor_scan. assert (E : check_sensor_scan c s1 s2 v1 v2 res = Err ValueError); [|rewrite E; reflexivity].
  unfold check_sensor_scan, raise_if. destruct (negb _); [reflexivity|]. destruct s1 as [|a1 [|b1 [|? ?]]]; try reflexivity. destruct s2 as [|a2 [|b2 [|? ?]]]; try reflexivity.
  destruct (_ || _); [reflexivity|]. destruct (_ && _); [reflexivity|]. destruct (_ || _); [reflexivity|]. rewrite X. reflexivity.
Qed.
End Request.
