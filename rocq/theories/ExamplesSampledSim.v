(** Concrete sampled configurations and their measurements. *)
From Verif Require Import RPrelude Arr ModelSupport ModelTct ModelCsd ModelJumps ModelDistortions ModelSampling ModelSensor ModelSimulation ModelInstance
  ModelNoise ModelConfig ModelConfigCsd ModelScanInstance ModelDefault ModelDefaultNoise ModelScanNoise ModelSampledSim
  SpecSupport SpecTct SpecCsd SpecSensor SpecSampling SpecConfig SpecConfigCsd SpecSimulation SpecDistortions SpecInstance SpecNoise SpecDefaultNoise SpecScanInstance SpecScanNoise SpecSampledSim
  ProofsConfig ProofsConfigCsd ProofsSampledSim ProofsSampledSim2 ProofsSampledSim3
  ProofsLabel ExamplesSensor ExamplesCsd ExamplesConfig ExamplesConfigCsd ExamplesNoise ExamplesDefaultNoise ExamplesScanInstance ExamplesScanNoise.
Local Open Scope R_scope.

(** Every parameter at the centre of its range. *)
Definition centre : sampler_args -> R * R -> param unit := fun _ total g => ((fst total + snd total) / 2, g).
Lemma centre_ok : drawn_within centre.
Proof. intros a total g L. cbn [centre fst]. lra. Qed.

(** ** A sampled configuration with a sensor-scan sensor *)
Lemma choose_low : choice_ok (fun a (_ : nat) (g : unit) => (a, g)).
Proof. intros a b g L. cbn [fst]. lia. Qed.
Lemma sampled_scan_exists : exists x c p, sampled middle (fun a _ g => (a, g)) component_label x c /\ sc_sensor c = SampledScan p.
Proof.
  destruct (middle_first_tct 90) as (t & d & E). destruct (sample_csd_ends middle 91 middle_ok component_label component_labelling tt t d tt (le_n _) E) as (x & Ex).
  destruct (run_scan 1 false ltac:(lra)) as (p & Ep).
  exists x, (mk_sampled_config (-0.2, -0.06) (-0.2, -0.06) (-1, 0) (-1, 0) (SampledScan p)
    (sample_occupation_distortions 1) (sample_potential_distortions 1) (sample_response_distortions 1)), p.
  split; [|reflexivity]. exists 1%nat, 91%nat, ChooseScan, 1, false, false, tt, tt. unfold sample_config. rewrite Rltb_true, Rleb_true by lra. cbn [andb].
  unfold mbind at 1. cbn [ret]. rewrite (bind_go _ _ _ _ _ Ex). unfold mbind. rewrite Ep. reflexivity.
Qed.

(** ** and one with a generic sensor *)
Lemma half lo hi t : lo <= hi -> uniform relative_tape lo hi (1 / 2 :: t) = (Ok ((lo + hi) / 2), t).
Proof. intros L. rewrite (uniform_relative lo hi (1 / 2) t L) by lra. do 2 f_equal. lra. Qed.
Lemma tape_slopes n t : sample_slopes relative_tape (S n) (1 / 2 :: 1 / 2 :: t) = (Ok (0.380585, -0.25846), t).
Proof.
  cbn [sample_slopes]. rewrite (bind_go _ _ _ _ _ (half 0.21429 0.54688 _ ltac:(lra))).
  rewrite (bind_go _ _ _ _ _ (half (-0.44) (-0.07692) _ ltac:(lra))).
  replace ((0.21429 + 0.54688) / 2) with 0.380585 by lra. replace ((-0.44 + -0.07692) / 2) with (-0.25846) by lra.
  pose proof (middle_slopes 0) as M. cbn [sample_slopes] in M. rewrite (bind_go _ _ _ _ _ (middle_uniform 0.21429 0.54688 ltac:(lra))) in M.
  rewrite (bind_go _ _ _ _ _ (middle_uniform (-0.44) (-0.07692) ltac:(lra))) in M.
  replace ((0.21429 + 0.54688) / 2) with 0.380585 in M by lra. replace ((-0.44 + -0.07692) / 2) with (-0.25846) in M by lra.
  revert M. match goal with |- context [if ?b then _ else _] => destruct b end; [reflexivity|]. intros M. discriminate M.
Qed.
Lemma tape_direction n t : exists v, sample_interdot_direction relative_tape (S n) 0.380585 (1 / 2 :: t) = (Ok v, t).
Proof.
  cbn [sample_interdot_direction]. rewrite (bind_go _ _ _ _ _ (half 0.58153916891 1.396938844 _ ltac:(lra))).
  destruct (middle_direction 0) as (v & M). cbn [sample_interdot_direction] in M. rewrite (bind_go _ _ _ _ _ (middle_uniform 0.58153916891 1.396938844 ltac:(lra))) in M.
  revert M. match goal with |- context [if ?b then _ else _] => destruct b end; intros M; [discriminate M|eexists; reflexivity].
Qed.
Lemma tape_first_tct n t : exists p d, sample_first_tct relative_tape (S n) (repeat (1 / 2) 9 ++ t) = (Ok (p, d), t).
Proof.
  cbn [repeat app]. unfold sample_first_tct. rewrite (bind_go _ _ _ _ _ (tape_slopes n _)).
  rewrite (bind_go _ _ _ _ _ (half 0.01 0.025 _ ltac:(lra))). rewrite (bind_go _ _ _ _ _ (half 0.01 0.025 _ ltac:(lra))).
  destruct (tape_direction n (1 / 2 :: 1 / 2 :: 1 / 2 :: 1 / 2 :: t)) as (v & E). rewrite (bind_go _ _ _ _ _ E).
  assert (L : forall t, sample_interdot_length relative_tape (S n) (1 / 2 :: t) = (Ok ((0.00261 + 0.00987) / 2), t)).
  { intros u. cbn [sample_interdot_length]. rewrite (bind_go _ _ _ _ _ (half 0.00261 0.00987 _ ltac:(lra))). rewrite !Rltb_false by lra. reflexivity. }
  rewrite (bind_go _ _ _ _ _ (L _)). rewrite (bind_go _ _ _ _ _ (half 0.00043 0.00814 _ ltac:(lra))).
  assert (W : forall t, fit_width relative_tape (S n) ((0.00261 + 0.00987) / 2) ((0.00043 + 0.00814) / 2) t = (Ok ((0.00261 + 0.00987) / 2, (0.00043 + 0.00814) / 2), t)).
  { intros u. cbn [fit_width]. rewrite !Rleb_true by lra. reflexivity. }
  rewrite (bind_go _ _ _ _ _ (W _)).
  rewrite (bind_go _ _ _ _ _ (half (-0.14) (-0.14) _ ltac:(lra))). rewrite (bind_go _ _ _ _ _ (half (-0.14) (-0.14) _ ltac:(lra))).
  eexists. eexists. reflexivity.
Qed.
Lemma sampled_generic_exists : exists x c s, sampled relative_tape choose_first component_label x c /\ sc_sensor c = SampledGeneric s.
Proof.
  destruct (tape_first_tct 90 generic_tape) as (p & d & E).
  destruct (sample_csd_ends relative_tape 91 relative_ok component_label component_labelling _ p d _ (le_n _) E) as (x & Ex).
  destruct run_generic as (gates & dots & [lo hi] & ps & t & Eg & _).
  exists x, (mk_sampled_config (-0.2, -0.06) (-0.2, -0.06) (-1, 0) (-1, 0) (SampledGeneric (mk_generic (Some (map ModelConfig.lorentz_peak ps)) dots gates 0))
    (sample_occupation_distortions 1) (sample_potential_distortions 1) (sample_response_distortions 1)), (mk_generic (Some (map ModelConfig.lorentz_peak ps)) dots gates 0).
  split; [|reflexivity]. exists 1%nat, 91%nat, ChooseGeneric, 1, false, false, (repeat (1 / 2) 9 ++ generic_tape), t. unfold sample_config.
  rewrite Rltb_true, Rleb_true by lra. cbn [andb].
  unfold mbind at 1. cbn [ret]. rewrite (bind_go _ _ _ _ _ Ex). unfold sample_sensor_generic.
  match goal with |- mbind ?m ?k ?g = _ => assert (Es : m g = (Ok (SampledGeneric (mk_generic (Some (map ModelConfig.lorentz_peak ps)) dots gates 0)), t)) end.
  { unfold mbind. rewrite Eg. reflexivity. }
  rewrite (bind_go _ _ _ _ _ Es). reflexivity.
Qed.

(** ** Their measurements *)
Lemma whole_range : in_range (-0.2, -0.2) /\ in_range (-0.06, -0.06).
Proof. unfold in_range. cbn. lra. Qed.
Lemma whole_fits : fits_request (-0.2) (-0.06) (-0.2) (-0.06) (ResArray [50; 50]%Z) (Shape2 50 50).
Proof.
  split; [reflexivity|]. split; [lra|]. split; [lra|]. split; [lia|]. split; [lia|].
  assert (E : INR (50 - 1) = 49) by (change (50 - 1)%nat with 49%nat; rewrite INR_IZR_INZ; reflexivity). rewrite E.
  split; apply Rabs_le; lra.
Qed.
(** What [sampled_generic_exists] returned: the whole range with every noise active, a line along gate 1
    with every noise active and with none, and without voltages for the sensor gates. *)
Lemma generic_runs x c s : sampled relative_tape choose_first component_label x c -> sc_sensor c = SampledGeneric s ->
  let cfg (src : sources unit) := sampled_generic src component_label centre gaussian_kernel gaussian_radius x c s in
  returned (measure (cfg demo_src) [-0.2; -0.06] [-0.2; -0.06] (Some (-0.5)) (Some (-0.5)) (ResArray [50; 50]%Z) fresh_world) (Shape2 50 50) /\
  raised (measure (cfg demo_src) [-0.2; -0.06] [-0.1; -0.1] (Some (-0.5)) (Some (-0.5)) (ResInt 50) fresh_world) ValueError /\
  returned (measure (cfg quiet_src) [-0.2; -0.06] [-0.1; -0.1] (Some (-0.5)) (Some (-0.5)) (ResInt 50) fresh_world) (Shape1 50) /\
  raised (measure (cfg quiet_src) [-0.2; -0.06] [-0.2; -0.06] None None (ResArray [50; 50]%Z) fresh_world) TypeError.
Proof.
  intros Smp Hs cfg. destruct whole_range as (Ra & Rb). assert (V : sensor_volt (-0.5)) by (unfold sensor_volt; lra).
  assert (L1 : in_range (-0.2, -0.1)) by (unfold in_range; cbn; lra). assert (L2 : in_range (-0.06, -0.1)) by (unfold in_range; cbn; lra).
  split; [|split; [|split]].
  - apply (sampled_generic_ok demo_src demo_src_ok component_label component_labelling relative_tape choose_first relative_ok choose_first_ok centre centre_ok
      gaussian_kernel gaussian_radius x c Smp s _ _ _ _ _ _ _ _ _ Hs Ra Rb V V whole_fits); [intros _; lra|intros E; lra].
  - exact (generic_line1 demo_src component_label relative_tape choose_first centre gaussian_kernel gaussian_radius x c demo_src_ok component_labelling relative_ok choose_first_ok centre_ok Smp
      s (-0.2) (-0.06) (-0.1) _ _ (ResInt 50) 50 fresh_world Hs eq_refl ltac:(lia) ltac:(lra) L1 L2 V V).
  - exact (generic_line1 quiet_src component_label relative_tape choose_first centre gaussian_kernel gaussian_radius x c quiet_src_ok component_labelling relative_ok choose_first_ok centre_ok Smp
      s (-0.2) (-0.06) (-0.1) _ _ (ResInt 50) 50 fresh_world Hs eq_refl ltac:(lia) ltac:(lra) L1 L2 V V).
  - eexists. apply (sampled_without quiet_src component_label relative_tape choose_first relative_ok choose_first_ok centre gaussian_kernel gaussian_radius x c Smp s); assumption.
Qed.

(** What [sampled_scan_exists] returned. *)
Lemma line_valid (src : sources unit) x c s a1 b1 a2 b2 : sc_limits_g1 c = (-0.2, -0.06) -> sc_limits_g2 c = (-0.2, -0.06) ->
  sc_limits_sensor_g1 c = (-1, 0) -> sc_limits_sensor_g2 c = (-1, 0) ->
  -1 <= a1 <= 0 -> -1 <= b1 <= 0 -> -1 <= a2 <= 0 -> -1 <= b2 <= 0 ->
  valid_scan (sampled_scan src component_label centre gaussian_kernel gaussian_radius x c s) [a1; b1] [a2; b2] (Some (-0.1)) (Some (-0.1)) (ResArray [100]%Z).
Proof.
  intros L1 L2 L3 L4 A1 B1 A2 B2.
  constructor; cbn [sampled_scan noisy_scan_config sensor scan_sensor_object so_scan volt_limits_sensor_g1 volt_limits_sensor_g2 volt_limits_g1 volt_limits_g2];
    rewrite ?L1, ?L2, ?L3, ?L4; try reflexivity.
  - apply Forall_cons; [|apply Forall_cons; [|apply Forall_nil]]; cbn; lra.
  - apply Forall_cons; [|apply Forall_cons; [|apply Forall_nil]]; cbn; lra.
  - intros v E. injection E as <-. cbn. lra.
  - intros v E. injection E as <-. cbn. lra.
  - intros l E. injection E as <-. cbn. lia.
  - intros a b E. discriminate E.
Qed.
Lemma scan_runs x c p s : sampled middle (fun a _ g => (a, g)) component_label x c -> sc_sensor c = SampledScan p -> sensor_of p = Ok s ->
  let cfg (src : sources unit) := sampled_scan src component_label centre gaussian_kernel gaussian_radius x c s in
  returned_csd (measure (cfg demo_src) [-0.2; -0.06] [-0.2; -0.06] (Some (-0.5)) (Some (-0.5)) (ResArray [50; 50]%Z) start) (Shape2 50 50) /\
  returned_scan (measure_sensor_scan (cfg demo_src) [-1; 0] [-0.5; -0.5] (Some (-0.1)) (Some (-0.1)) (ResArray [100]%Z) start) (Shape1 100) /\
  raised (measure_sensor_scan (cfg demo_src) [-0.5; -0.5] [-1; 0] (Some (-0.1)) (Some (-0.1)) (ResArray [100]%Z) start) ValueError /\
  returned_scan (measure_sensor_scan (cfg quiet_src) [-0.5; -0.5] [-1; 0] (Some (-0.1)) (Some (-0.1)) (ResArray [100]%Z) start) (Shape1 100).
Proof.
  intros Smp Hs Made cfg. destruct whole_range as (Ra & Rb). assert (V : sensor_volt (-0.5)) by (unfold sensor_volt; lra).
  destruct (sensor_parts p s Made) as (Hd & _).
  assert (Lim : sc_limits_g1 c = (-0.2, -0.06) /\ sc_limits_g2 c = (-0.2, -0.06) /\ sc_limits_sensor_g1 c = (-1, 0) /\ sc_limits_sensor_g2 c = (-1, 0)).
  { pose proof (sampled_fields component_label middle (fun a _ g => (a, g)) middle_ok choose_low centre gaussian_kernel gaussian_radius x c Smp) as H. tauto. }
  destruct Lim as (L1 & L2 & L3 & L4).
  assert (Sc : scannable (Some x) (Some (-0.1)) (Some (-0.1)) (ResArray [100]%Z)).
  { split; [apply Forall_cons; [lia|apply Forall_nil]|]. repeat split; discriminate. }
  assert (Rq : requested (ResArray [100]%Z) (Shape1 100)) by reflexivity.
  assert (D : Rabs (0 - -1) = 1) by (rewrite Rabs_right; lra). assert (Z : Rabs (-0.5 - -0.5) = 0) by (replace (-0.5 - -0.5) with 0 by lra; apply Rabs_R0).
  assert (F1 : fine_scan (-1) 0 (-0.5) (-0.5) (ResArray [100]%Z)).
  { unfold fine_scan. cbn [res_list]. rewrite D, Z. split; [left|]; lra. }
  assert (F2 : fine_scan (-0.5) (-0.5) (-1) 0 (ResArray [100]%Z)).
  { unfold fine_scan. cbn [res_list]. rewrite D, Z. split; [right|]; lra. }
  split; [|split; [|split]].
  - apply (sampled_scan_csd demo_src demo_src_ok component_label component_labelling middle (fun a _ g => (a, g)) middle_ok choose_low centre centre_ok
      gaussian_kernel gaussian_radius x c Smp s _ _ _ _ _ _ _ _ _ Hd Ra Rb V V whole_fits); [intros _; lra|intros E; lra].
  - apply (scan_gate1 demo_src demo_src_ok component_label component_labelling middle (fun a _ g => (a, g)) middle_ok choose_low centre centre_ok
      gaussian_kernel gaussian_radius x c Smp p s Made); auto; [|lra]. apply line_valid; auto; lra.
  - apply (scan_gate2 demo_src demo_src_ok component_label component_labelling middle (fun a _ g => (a, g)) middle_ok choose_low centre centre_ok
      gaussian_kernel gaussian_radius x c Smp p s Made (-0.5) (-1) 0 _ _ (ResArray [100]%Z) 100 start true); auto. apply line_valid; auto; lra.
  - apply (scan_gate2 quiet_src quiet_src_ok component_label component_labelling middle (fun a _ g => (a, g)) middle_ok choose_low centre centre_ok
      gaussian_kernel gaussian_radius x c Smp p s Made (-0.5) (-1) 0 _ _ (ResArray [100]%Z) 100 start false); auto. apply line_valid; auto; lra.
Qed.
