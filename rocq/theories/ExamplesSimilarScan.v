(** Examples: what depends on the zero of the voltages. *)
From Verif Require Import RPrelude Arr ModelSupport ModelTct ModelCsd ModelDistortions ModelSensor ModelSimulation ModelInstance ModelScanInstance
  SpecSupport SpecTct SpecCsd SpecSensor SpecSimulation SpecInstance SpecScanInstance SpecSimilar SpecSimilarScan ModelScanNoise ProofsScanNoise4 ProofsLabel ProofsCsd ProofsDriver ProofsScanInstance ProofsSimilarScan2
  ExamplesCsd ExamplesScanInstance ExamplesSimilar.
Local Open Scope R_scope.

(** ** Sensor scans: the zero of plunger gate 2 shifted by 9 *)
Lemma shifted_measured : exists m st',
  measure_sensor_scan (scan_config component_label None None None None None (stretch_scan 1 (0, 9) (0, 0) (rising 1))) [0; 3] [0; 0] (Some 0) (Some 9) (ResInt 4) None = (Ok m, st').
Proof.
  apply (measured_outcome component_label None None None None None _ []).
  { apply no_limits_valid. split; discriminate. } { split; [repeat constructor; lia|auto]. } { discriminate. } { reflexivity. } { left. reflexivity. }
Qed.
Lemma shifted_pot v w : pot_spec (stretch_scan 1 (0, 9) (0, 0) (rising 1)) (0, 0) v w (mk_three (fst w + snd v - 9) (10 + fst w) (10 + snd w)).
Proof. unfold pot_spec, affine_scan, affine. cbn. repeat split; unfold lost; cbn; field. Qed.
Lemma zero_plunger : exists m n st1 st2,
  measure_sensor_scan (scan_config component_label None None None None None (stretch_scan 1 (0, 9) (0, 0) (rising 1)))
    (map (stretch 1 0) [0; 3]) (map (stretch 1 0) [0; 0]) (Some (stretch 1 0 0)) (Some (stretch 1 9 0)) (ResInt 4) None = (Ok m, st1) /\
  measure_sensor_scan (scan_config component_label None None None None None (rising 1)) [0; 3] [0; 0] (Some 0) (Some 0) (ResInt 4) None = (Ok n, st2) /\
  sc_scan m <> sc_scan n.
Proof.
  destruct (rising_measured 0) as (n & st2 & E2). destruct shifted_measured as (m & st1 & E1). exists m, n, st1, st2.
  split. { rewrite <- E1. cbn [map]. unfold stretch. do 2 f_equal; repeat (f_equal; try ring). }
  split; [exact E2|]. intros EQ.
  destruct (measured_rise component_label None None None None None (rising 1) (fun mu off => exp (mu - off)) 0 3 0 0 (Some 0) (Some 0) (ResInt 4) None n st2 eq_refl eq_refl E2)
    as (Rs & o & full & q & Ho & Pe & Hq & Sh).
  destruct (measured_rise component_label None None None None None (stretch_scan 1 (0, 9) (0, 0) (rising 1)) (fun mu off => exp (mu - off)) 0 3 0 0 (Some 0) (Some 9) (ResInt 4) None m st1 eq_refl eq_refl E1)
    as (Rs' & o' & full' & q' & Ho' & Pe' & Hq' & Sh').
  cbn in Ho, Ho'. subst o o'. cbn [plunger] in *. pose proof (Pe (rising_points _ (0, 0) eq_refl)) as Hf.
  assert (Px : points_exist (stretch_scan 1 (0, 9) (0, 0) (rising 1)) (0, 0)).
  { unfold points_exist, barrier_det. cbn [stretch_scan divide_rows rising ss_sensor ss_dot row1 row2 fst snd]. unfold Rdiv. rewrite Rinv_1. repeat split; auto; lra. }
  pose proof (Pe' Px) as Hf'. destruct (Hf' _ (shifted_pot _ _)) as [F1 F2]. apply rising_barriers in Hf. subst full.
  rewrite (pot_spec_unique _ _ _ _ _ _ Hq (rising_pot _ _ _)) in *. rewrite (pot_spec_unique _ _ _ _ _ _ Hq' (shifted_pot _ _)) in *.
  cbn [at_barrier1 at_barrier2 stretch_scan rising ss_barrier1 ss_barrier2 fully_conductive] in F1, F2. rewrite EQ in *.
  destruct (first_pixel (sc_scan n) 0 3 0 0 4 Rs ltac:(lia)) as (x & Hx). destruct (Sh _ _ Hx) as (r & Hr & S1). destruct (Sh' _ _ Hx) as (r' & Hr' & S2).
  rewrite (pot_spec_unique _ _ _ _ _ _ Hr' (shifted_pot _ _)) in S2. rewrite (pot_spec_unique _ _ _ _ _ _ Hr (rising_pot _ _ _)) in S1.
  unfold base_dot, peak_total in S1, S2. cbn [stretch_scan rising ss_peaks ss_barrier1 ss_barrier2 get_value fully_conductive fst snd at_sensor map fold_right] in S1, S2.
  rewrite Rmax_right in S1 by (left; apply exp_pos). rewrite Rmax_right in S2 by (left; apply exp_pos).
  pose proof (series_inj _ _ _ (exp_pos _) (exp_pos _) S1 S2) as F. apply exp_inv in F. cbn [fst snd] in F. lra.
Qed.

(** ** Diagrams with a final rise: the zeros of both sensor gates shifted by 1 *)
Definition risen (b : R) : scan_sensor :=
  mk_scan_sensor (mk_barrier 0 0 (fun _ => 1)) (mk_barrier 0 0 (fun _ => 1)) (Some [])
    (mk_rows3 (1, 0) (1, 0) (0, 1)) (mk_rows3 (0, 0) (0, 0) (0, 0)) (mk_rows3 (0, 0) (0, 0) (0, 0)) (mk_three b b b) (Some (fun _ off => exp off)) [].
Lemma risen_clear b : clear_lever_arms 1 (risen b).
Proof. unfold clear_lever_arms. cbn. split; [lra|]. split; [left; reflexivity|]. intros []. reflexivity. Qed.
Lemma risen_shift : stretch_scan 1 (0, 0) (1, 1) (risen 0) = risen (-1).
Proof. unfold stretch_scan, divide_rows, lost, risen. cbn. unfold Rdiv. rewrite Rinv_1. repeat f_equal; ring. Qed.
Lemma risen_csd b v o1 o2 lead :
  ideal_csd_geometric component_label (couple 0) [0; 1] [0; 1] (ResInt 2) 0 None Sigmoid None = Ok (Csd1 [o1; o2] lead) ->
  exists m st, measure (scan_config component_label None None None None (Some couple_data) (risen b)) [0; 1] [0; 1] (Some v) (Some v) (ResInt 2) None = (Ok m, st) /\
    exists c, m_csd m = Img1 c /\ cell1 c 0 = exp (- v) / (1 + exp (- v) + exp (- v)).
Proof.
  intros E. unfold measure, check_measure. cbn [scan_config ideal_csd_config option_map volt_limits_g1 volt_limits_g2 volt_limits_sensor_g1 volt_limits_sensor_g2 range_outside orb].
  unfold raise_if. cbn [sensor_volt_outside bind is_none xorb too_long is_2d andb].
  unfold mbind at 1. unfold get_csd_data. cbn [couple_data g_tcts g_rotation g_lut g_cdf g_gamma fst snd]. rewrite E. cbn [bind csd_arrays fst snd].
  cbn [scan_config sensor occupation_distortions opt_list occupation_loop scan_object so_potential so_scan so_response sensor_potential_distortions sensor_response_distortions].
  unfold mbind, ret. cbn [fst snd sweep_arg volt_arg]. unfold scan_potential. cbn [is_sweep orb andb as_limits h_g1 h_g2 h_s1 h_s2]. unfold raise_if. cbn [len1 of_list1 length Nat.eqb].
  rewrite andb_false_r. cbn [distort_potential images_loop image_loop opt_list fst snd]. unfold mbind, ret. rewrite joined_split. cbn [bind sweep_arg as_limits fst snd].
  set (h := mk_hidden _ _ _ _ _). set (q := fun i : nat => pixel_potential _ _ _ _). set (p := Pot1 _).
  assert (C : calc_point (risen b) h 0 0 false = Ok (- v - b, - v - b)).
  { unfold calc_point. change (first_occ (h_occ h)) with (Ok o1). cbn [bind]. cbn [risen ss_sensor ss_dot ss_offset row1 row2 fst snd at_barrier1 at_barrier2 h_s1].
    rewrite Rabs_R0, Rltb_true by lra. unfold dot2. cbn [h h_s1 fst snd]. f_equal. f_equal; field. }
  assert (RS : exists h', scan_response (risen b) h p = Ok (Img1 (mk_arr1 2 (fun i => nth i [series (exp (- v)) 1 1; series (exp (- v)) 1 1] 0)), Some [], h')).
  { unfold scan_response, dot_response. cbn [risen ss_deform length Nat.eqb negb andb ss_rise ss_barrier1 ss_barrier2 fully_conductive ss_peaks]. fold (risen b).
    replace (equal_ends (h_g1 h) || equal_ends (h_g2 h)) with false by (unfold equal_ends; cbn; rewrite Reqb_false by lra; reflexivity). rewrite C.
    assert (FO : exists o, first_occ (h_occ h) = Ok o) by (eexists; reflexivity). destruct FO as [o ->]. cbn [bind fst snd]. unfold scan_potential. cbn [is_sweep orb andb len1 Nat.eqb as_limits]. unfold raise_if.
    cbn [bind fst snd]. eexists. cbn [p pot_list to_list1 len1 seq map combine length Nat.eqb fst snd cell1]. unfold reshape. cbn [len1].
    unfold pixel_potential at 1 2. cbn [risen ss_dot ss_gate ss_sensor ss_offset row0 at_sensor]. unfold volts1, dot2. cbn [fst snd h_g1 h_g2 h_s1 h_s2].
    unfold sum_peaks. cbn [map Rsum p get_value len1].
    match goal with |- context[exp ?e] => replace e with (- v) by (unfold grid; cbn [fst snd]; unfold Rdiv; ring) end.
    change (Rsum []) with 0. rewrite Rmax_right by (left; apply exp_pos). reflexivity. }
  destruct RS as [h' ->]. do 2 eexists. split; [reflexivity|]. cbn [m_csd]. eexists. split; [reflexivity|]. cbn [cell1 nth]. unfold series.
  pose proof (exp_pos (- v)) as P. rewrite Reqb_false by lra. field. lra.
Qed.

Lemma diagonal : exists o1 o2 lead, ideal_csd_geometric component_label (couple 0) [0; 1] [0; 1] (ResInt 2) 0 None Sigmoid None = Ok (Csd1 [o1; o2] lead).
Proof.
  destruct couple_data_ok as (P & Len & K & Lab & Rest). destruct (gamma_known Sigmoid None ltac:(discriminate)) as [gm G].
  destruct (csd_1d component_label (couple 0) 0 1 0 1 (ResInt 2) 2 0 None Sigmoid None gm P K G eq_refl) as (occ & lead & E & Lo & Ll & _).
  destruct occ as [|o1 [|o2 [|]]]; try discriminate. eauto.
Qed.
Lemma zero_sensor : exists m n st1 st2,
  measure (scan_config component_label None None None None (Some couple_data) (stretch_scan 1 (0, 0) (1, 1) (risen 0)))
    [0; 1] [0; 1] (Some (stretch 1 1 0)) (Some (stretch 1 1 0)) (ResInt 2) None = (Ok m, st1) /\
  measure (scan_config component_label None None None None (Some couple_data) (risen 0)) [0; 1] [0; 1] (Some 0) (Some 0) (ResInt 2) None = (Ok n, st2) /\
  m_csd m <> m_csd n.
Proof.
  destruct diagonal as (o1 & o2 & lead & E). rewrite risen_shift. replace (stretch 1 1 0) with 1 by (unfold stretch; ring).
  destruct (risen_csd (-1) 1 o1 o2 lead E) as (m & st1 & E1 & c & C1 & V1). destruct (risen_csd 0 0 o1 o2 lead E) as (n & st2 & E2 & d & C2 & V2).
  exists m, n, st1, st2. split; [exact E1|]. split; [exact E2|]. rewrite C1, C2. intros EQ. injection EQ as EQ. subst d. rewrite V1 in V2.
  replace (- 0) with 0 in V2 by ring. rewrite exp_0 in V2. pose proof (exp_pos (Ropp 1)) as P. set (e := exp (Ropp 1)) in *.
  assert (e = 1). { apply (f_equal (fun z => z * (1 + e + e) * 3)) in V2. field_simplify in V2; lra. }
  assert (L : exp (Ropp 1) < exp 0) by (apply exp_increasing; lra). rewrite exp_0 in L. fold e in L. lra.
Qed.

(** The default sensor, volts to millivolts. *)
Lemma default_clear s : default_sensor_v2 = Ok s -> clear_lever_arms 1000 s.
Proof.
  unfold default_sensor_v2, barrier_glf, raise_if. rewrite !Rleb_false by (cbn [asymmetry default_barrier1 default_barrier2]; lra). cbn [bind].
  destruct default_peaks_made as [ps ->]. cbn [bind set_alpha_sensor set_alpha]. intros E. injection E as <-. unfold clear_lever_arms. cbn [ss_sensor row0 row1 row2 ss_deform fst snd].
  split; [lra|]. split; [|intros []; reflexivity]. right. rewrite !Rabs_pos_eq by lra. lra.
Qed.
Lemma rising_clear : clear_lever_arms 1 (rising 1).
Proof. unfold clear_lever_arms. cbn. split; [lra|]. split; [left; reflexivity|]. intros []. reflexivity. Qed.
Lemma couple_convertible : convertible 1 couple_data.
Proof. split; [exact (couple_bent 0)|left; reflexivity]. Qed.
