(** SensorScanSensorGeneric in another unit and with another zero of the voltages: measurements. *)
From Coq Require Import FunctionalExtensionality.
From Verif Require Import RPrelude Arr ModelSupport ModelTct ModelCsd ModelDistortions ModelSensor ModelSimulation ModelInstance ModelScanInstance
  SpecTct SpecCsd SpecSimilar SpecSimilarScan ProofsSimilar ProofsSimilar2 ProofsSimilar3 ProofsSimilarScan.
Local Open Scope R_scope.

Lemma joined_split p : joined (PotMany (split_potentials p)) = Ok p.
Proof.
  destruct p as [a|a]; cbn [joined split_potentials join_potentials]; unfold raise_if.
  - cbn [amap1 len1 cell1]. rewrite !Nat.eqb_refl. cbn [andb negb]. do 2 f_equal. destruct a as [n f]. cbn [len1 cell1]. f_equal. apply functional_extensionality. intros i. destruct (f i); reflexivity.
  - cbn [amap2 rows cols cell]. rewrite !Nat.eqb_refl. cbn [andb negb]. do 2 f_equal. destruct a as [n m f]. cbn [rows cols cell]. f_equal.
    apply functional_extensionality. intros i. apply functional_extensionality. intros j. destruct (f i j); reflexivity.
Qed.

Section Main.
Variables (k : R) (t u : point) (s : scan_sensor) (label : arr2 nat -> arr2 nat).
Hypothesis Hk : 0 < k.
Hypothesis Hc : clear_lever_arms k s.
Notation s' := (stretch_scan k t u s).
Notation SH := (stretch_hidden k t u).
Notation gl1 := (stretch_lims k (fst t)).
Notation gl2 := (stretch_lims k (snd t)).
Notation ql1 := (stretch_lims k (fst u)).
Notation ql2 := (stretch_lims k (snd u)).
Notation W := (option hidden).
Notation mv := (fun r => (fst r, option_map SH (snd r))).

Lemma data_stretch x l1 l2 res (w w' : W) : convertible k x ->
  get_csd_data label (stretch_csd k t x) (gl1 l1) (gl2 l2) res w' = (fst (get_csd_data label x l1 l2 res w), w').
Proof.
  intros [Hb HV]. unfold get_csd_data. cbn [fst snd stretch_csd g_tcts g_rotation g_lut g_cdf g_gamma]. f_equal.
  pose proof (csd_stretch k t (g_rotation x) Hk label (g_tcts x) [fst l1; snd l1] [fst l2; snd l2] res (g_lut x) (g_cdf x) (g_gamma x) Hb) as E. cbn [map] in E.
  unfold stretch_lims. cbn [fst snd]. rewrite E; [reflexivity|]. intros g Eg. destruct HV as [K1|[HA V]].
  - rewrite K1. intros r l0 l3 ps _. apply widths_one.
  - apply visible_widths; auto.
Qed.
Lemma data_world x l1 l2 res (w : W) : get_csd_data label x l1 l2 res w = (fst (get_csd_data label x l1 l2 res w), w).
Proof. reflexivity. Qed.

Lemma volt_kept e v : zero_kept e v -> kept e (volt_arg v).
Proof. intros Z E. apply Z. destruct v; [discriminate|reflexivity]. Qed.
Lemma volt_stretch e v : volt_arg (option_map (stretch k e) v) = stretch_volts k e (volt_arg v).
Proof. destruct v; reflexivity. Qed.
Lemma sweep_arg_stretch e l : sweep_arg (stretch_lims k e l) = stretch_volts k e (sweep_arg l).
Proof. reflexivity. Qed.

Lemma plunger_stretch e l v : plunger_volt_outside (option_map (stretch_lims k e) l) (option_map (stretch k e) v) = plunger_volt_outside l v.
Proof. destruct l as [[lo hi]|], v as [x|]; try reflexivity. cbn. rewrite !(stretch_lt k Hk). reflexivity. Qed.
Lemma sensor_stretch e l v : sensor_volt_outside (option_map (stretch_lims k e) l) (option_map (stretch k e) v) = sensor_volt_outside l v.
Proof. destruct l as [[lo hi]|], v as [x|]; try reflexivity. cbn. rewrite !(stretch_lt k Hk). reflexivity. Qed.
Lemma none_stretch e (v : option R) : is_none (option_map (stretch k e) v) = is_none v.
Proof. destruct v; reflexivity. Qed.
Lemma fixed_stretch e l : ModelSimulation.fixed_range (stretch_lims k e l) = ModelSimulation.fixed_range l.
Proof. apply (stretch_eq k Hk). Qed.

Lemma bind_ok {A B} (m : action W A) (f : A -> action W B) w a w1 : m w = (Ok a, w1) -> mbind m f w = f a w1.
Proof. intros E. unfold mbind. rewrite E. reflexivity. Qed.
Lemma bind_err {A B} (m : action W A) (f : A -> action W B) w e w1 : m w = (Err e, w1) -> mbind m f w = (Err e, w1).
Proof. intros E. unfold mbind. rewrite E. reflexivity. Qed.

(** ** Sensor scans *)
Lemma sensor_scan_stretch lim1 lim2 lims1 lims2 x r1 r2 v1 v2 res (w : W) :
  fst t = snd t -> zero_kept (fst t) v1 -> zero_kept (snd t) v2 -> (forall y, x = Some y -> convertible k y) ->
  same_scan k t u
    (measure_sensor_scan (scan_config label (option_map gl1 lim1) (option_map gl2 lim2) (option_map ql1 lims1) (option_map ql2 lims2)
       (option_map (stretch_csd k t) x) s') (map (stretch k (fst u)) r1) (map (stretch k (snd u)) r2)
       (option_map (stretch k (fst t)) v1) (option_map (stretch k (snd t)) v2) res (option_map SH w))
    (measure_sensor_scan (scan_config label lim1 lim2 lims1 lims2 x s) r1 r2 v1 v2 res w).
Proof.
  intros T Z1 Z2 HX. unfold measure_sensor_scan, check_sensor_scan. cbn [scan_config sensor scan_object so_scan negb volt_limits_g1 volt_limits_g2 volt_limits_sensor_g1 volt_limits_sensor_g2]. unfold raise_if at 1 7.
  destruct r1 as [|a1 [|b1 [|? ?]]]; try (split; reflexivity). destruct r2 as [|a2 [|b2 [|? ?]]]; try (split; reflexivity). cbn [map].
  change (stretch k (fst u) a1, stretch k (fst u) b1) with (ql1 (a1, b1)). change (stretch k (snd u) a2, stretch k (snd u) b2) with (ql2 (a2, b2)). set (l1 := (a1, b1)). set (l2 := (a2, b2)).
  rewrite !(outside_stretch k Hk), !fixed_stretch, !plunger_stretch, !none_stretch. unfold raise_if.
  destruct (_ || _); [split; reflexivity|]. destruct (_ && _); [split; reflexivity|]. destruct (_ || _); [split; reflexivity|]. destruct (xorb _ _); [split; reflexivity|].
  destruct (too_long res); [split; reflexivity|]. destruct (_ && _); [split; reflexivity|].
  assert (O : scan_occupations (scan_config label (option_map gl1 lim1) (option_map gl2 lim2) (option_map ql1 lims1) (option_map ql2 lims2) (option_map (stretch_csd k t) x) s')
      (option_map (stretch k (fst t)) v1) (option_map (stretch k (snd t)) v2) res (option_map SH w) = mv (scan_occupations (scan_config label lim1 lim2 lims1 lims2 x s) v1 v2 res w)).
  { unfold scan_occupations. cbn [scan_config ideal_csd_config]. destruct x as [y|], v1 as [x1|], v2 as [x2|]; try reflexivity. cbn [option_map].
    unfold mbind. change (stretch k (fst t) x1, stretch k (fst t) x1) with (gl1 (x1, x1)). change (stretch k (snd t) x2, stretch k (snd t) x2) with (gl2 (x2, x2)).
    rewrite (data_stretch y (x1, x1) (x2, x2) (ResInt 1) w (option_map SH w) (HX y eq_refl)), (data_world y _ _ _ w).
    destruct (fst (get_csd_data label y (x1, x1) (x2, x2) (ResInt 1) w)) as [d|e]; [|reflexivity]. destruct res; reflexivity. }
  unfold mbind at 1 8. rewrite O. destruct (scan_occupations _ v1 v2 res w) as [[[occ res']|e] w1]; cbn [fst snd]; [|split; reflexivity].
  rewrite !volt_stretch, !sweep_arg_stretch. cbn [scan_config sensor sensor_potential_distortions].
  pose proof (scan_potential_stretch k t u s Hk occ (volt_arg v1) (volt_arg v2) (sweep_arg l1) (sweep_arg l2) (volt_kept _ _ Z1) (volt_kept _ _ Z2) ltac:(discriminate) ltac:(discriminate)) as P.
  destruct (scan_potential s occ (volt_arg v1) (volt_arg v2) (sweep_arg l1) (sweep_arg l2)) as [[p h]|e] eqn:EP; cbn [rmap fst snd] in P.
  2:{ rewrite (bind_err _ _ _ e (option_map SH w1)) by (cbn [scan_object so_potential]; rewrite P; reflexivity).
      rewrite (bind_err _ _ _ e w1) by (cbn [scan_object so_potential]; rewrite EP; reflexivity). split; reflexivity. }
  do 2 rewrite (bind_ok (so_potential (scan_object s') _ _ _ _) _ _ (PotMany (split_potentials p)) (Some (SH h))) by (cbn [scan_object so_potential]; rewrite P; reflexivity).
  do 2 rewrite (bind_ok (so_potential (scan_object s) _ _ _ _) _ _ (PotMany (split_potentials p)) (Some h)) by (cbn [scan_object so_potential]; rewrite EP; reflexivity).
  pose proof (labels_stretch k t u s Hk Hc h (volt_arg v1) (volt_arg v2) (sweep_arg l1) (sweep_arg l2) p T (volt_kept _ _ Z1)) as PL.
  destruct (get_sensor_scan_labels s h (volt_arg v1) (volt_arg v2) (sweep_arg l1) (sweep_arg l2) p) as [[L h1]|e] eqn:EL; cbn [rmap fst snd] in PL.
  2:{ rewrite (bind_err _ _ _ e (Some (SH h))) by (cbn [scan_object so_labels]; rewrite joined_split; cbn [bind]; rewrite PL; reflexivity).
      rewrite (bind_err _ _ _ e (Some h)) by (cbn [scan_object so_labels]; rewrite joined_split; cbn [bind]; rewrite EL; reflexivity). split; reflexivity. }
  rewrite (bind_ok (so_labels (scan_object s') _ _ _ _ _) _ _ L (Some (SH h1))) by (cbn [scan_object so_labels]; rewrite joined_split; cbn [bind]; rewrite PL; reflexivity).
  rewrite (bind_ok (so_labels (scan_object s) _ _ _ _ _) _ _ L (Some h1)) by (cbn [scan_object so_labels]; rewrite joined_split; cbn [bind]; rewrite EL; reflexivity).
  assert (DP : forall l l' (st : W), distort_potential None l l' occ (PotMany (split_potentials p)) st = (Ok (PotMany (split_potentials p)), st)).
  { intros l l' st. unfold scan_potential in EP. destruct occ; [| |discriminate]; reflexivity. }
  rewrite (bind_ok _ _ _ _ _ (DP (ql1 l1) (ql2 l2) (Some (SH h1)))), (bind_ok _ _ _ _ _ (DP l1 l2 (Some h1))).
  assert (SW : equal_ends (h_g1 h1) || equal_ends (h_g2 h1) = true).
  { unfold get_sensor_scan_labels in EL. destruct (first_occ (h_occ h)) as [o|]; [|discriminate]. cbn [bind] in EL. unfold raise_if in EL. destruct (negb _); [discriminate|].
    destruct (calc_point s h _ _ true) as [pt|]; [|discriminate]. cbn [bind] in EL. destruct (scan_potential s (Occ1 _) _ _ _ _) as [[p3 h3]|] eqn:E3; [|discriminate]. cbn [bind fst snd] in EL.
    assert (H3 : h_g1 h3 = as_limits (volt_arg v1)).
    { unfold scan_potential, raise_if in E3. destruct (_ && _); [discriminate|]. cbn [len1] in E3. cbn [Nat.eqb] in E3. cbv zeta in E3. injection E3 as _ <-. reflexivity. }
    assert (H1 : h1 = h3).
    { destruct p3; [|discriminate]. cbn [bind] in EL. destruct (subscript _); [|discriminate]. destruct (subscript _); [|discriminate]. cbn [bind] in EL.
      destruct (if (length (ss_deform s) =? 0)%nat then _ else _); [|discriminate]. cbn [bind] in EL. destruct (ss_peaks s); [|discriminate]. destruct (foldM _ _ _); [|discriminate]. injection EL as _ <-. reflexivity. }
    rewrite H1, H3. unfold equal_ends. destruct v1; cbn; rewrite Reqb_true; reflexivity. }
  pose proof (scan_response_stretch k t u s Hk Hc h1 p (or_introl SW)) as PR.
  destruct (scan_response s h1 p) as [[[im ps] h2]|e] eqn:ER; cbn [rmap fst snd] in PR.
  2:{ rewrite (bind_err _ _ _ e (Some (SH h1))) by (cbn [scan_object so_response]; rewrite joined_split; cbn [bind]; rewrite PR; reflexivity).
      rewrite (bind_err _ _ _ e (Some h1)) by (cbn [scan_object so_response]; rewrite joined_split; cbn [bind]; rewrite ER; reflexivity). split; reflexivity. }
  rewrite (bind_ok (so_response (scan_object s') _) _ _ im (Some (SH h2))) by (cbn [scan_object so_response]; rewrite joined_split; cbn [bind]; rewrite PR; reflexivity).
  rewrite (bind_ok (so_response (scan_object s) _) _ _ im (Some h2)) by (cbn [scan_object so_response]; rewrite joined_split; cbn [bind]; rewrite ER; reflexivity).
  split; [reflexivity|]. split; reflexivity.
Qed.

(** ** Charge stability diagrams *)
Lemma scan_measure_stretch lim1 lim2 lims1 lims2 x r1 r2 v1 v2 res (w : W) :
  (t = (0, 0) /\ u = (0, 0) \/ ss_rise s = None) -> zero_kept (fst u) v1 -> zero_kept (snd u) v2 -> (forall y, x = Some y -> convertible k y) ->
  same_csd k t u
    (measure (scan_config label (option_map gl1 lim1) (option_map gl2 lim2) (option_map ql1 lims1) (option_map ql2 lims2)
       (option_map (stretch_csd k t) x) s') (map (stretch k (fst t)) r1) (map (stretch k (snd t)) r2)
       (option_map (stretch k (fst u)) v1) (option_map (stretch k (snd u)) v2) res (option_map SH w))
    (measure (scan_config label lim1 lim2 lims1 lims2 x s) r1 r2 v1 v2 res w).
Proof.
  intros T Z1 Z2 HX. unfold measure, check_measure. cbn [scan_config sensor scan_object so_scan negb ideal_csd_config volt_limits_g1 volt_limits_g2 volt_limits_sensor_g1 volt_limits_sensor_g2].
  destruct x as [y|]; cbn [option_map]; [|split; reflexivity].
  destruct r1 as [|a1 [|b1 [|? ?]]]; try (split; reflexivity). destruct r2 as [|a2 [|b2 [|? ?]]]; try (split; reflexivity). cbn [map].
  change (stretch k (fst t) a1, stretch k (fst t) b1) with (gl1 (a1, b1)). change (stretch k (snd t) a2, stretch k (snd t) b2) with (gl2 (a2, b2)). set (l1 := (a1, b1)). set (l2 := (a2, b2)).
  rewrite !(outside_stretch k Hk), !fixed_stretch, !sensor_stretch, !none_stretch. unfold raise_if.
  destruct (_ || _); [split; reflexivity|]. destruct (sensor_volt_outside lims1 v1) as [[]|]; cbn [bind]; try (split; reflexivity).
  destruct (sensor_volt_outside lims2 v2) as [[]|]; cbn [bind]; try (split; reflexivity). destruct (xorb _ _); [split; reflexivity|].
  destruct (too_long res); [split; reflexivity|]. destruct (_ && _); [split; reflexivity|]. destruct (_ && _); [split; reflexivity|].
  pose proof (data_stretch y l1 l2 res w (option_map SH w) (HX y eq_refl)) as D. pose proof (data_world y l1 l2 res w) as D0.
  destruct (fst (get_csd_data label y l1 l2 res w)) as [[occ lead]|e].
  2:{ rewrite (bind_err _ _ _ _ _ D), (bind_err _ _ _ _ _ D0). split; reflexivity. }
  rewrite (bind_ok _ _ _ _ _ D), (bind_ok _ _ _ _ _ D0). cbn [scan_config occupation_distortions sensor sensor_potential_distortions sensor_response_distortions opt_list occupation_loop].
  rewrite (bind_ok (ret (occ, lead)) _ _ _ _ eq_refl), (bind_ok (ret (occ, lead)) _ _ _ _ eq_refl). cbn [fst snd scan_object so_scan].
  rewrite !volt_stretch, !sweep_arg_stretch.
  pose proof (scan_potential_stretch k t u s Hk occ (sweep_arg l1) (sweep_arg l2) (volt_arg v1) (volt_arg v2) ltac:(discriminate) ltac:(discriminate) (volt_kept _ _ Z1) (volt_kept _ _ Z2)) as P.
  destruct (scan_potential s occ (sweep_arg l1) (sweep_arg l2) (volt_arg v1) (volt_arg v2)) as [[p h]|e] eqn:EP; cbn [rmap fst snd] in P.
  2:{ rewrite (bind_err _ _ _ e (option_map SH w)) by (cbn [scan_object so_potential]; rewrite P; reflexivity).
      rewrite (bind_err _ _ _ e w) by (cbn [scan_object so_potential]; rewrite EP; reflexivity). split; reflexivity. }
  rewrite (bind_ok (so_potential (scan_object s') _ _ _ _) _ _ (PotMany (split_potentials p)) (Some (SH h))) by (cbn [scan_object so_potential]; rewrite P; reflexivity).
  rewrite (bind_ok (so_potential (scan_object s) _ _ _ _) _ _ (PotMany (split_potentials p)) (Some h)) by (cbn [scan_object so_potential]; rewrite EP; reflexivity).
  assert (DP : forall l l' (st : W), distort_potential None l l' occ (PotMany (split_potentials p)) st = (Ok (PotMany (split_potentials p)), st)).
  { intros l l' st. unfold scan_potential in EP. destruct occ; [| |discriminate]; reflexivity. }
  rewrite (bind_ok _ _ _ _ _ (DP (gl1 l1) (gl2 l2) (Some (SH h)))), (bind_ok _ _ _ _ _ (DP l1 l2 (Some h))).
  pose proof (scan_response_stretch k t u s Hk Hc h p (or_intror T)) as PR.
  destruct (scan_response s h p) as [[[im ps] h2]|e] eqn:ER; cbn [rmap fst snd] in PR.
  2:{ rewrite (bind_err _ _ _ e (Some (SH h))) by (cbn [scan_object so_response]; rewrite joined_split; cbn [bind]; rewrite PR; reflexivity).
      rewrite (bind_err _ _ _ e (Some h)) by (cbn [scan_object so_response]; rewrite joined_split; cbn [bind]; rewrite ER; reflexivity). split; reflexivity. }
  rewrite (bind_ok (so_response (scan_object s') _) _ _ im (Some (SH h2))) by (cbn [scan_object so_response]; rewrite joined_split; cbn [bind]; rewrite PR; reflexivity).
  rewrite (bind_ok (so_response (scan_object s) _) _ _ im (Some h2)) by (cbn [scan_object so_response]; rewrite joined_split; cbn [bind]; rewrite ER; reflexivity).
  split; [reflexivity|]. repeat split; reflexivity.
Qed.
End Main.
