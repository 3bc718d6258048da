(** Concrete sensor scans for examples and counterexamples. *)
From Verif Require Import RPrelude Arr ModelSupport ModelTct ModelCsd ModelDistortions ModelSensor ModelSimulation ModelInstance
  ModelScanInstance SpecCsd SpecSensor SpecSimulation SpecInstance SpecScanInstance ProofsSensor ProofsScanSensor ProofsSensorMore ProofsDriver ProofsLabel ProofsScanInstance ProofsScanCsd ExamplesSensor ExamplesCsd.
Local Open Scope R_scope.

(** One Lorentzian peak of width and height 1 at 0. *)
Definition lorentz_peak : peak := mk_peak 0 (sensor_response_lorentz 1 1 0).
Lemma lorentz_value m mu : peak_fun lorentz_peak m mu = 1 / (1 + (mu - m) ^ 2).
Proof. unfold lorentz_peak, sensor_response_lorentz. cbn [peak_fun]. pose proof (pow2_ge_0 (mu - m)) as H. replace (1 ^ 2) with 1 by ring. field. lra. Qed.
(** Deformed along a line at 45 degrees. *)
Definition bent : scan_sensor := demo 0 [lorentz_peak] [(0%nat, linear_calc_mu (1, 0) (PI / 4))].
Lemma linear_bent d m : linear_calc_mu (1, 0) (PI / 4) d m = m + d.
Proof. unfold linear_calc_mu, norm2. cbn [fst snd]. rewrite tan_PI4. replace (1 ^ 2 + 0 ^ 2) with 1 by ring. rewrite sqrt_1. field. Qed.
Lemma bent_total d mu : deformed_total (deform_of (ss_deform bent)) d [lorentz_peak] mu = 1 / (1 + (mu - d) ^ 2).
Proof.
  unfold deformed_total. cbn [length seq combine map fold_right fst snd bent demo ss_deform deform_of find Nat.eqb option_map].
  rewrite linear_bent, lorentz_value. replace (mu0 lorentz_peak + d) with d by (cbn; ring). ring.
Qed.
Lemma demo_points g ps d o : fst o = snd o -> points_exist (demo g ps d) o.
Proof. intros H. unfold points_exist, barrier_det. cbn [demo ss_sensor ss_dot row1 row2 fst snd]. repeat split; auto; lra. Qed.
Lemma pot_spec_unique s o v w q q' : pot_spec s o v w q -> pot_spec s o v w q' -> q = q'.
Proof. destruct q, q'. intros (A & B & C) (A' & B' & C'). cbn in *. congruence. Qed.
Lemma demo_pot g ps d v w : pot_spec (demo g ps d) (0, 0) v w (mk_three (fst w + g * snd v) (10 + fst w) (10 + snd w)).
Proof. unfold pot_spec, affine_scan, affine. cbn. repeat split; ring. Qed.
Lemma demo_barriers g ps d v b1 b2 w : barriers_at (demo g ps d) (0, 0) v b1 b2 w -> w = (b1 - 10, b2 - 10).
Proof. intros H. destruct (H _ (demo_pot g ps d v w)) as [E1 E2]. cbn in E1, E2. destruct w. cbn in *. f_equal; lra. Qed.
Lemma series_inj x a b : 0 < a -> 0 < b -> series_of x a 1 1 -> series_of x b 1 1 -> a = b.
Proof.
  intros Ha Hb [A _] [B _]. specialize (A ltac:(lra)). specialize (B ltac:(lra)). rewrite A in B.
  apply Rmult_eq_compat_r with (r := (1 * 1 + a * 1 + a * 1) * (1 * 1 + b * 1 + b * 1)) in B. field_simplify in B; lra.
Qed.
Lemma no_limits_valid s n v1 v2 a1 b1 a2 b2 : (v1 = None <-> v2 = None) ->
  valid_scan (scan_config component_label None None None None None s) [a1; b1] [a2; b2] v1 v2 (ResInt n).
Proof. intros H. constructor; cbn; auto; try (intros; exact I); try (intros; discriminate); repeat constructor. Qed.

Lemma first_pixel im a1 b1 a2 b2 n : requested_shape (ResInt n) im -> (2 <= n)%Z ->
  exists x, scan_value im (a1, b1) (a2, b2) (a1, a2) x.
Proof.
  intros H Hn. destruct im as [c|c]; cbn in H; [|discriminate]. injection H as H. exists (cell1 c 0), 0%nat.
  split; [lia|]. split; [|reflexivity]. unfold volt_at. destruct (len1 c =? 1)%nat; cbn [fst snd INR]; f_equal; unfold Rdiv; ring.
Qed.

Lemma bent_witness : exists s ps m st',
  ss_peaks s = Some ps /\ ss_deform s <> [] /\ points_exist s (0, 0) /\
  measure_sensor_scan (scan_config component_label None None None None None s) [0; 0] [0; 3] None None (ResInt 4) None = (Ok m, st') /\
  forall mid, pinch_point s (0, 0) (0, 0) mid ->
    ~ shows s (0, 0) (0, 0) (fun w mu => deformed_total (deform_of (ss_deform s)) (middle_distance (row0 (ss_sensor s)) mid w) ps mu)
        (sc_scan m) (0, 0) (0, 3).
Proof.
  destruct (measured_outcome component_label None None None None None bent [lorentz_peak] 0 0 0 3 None None (ResInt 4) None) as (m & st' & E).
  { apply no_limits_valid. tauto. } { split; [repeat constructor; lia|auto]. } { discriminate. } { reflexivity. } { right. repeat constructor; lia. }
  exists bent, [lorentz_peak], m, st'. split; [reflexivity|]. split; [discriminate|]. split; [apply demo_points; reflexivity|]. split; [exact E|].
  intros mid Hm Sh.
  destruct (measured_deformed component_label None None None None None bent [lorentz_peak] 0 0 0 3 None None (ResInt 4) None m st') as (Rs & o & mid' & full & Ho & Pe & Sh');
    [discriminate|reflexivity|cbn; lra|exact E|].
  cbn in Ho. subst o. destruct (Pe (demo_points _ _ _ (0, 0) eq_refl)) as [Hm' Hf]. cbn [plunger] in *.
  destruct (first_pixel (sc_scan m) 0 0 0 3 4 Rs ltac:(lia)) as (x & Hx).
  destruct (Sh _ _ Hx) as (q & Hq & S1). destruct (Sh' _ _ Hx) as (q' & Hq' & S2).
  rewrite (pot_spec_unique _ _ _ _ _ _ Hq' (demo_pot _ _ _ _ _)) in S2. rewrite (pot_spec_unique _ _ _ _ _ _ Hq (demo_pot _ _ _ _ _)) in S1.
  apply demo_barriers in Hm, Hm', Hf. cbn [bent demo ss_barrier1 ss_barrier2 pinch_off fully_conductive] in Hm, Hm', Hf. subst mid mid' full.
  fold bent in S1, S2. rewrite bent_total in S1, S2.
  assert (D : forall y, middle_distance (row0 (ss_sensor bent)) (0 - 10, 0 - 10) y = - (snd y + 10)).
  { intros y. unfold middle_distance. cbn [bent demo ss_sensor row0 fst snd]. replace (1 ^ 2 + 0 ^ 2) with 1 by ring. rewrite sqrt_1. field. }
  rewrite !D in S1, S2. cbn [fst snd at_sensor at_barrier1 at_barrier2 bent demo ss_barrier1 ss_barrier2 get_value] in S1, S2.
  replace ((0 + 0 * 0 - - (0 + 10)) ^ 2) with 100 in S1 by ring. replace ((0 + 0 * 0 - - (20 - 10 + 10)) ^ 2) with 400 in S2 by ring.
  assert (F : 1 / (1 + 100) = 1 / (1 + 400)) by (apply (series_inj x); [lra|lra|exact S1|exact S2]). lra.
Qed.

(** A final rise without peaks. *)
Definition rising (g : R) : scan_sensor :=
  mk_scan_sensor (mk_barrier 0 20 (fun _ => 1)) (mk_barrier 0 20 (fun _ => 1)) (Some [])
    (mk_rows3 (1, 0) (1, 0) (0, 1)) (mk_rows3 (0, g) (0, 0) (0, 0)) (mk_rows3 (0, 0) (0, 0) (0, 0))
    (mk_three 0 10 10) (Some (fun mu off => exp (mu - off))) [].
Lemma rising_points g o : fst o = snd o -> points_exist (rising g) o.
Proof. intros H. unfold points_exist, barrier_det. cbn [rising ss_sensor ss_dot row1 row2 fst snd]. repeat split; auto; lra. Qed.
Lemma rising_pot g v w : pot_spec (rising g) (0, 0) v w (mk_three (fst w + g * snd v) (10 + fst w) (10 + snd w)).
Proof. unfold pot_spec, affine_scan, affine. cbn. repeat split; ring. Qed.
Lemma rising_barriers g v b1 b2 w : barriers_at (rising g) (0, 0) v b1 b2 w -> w = (b1 - 10, b2 - 10).
Proof. intros H. destruct (H _ (rising_pot g v w)) as [E1 E2]. cbn in E1, E2. destruct w. cbn in *. f_equal; lra. Qed.
Lemma rising_measured v2 : exists m st',
  measure_sensor_scan (scan_config component_label None None None None None (rising 1)) [0; 3] [0; 0] (Some 0) (Some v2) (ResInt 4) None = (Ok m, st').
Proof.
  apply (measured_outcome component_label None None None None None (rising 1) []).
  { apply no_limits_valid. split; discriminate. } { split; [repeat constructor; lia|auto]. } { discriminate. } { reflexivity. } { left. reflexivity. }
Qed.
Lemma rise_witness : exists s rise m st',
  ss_deform s = [] /\ ss_rise s = Some rise /\ points_exist s (0, 0) /\
  measure_sensor_scan (scan_config component_label None None None None None s) [0; 3] [0; 0] (Some 0) (Some 9) (ResInt 4) None = (Ok m, st') /\
  forall full q, full_point s (0, 0) (0, 9) full -> pot_spec s (0, 0) (0, 9) full q ->
    ~ shows s (0, 0) (0, 9) (fun _ mu => Rmax (base_dot s mu) (rise mu (at_sensor q))) (sc_scan m) (0, 3) (0, 0).
Proof.
  destruct (rising_measured 9) as (m & st' & E).
  exists (rising 1), (fun mu off => exp (mu - off)), m, st'. split; [reflexivity|]. split; [reflexivity|]. split; [apply rising_points; reflexivity|]. split; [exact E|].
  intros full q Hf Hq Sh.
  destruct (measured_rise component_label None None None None None (rising 1) (fun mu off => exp (mu - off)) 0 3 0 0 (Some 0) (Some 9) (ResInt 4) None m st' eq_refl eq_refl E)
    as (Rs & o & full' & q' & Ho & Pe & Hq' & Sh').
  cbn in Ho. subst o. pose proof (Pe (rising_points _ (0, 0) eq_refl)) as Hf'. cbn [plunger] in *.
  rewrite (pot_spec_unique _ _ _ _ _ _ Hq (rising_pot _ _ _)) in *. rewrite (pot_spec_unique _ _ _ _ _ _ Hq' (rising_pot _ _ _)) in *.
  apply rising_barriers in Hf, Hf'. subst full full'.
  destruct (first_pixel (sc_scan m) 0 3 0 0 4 Rs ltac:(lia)) as (x & Hx).
  destruct (Sh _ _ Hx) as (r & Hr & S1). destruct (Sh' _ _ Hx) as (r' & Hr' & S2).
  rewrite (pot_spec_unique _ _ _ _ _ _ Hr' (rising_pot _ _ _)) in S2. rewrite (pot_spec_unique _ _ _ _ _ _ Hr (rising_pot _ _ _)) in S1.
  unfold base_dot in S1, S2. cbn [rising ss_peaks ss_barrier1 ss_barrier2 get_value fully_conductive fst snd at_sensor peak_total map fold_right] in S1, S2.
  unfold peak_total in S1, S2. cbn [map fold_right] in S1, S2.
  rewrite Rmax_right in S1 by (left; apply exp_pos). rewrite Rmax_right in S2 by (left; apply exp_pos).
  pose proof (series_inj _ _ _ (exp_pos _) (exp_pos _) S1 S2) as F. apply exp_inv in F. lra.
Qed.

(** The value at the first pixel of a scan over one undeformed peak. *)
Lemma plain_witness : exists m st',
  measure_sensor_scan (scan_config component_label None None None None None (demo 0 [lorentz_peak] [])) [0; 3] [0; 0] None None (ResInt 4) None = (Ok m, st') /\
  scan_value (sc_scan m) (0, 3) (0, 0) (0, 0) (1 / 3).
Proof.
  destruct (measured_outcome component_label None None None None None (demo 0 [lorentz_peak] []) [lorentz_peak] 0 3 0 0 None None (ResInt 4) None) as (m & st' & E).
  { apply no_limits_valid. tauto. } { split; [repeat constructor; lia|auto]. } { discriminate. } { reflexivity. } { left. reflexivity. }
  exists m, st'. split; [exact E|].
  destruct (measured_plain component_label None None None None None (demo 0 [lorentz_peak] []) 0 3 0 0 None None (ResInt 4) None m st' eq_refl eq_refl E) as (Rs & o & Ho & Sh).
  cbn in Ho. subst o. destruct (first_pixel (sc_scan m) 0 3 0 0 4 Rs ltac:(lia)) as (x & Hx). replace (1 / 3) with x; [exact Hx|].
  destruct (Sh _ _ Hx) as (q & Hq & S1). cbn [plunger] in Hq. rewrite (pot_spec_unique _ _ _ _ _ _ Hq (demo_pot _ _ _ _ _)) in S1.
  unfold base_dot in S1. cbn [demo ss_peaks ss_barrier1 ss_barrier2 get_value fst snd at_sensor] in S1. unfold peak_total in S1.
  cbn [map fold_right] in S1. rewrite lorentz_value in S1. replace (1 / (1 + (0 + 0 * 0 - mu0 lorentz_peak) ^ 2) + 0) with 1 in S1 by (cbn [lorentz_peak mu0]; field).
  destruct S1 as [A _]. rewrite A by lra. field.
Qed.

(** ** charge stability diagrams *)
Definition couple_data : geometric := mk_geometric (couple 0) 0 None Sigmoid None.
Lemma couple_data_ok : config_ok component_label couple_data.
Proof. apply couple_config; [lra|discriminate|cbn; lra]. Qed.
Lemma rising_any g o v w : pot_spec (rising g) o v w (mk_three (fst w + g * snd v) (10 + fst w) (10 + snd w)).
Proof. unfold pot_spec, affine_scan, affine. cbn. repeat split; ring. Qed.
Lemma rising_full g o v b1 b2 w : barriers_at (rising g) o v b1 b2 w -> w = (b1 - 10, b2 - 10).
Proof. intros H. destruct (H _ (rising_any g o v w)) as [E1 E2]. cbn in E1, E2. destruct w. cbn in *. f_equal; lra. Qed.
Lemma line_request s a2 b2 v1 v2 : (v1 = None <-> v2 = None) ->
  valid_request (scan_config component_label None None None None (Some couple_data) s) [0; 0] [a2; b2] v1 v2 (ResInt 2).
Proof. intros H. constructor; cbn; auto; try (intros; exact I); try (intros; discriminate); try discriminate; repeat constructor. Qed.

(** a scan along gate 2 *)
Lemma line_measured s a2 b2 : ss_deform s = [] -> exists o1 o2 l1 l2 m st',
  ideal_csd_geometric component_label (couple 0) [0; 0] [a2; b2] (ResInt 2) 0 None Sigmoid None = Ok (Csd1 [o1; o2] [l1; l2]) /\
  measure (scan_config component_label None None None None (Some couple_data) s) [0; 0] [a2; b2] None None (ResInt 2) None = (Ok m, st') /\
  m_occ m = Occ1 (of_list1 (0, 0) [o1; o2]).
Proof.
  intros Hd. destruct (couple_data_ok) as (P & Len & K & Lab & Rest).
  destruct (gamma_known Sigmoid None ltac:(discriminate)) as [gm G].
  destruct (csd_1d component_label (couple 0) 0 0 a2 b2 (ResInt 2) 2 0 None Sigmoid None gm P K G eq_refl) as (occ & lead & E & Lo & Ll & _).
  destruct occ as [|o1 [|o2 [|]]]; try discriminate. destruct lead as [|l1 [|l2 [|]]]; try discriminate.
  destruct (csd_outcome component_label None None None None couple_data s 0 0 a2 b2 None None (ResInt 2) None (Csd1 [o1; o2] [l1; l2])) as (m & st' & M & A).
  { apply line_request. tauto. } { intros [[H _]|[H _]]; apply H; reflexivity. } { repeat constructor; lia. } { exact couple_data_ok. } { exact E. } { left. exact Hd. }
  exists o1, o2, l1, l2, m, st'. split; [exact E|]. split; [exact M|]. cbn [csd_arrays] in A. congruence.
Qed.

Lemma line_values (m : @measurement (option hidden) lead_mask image labels) o1 o2 a2 b2 : same_shape_occ (m_csd m) (m_occ m) -> m_occ m = Occ1 (of_list1 (0, 0) [o1; o2]) ->
  exists y1 y2, csd_value (m_csd m) (m_occ m) (0, 0) (a2, b2) (0, a2) o1 y1 /\ csd_value (m_csd m) (m_occ m) (0, 0) (a2, b2) (0, b2) o2 y2.
Proof.
  intros Sh E. rewrite E in *. destruct (m_csd m) as [c|c]; [|destruct Sh]. exists (cell1 c 0), (cell1 c 1).
  split; [exists 0%nat|exists 1%nat]; (split; [cbn; lia|]); (split; [|split; reflexivity]); unfold volt_at; cbn; f_equal; field.
Qed.

Lemma rising_value m st' a2 b2 v o y :
  measure (scan_config component_label None None None None (Some couple_data) (rising 1)) [0; 0] [a2; b2] None None (ResInt 2) None = (Ok m, st') ->
  csd_value (m_csd m) (m_occ m) (0, 0) (a2, b2) v o y -> series_of y (exp (snd v - (10 + a2))) 1 1.
Proof.
  intros M P.
  destruct (csd_rise component_label None None None None couple_data (rising 1) (fun mu off => exp (mu - off)) 0 0 a2 b2 None None (ResInt 2) None m st'
    (or_introl eq_refl) eq_refl M) as (_ & o1 & pt & q1 & Ho & Hq1 & Hf & Q).
  assert (F : full_point (rising 1) o1 (0, a2) pt).
  { apply Hf; [|left; reflexivity]. unfold points_exist, barrier_det. cbn [rising ss_sensor ss_dot row1 row2 fst snd]. repeat split; auto; lra. }
  apply rising_full in F. subst pt. rewrite (pot_spec_unique _ _ _ _ _ _ Hq1 (rising_any _ _ _ _)) in Q.
  destruct (Q _ _ _ P) as (q & Hq & Sr). rewrite (pot_spec_unique _ _ _ _ _ _ Hq (rising_any _ _ _ _)) in Sr.
  unfold base_dot, peak_total in Sr. cbn [rising ss_peaks ss_barrier1 ss_barrier2 get_value fully_conductive fst snd at_sensor map fold_right plunger] in Sr.
  rewrite Rmax_right in Sr by (left; apply exp_pos). replace (snd v - (10 + a2)) with (0 + 1 * snd v - (20 - 10 + 1 * a2)) by ring. exact Sr.
Qed.

Lemma two_scans : exists s m m' st1 st2 o y y',
  ss_deform s = [] /\
  measure (scan_config component_label None None None None (Some couple_data) s) [0; 0] [0; 3] None None (ResInt 2) None = (Ok m, st1) /\
  measure (scan_config component_label None None None None (Some couple_data) s) [0; 0] [3; 6] None None (ResInt 2) None = (Ok m', st2) /\
  csd_value (m_csd m) (m_occ m) (0, 0) (0, 3) (0, 3) o y /\ csd_value (m_csd m') (m_occ m') (0, 0) (3, 6) (0, 3) o y' /\ y <> y'.
Proof.
  destruct (line_measured (rising 1) 0 3 eq_refl) as (o1 & o2 & l1 & l2 & m & st1 & E & M & A).
  destruct (line_measured (rising 1) 3 6 eq_refl) as (o1' & o2' & l1' & l2' & m' & st2 & E' & M' & A').
  destruct (csd_rise component_label None None None None couple_data (rising 1) (fun mu off => exp (mu - off)) 0 0 0 3 None None (ResInt 2) None m st1
    (or_introl eq_refl) eq_refl M) as (Sh & _).
  destruct (csd_rise component_label None None None None couple_data (rising 1) (fun mu off => exp (mu - off)) 0 0 3 6 None None (ResInt 2) None m' st2
    (or_introl eq_refl) eq_refl M') as (Sh' & _).
  destruct (line_values m o1 o2 0 3 Sh A) as (_ & y & _ & Hy). destruct (line_values m' o1' o2' 3 6 Sh' A') as (y' & _ & Hy' & _).
  assert (o2 = o1').
  { destruct couple_data_ok as (P & Len & K & _).
    apply (line_scans_agree component_label (couple 0) None Sigmoid None 0 0 0 0 3 (ResInt 2) [o1; o2] [l1; l2] 0 0 3 6 (ResInt 2) [o1'; o2'] [l1'; l2'] 2 2 1 0);
      auto; unfold pixel_voltage; cbn; field. }
  subst o1'. exists (rising 1), m, m', st1, st2, o2, y, y'. repeat (split; [assumption || reflexivity|]).
  intros <-. pose proof (rising_value _ _ _ _ _ _ _ M Hy) as S1. pose proof (rising_value _ _ _ _ _ _ _ M' Hy') as S2. cbn [snd] in S1, S2.
  pose proof (series_inj _ _ _ (exp_pos _) (exp_pos _) S1 S2) as F. apply exp_inv in F. lra.
Qed.

(** One peak and no final rise. *)
Definition single (g : R) : scan_sensor :=
  mk_scan_sensor (mk_barrier 0 20 (fun _ => 1)) (mk_barrier 0 20 (fun _ => 1)) (Some [lorentz_peak])
    (mk_rows3 (1, 0) (1, 0) (0, 1)) (mk_rows3 (0, g) (0, 0) (0, 0)) (mk_rows3 (0, 0) (0, 0) (0, 0))
    (mk_three 0 10 10) None [].
Lemma single_any g o v w : pot_spec (single g) o v w (mk_three (fst w + g * snd v) (10 + fst w) (10 + snd w)).
Proof. unfold pot_spec, affine_scan, affine. cbn. repeat split; ring. Qed.
Lemma single_witness : exists m st' o o',
  measure (scan_config component_label None None None None (Some couple_data) (single 1)) [0; 0] [0; 1] None None (ResInt 2) None = (Ok m, st') /\
  csd_value (m_csd m) (m_occ m) (0, 0) (0, 1) (0, 0) o (1 / 3) /\ csd_value (m_csd m) (m_occ m) (0, 0) (0, 1) (0, 1) o' (1 / 4).
Proof.
  destruct (line_measured (single 1) 0 1 eq_refl) as (o1 & o2 & l1 & l2 & m & st' & E & M & A).
  destruct (csd_pixels component_label None None None None couple_data (single 1) 0 0 0 1 None None (ResInt 2) None m st' (or_introl eq_refl) eq_refl M) as (_ & Sh & Q).
  destruct (line_values m o1 o2 0 1 Sh A) as (y1 & y2 & H1 & H2). exists m, st', o1, o2. split; [exact M|].
  assert (V : forall v o y, csd_value (m_csd m) (m_occ m) (0, 0) (0, 1) v o y -> series_of y (1 / (1 + (snd v) ^ 2)) 1 1).
  { intros v o y H. destruct (Q _ _ _ H) as (q & Hq & Sr). rewrite (pot_spec_unique _ _ _ _ _ _ Hq (single_any _ _ _ _)) in Sr.
    unfold base_dot, peak_total in Sr. cbn [single ss_peaks ss_barrier1 ss_barrier2 get_value fst snd at_sensor map fold_right plunger] in Sr.
    rewrite lorentz_value in Sr. replace (1 / (1 + snd v ^ 2)) with (1 / (1 + (0 + 1 * snd v - mu0 lorentz_peak) ^ 2) + 0); [exact Sr|].
    replace (0 + 1 * snd v - mu0 lorentz_peak) with (snd v) by (cbn; ring). ring. }
  destruct (V _ _ _ H1) as [B1 _]. destruct (V _ _ _ H2) as [B2 _]. cbn [snd] in B1, B2.
  split; [replace (1 / 3) with y1; [exact H1|]; rewrite B1; [field|lra]|replace (1 / 4) with y2; [exact H2|]; rewrite B2; [field|lra]].
Qed.
