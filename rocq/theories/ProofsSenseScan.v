(** Proofs about charge sensing with the sensor for sensor scans. *)
From Verif Require Import RPrelude Arr ModelSupport ModelTct ModelCsd ModelDistortions ModelSensor ModelSimulation ModelInstance ModelScanInstance ModelSampling ModelConfig ModelConfigCsd ModelSampledSim ModelDefault
  ModelNoise ModelDefaultNoise ModelScanNoise SpecSupport SpecTct SpecCsd SpecSensor SpecInstance SpecScanInstance SpecSampling SpecConfig SpecConfigCsd SpecSampledSim SpecEnter SpecSense SpecSenseScan
  ProofsSupport ProofsOcc ProofsInstance ProofsScanInstance ProofsScanCsd ProofsDefault ProofsConfig ProofsShape ProofsConfigCsd ProofsEnter2 ProofsSense ProofsPeaks ProofsScanNoise4 ProofsAreas ProofsAreas2 ProofsCoulomb2.
Local Open Scope R_scope.

(** ** Potentials *)
Lemma scan_drop off gate dot sens (v v' o o' w : R * R) n delta e (right : bool) :
  fst o + snd o = n -> fst o' + snd o' = n - 1 -> Rabs (fst v - fst v') <= delta -> Rabs (snd v - snd v') <= delta ->
  Rabs (fst o - fst o' - (if right then 1 else 0)) <= e ->
  arm_step right e delta gate dot (affine_scan off gate dot sens v o w) (affine_scan off gate dot sens v' o' w).
Proof.
  intros S1 S2 D1 D2 E. pose proof (drop_bound off gate dot v v' o o' n delta e right S1 S2 D1 D2 E) as Q.
  unfold arm_step, affine_scan. unfold entered in Q.
  replace (_ - _ + _) with (affine off gate dot v' o' - affine off gate dot v o + (if right then fst dot else snd dot)) by ring. exact Q.
Qed.

Section M.
Variable label : arr2 nat -> arr2 nat.

Lemma volts l n i : (i < n)%nat -> volt_at l n i = pixel_voltage l n i.
Proof.
  intros H. unfold volt_at, pixel_voltage. destruct (n =? 1)%nat eqn:E.
  - apply Nat.eqb_eq in E. subst n. assert (i = 0)%nat by lia. subst i. cbn [INR]. ring.
  - unfold Rdiv. ring.
Qed.
Lemma value_pixel g lim1 lim2 lims1 lims2 s a1 b1 a2 b2 v1 v2 res st m st' v o y : config_ok label g ->
  measure (scan_config label lim1 lim2 lims1 lims2 (Some g) s) [a1; b1] [a2; b2] v1 v2 res st = (Ok m, st') ->
  csd_value (m_csd m) (m_occ m) (a1, b1) (a2, b2) v o y ->
  exists d lab, ideal_csd_geometric label (g_tcts g) [a1; b1] [a2; b2] res (g_rotation g) (g_lut g) (g_cdf g) (g_gamma g) = Ok d /\
    scan_pixel d (a1, b1) (a2, b2) v o lab.
Proof.
  intros C M V. destruct (csd_inv label _ _ _ _ _ _ _ _ _ _ _ _ _ _ M) as (l1 & l2 & d & p & h & ps & h2 & E1 & E2 & Ed & Ea & _).
  injection E1 as -> ->. injection E2 as -> ->. pose proof (ideal_shape label g _ _ _ _ _ _ C Ed) as Sh.
  exists d. unfold csd_value in V. destruct d as [occ lead|occ lead]; cbn [csd_arrays] in Ea; injection Ea as Eo El; rewrite Eo in V; destruct (m_csd m) as [c|c]; try contradiction.
  - destruct Sh as (n & _ & Lo & Ll). destruct V as (i & Hi & -> & -> & ->). cbn [len1 of_list1 cell1] in *.
    destruct (nth_error lead i) as [lab|] eqn:El'; [|apply nth_error_None in El'; lia]. exists lab. split; [exact Ed|]. exists i.
    split; [apply nth_error_nth'; lia|]. split; [exact El'|]. rewrite !volts by lia. destruct l1, l2; reflexivity.
  - destruct V as (i & j & Hi & Hj & -> & -> & ->). exists (cell lead i j). split; [exact Ed|]. exists i, j. repeat split; try assumption.
    rewrite !volts by lia. destruct l1, l2; reflexivity.
Qed.
Lemma value_measured g lim1 lim2 lims1 lims2 s a1 b1 a2 b2 v1 v2 res st m st' : ss_deform s = [] \/ a1 <> b1 \/ a2 <> b2 ->
  measure (scan_config label lim1 lim2 lims1 lims2 (Some g) s) [a1; b1] [a2; b2] v1 v2 res st = (Ok m, st') ->
  exists off, forall v o y, csd_value (m_csd m) (m_occ m) (a1, b1) (a2, b2) v o y ->
    exists q, pot_spec s o v (plunger v1, plunger v2) q /\ measured_at s off q y.
Proof.
  intros Hd M. unfold measured_at. destruct (ss_rise s) as [rise|] eqn:Hr.
  - destruct (csd_rise label _ _ _ _ _ _ rise _ _ _ _ _ _ _ _ _ _ Hd Hr M) as (_ & o1 & pt & q1 & _ & _ & _ & Q). exists (at_sensor q1). exact Q.
  - destruct (csd_pixels label _ _ _ _ _ _ _ _ _ _ _ _ _ _ _ _ Hd Hr M) as (_ & _ & Q). exists 0. exact Q.
Qed.

Lemma sense_any g lim1 lim2 lims1 lims2 s a1 b1 a2 b2 v1 v2 res st m st' : ss_deform s = [] \/ a1 <> b1 \/ a2 <> b2 ->
  measure (scan_config label lim1 lim2 lims1 lims2 (Some g) s) [a1; b1] [a2; b2] v1 v2 res st = (Ok m, st') ->
  exists off, forall v o y v' o' y' n delta e (right : bool),
  csd_value (m_csd m) (m_occ m) (a1, b1) (a2, b2) v o y -> csd_value (m_csd m) (m_occ m) (a1, b1) (a2, b2) v' o' y' ->
  fst o + snd o = n -> fst o' + snd o' = n - 1 -> Rabs (fst v - fst v') <= delta -> Rabs (snd v - snd v') <= delta ->
  Rabs (fst o - fst o' - (if right then 1 else 0)) <= e ->
  exists q q', measured_at s off q y /\ measured_at s off q' y' /\
    arm_step right e delta (row0 (ss_gate s)) (row0 (ss_dot s)) (at_sensor q) (at_sensor q') /\
    arm_step right e delta (row1 (ss_gate s)) (row1 (ss_dot s)) (at_barrier1 q) (at_barrier1 q') /\
    arm_step right e delta (row2 (ss_gate s)) (row2 (ss_dot s)) (at_barrier2 q) (at_barrier2 q').
Proof.
  intros Hd M. destruct (value_measured _ _ _ _ _ _ _ _ _ _ _ _ _ _ _ _ Hd M) as [off Q]. exists off. intros v o y v' o' y' n delta e right V V' S1 S2 D1 D2 E.
  destruct (Q _ _ _ V) as (q & (P0 & P1 & P2) & Y). destruct (Q _ _ _ V') as (q' & (P0' & P1' & P2') & Y'). exists q, q'. split; [exact Y|]. split; [exact Y'|].
  rewrite P0, P0', P1, P1', P2, P2'. repeat split; apply (scan_drop _ _ _ _ _ _ _ _ _ n); assumption.
Qed.

Lemma sense_default lim1 lim2 lims1 lims2 s a1 b1 a2 b2 v1 v2 res st m st' : (forall x, is_labelling x (label x)) -> default_sensor_v2 = Ok s ->
  measure (scan_config label lim1 lim2 lims1 lims2 (Some default_csd) s) [a1; b1] [a2; b2] v1 v2 res st = (Ok m, st') ->
  exists off, forall v o y v' o' y' n k (right : bool) t b,
  csd_value (m_csd m) (m_occ m) (a1, b1) (a2, b2) v o y -> csd_value (m_csd m) (m_occ m) (a1, b1) (a2, b2) v' o' y' ->
  fst o + snd o = INR n -> fst o' + snd o' = INR n - 1 -> on_branch default_tcts n k right t b ->
  dist2 (tct_view (- (PI / 4)) v) b <= 5/100000 -> dist2 (tct_view (- (PI / 4)) v') b <= 5/100000 ->
  1/3 <= t -> outer right n k \/ t <= 2/3 ->
  exists q q', measured_at s off q y /\ measured_at s off q' y' /\
    if right then rises 0.000375 0.000521 q q' else rises 0.000219 0.000365 q q'.
Proof.
  intros Lab Made M. pose proof (default_config label Lab) as C.
  destruct (default_v2_parts s Made) as [Hd _].
  destruct (sense_any _ _ _ _ _ _ _ _ _ _ _ _ _ _ _ _ (or_introl Hd) M) as [off Q]. exists off.
  intros v o y v' o' y' n k right t b V V' S1 S2 Br D D' T1 T2.
  destruct (value_pixel _ _ _ _ _ _ _ _ _ _ _ _ _ _ _ _ _ _ _ C M V) as (d & lab & I & Sp).
  destruct (value_pixel _ _ _ _ _ _ _ _ _ _ _ _ _ _ _ _ _ _ _ C M V') as (d' & lab' & I' & Sp').
  destruct (default_jump label res res d d' a1 b1 a2 b2 a1 b1 a2 b2 v v' o o' lab lab' n k right t b (1/3) (1/3) Lab I Sp I' Sp' S1 S2 Br D D'
    ltac:(left; split; reflexivity) T1 ltac:(destruct T2; [left; assumption|right; lra])) as [J _].
  destruct (view_near _ _ _ _ _ D D') as [N1 N2].
  destruct (Q v o y v' o' y' (INR n) _ _ right V V' S1 S2 N1 N2 J) as (q & q' & Y & Y' & A0 & A1 & A2).
  exists q, q'. split; [exact Y|]. split; [exact Y'|].
  assert (Ar : ss_dot s = mk_rows3 (-0.00044775, -0.0002922) (-0.00044775, -0.0002922) (-0.00044775, -0.0002922) /\
    ss_gate s = mk_rows3 (0.08949, 0.116395) (0.08949, 0.116395) (0.08949, 0.116395)).
  { revert Made. unfold default_sensor_v2.
    destruct (barrier_glf default_barrier1 0.001 0.999) as [c1|]; [|discriminate].
    destruct (barrier_glf default_barrier2 0.001 0.999) as [c2|]; [|discriminate]. cbn [bind].
    destruct (mapM _ default_peaks_v2) as [ps|]; [|discriminate]. cbn [bind set_alpha_sensor set_alpha]. intros E. injection E as <-. split; reflexivity. }
  destruct Ar as [Ad Ag]. rewrite Ad, Ag in *. unfold arm_step in A0, A1, A2. cbn [row0 row1 row2 fst snd] in A0, A1, A2.
  rewrite (Rabs_left (-0.00044775 - -0.0002922)), (Rabs_pos_eq 0.08949), (Rabs_pos_eq 0.116395) in A0, A1, A2 by lra.
  apply Rabs_le_inv in A0, A1, A2. unfold rises. destruct right; lra.
Qed.
Lemma sense_sampled {G} (r : rng G) choice x c p s lim1 lim2 lims1 lims2 a1 b1 a2 b2 v1 v2 res st m st' :
  uniform_ok r -> choice_ok choice -> (forall x, is_labelling x (label x)) -> sampled r choice label x c -> sc_sensor c = SampledScan p -> sensor_of p = Ok s ->
  measure (scan_config label lim1 lim2 lims1 lims2 (Some x) s) [a1; b1] [a2; b2] v1 v2 res st = (Ok m, st') ->
  exists off, forall v o y v' o' y' n k (right : bool) t b,
  csd_value (m_csd m) (m_occ m) (a1, b1) (a2, b2) v o y -> csd_value (m_csd m) (m_occ m) (a1, b1) (a2, b2) v' o' y' ->
  fst o + snd o = INR n -> fst o' + snd o' = INR n - 1 -> (n < length (g_tcts x))%nat -> on_branch (g_tcts x) n k right t b ->
  dist2 (tct_view (g_rotation x) v) b <= 1/100000 -> dist2 (tct_view (g_rotation x) v') b <= 1/100000 ->
  1/2 <= t -> outer right n k \/ t = 1/2 ->
  exists q q', measured_at s off q y /\ measured_at s off q' y' /\
    let arm := - (if right then fst (sp_dots p) else snd (sp_dots p)) in rises (0.4 * arm) (1.6 * arm) q q' /\ 0.00002 < 0.4 * arm.
Proof.
  intros U Ch Lab Smp Es Made M.
  destruct Smp as (fuel & fuel' & kind & qu & comp & steep & g & g1 & E).
  destruct (config_result r choice fuel _ kind qu comp steep g x c g1 E) as (Hq & (g2 & g3 & Ex & Em) & _).
  rewrite Es in Em. destruct Em as [_ Em].
  destruct (sampled_ordered r fuel' U label Lab _ _ _ Ex) as [C _].
  destruct (scan_sensor_spec r fuel U qu comp _ _ _ Hq Em) as (_ & Arms & _).
  unfold sensor_of in Made. cbn [set_alpha set_alpha_sensor bind] in Made. injection Made as <-.
  set (s := mk_scan_sensor _ _ _ _ _ _ _ _ _) in *.
  destruct (sense_any _ _ _ _ _ _ _ _ _ _ _ _ _ _ _ _ (or_introl (eq_refl : ss_deform s = [])) M) as [off Q]. exists off.
  intros v o y v' o' y' n k right t b V V' S1 S2 Len Br D D' T1 T2.
  destruct (value_pixel _ _ _ _ _ _ _ _ _ _ _ _ _ _ _ _ _ _ _ C M V) as (d & lab & I & Sp).
  destruct (value_pixel _ _ _ _ _ _ _ _ _ _ _ _ _ _ _ _ _ _ _ C M V') as (d' & lab' & I' & Sp').
  destruct (sampled_jump r fuel' label _ x _ res res d d' a1 b1 a2 b2 a1 b1 a2 b2 v v' o o' lab lab' n k right t b U Lab Ex I Sp I' Sp' S1 S2 Len Br D D' T1 T2) as [J _].
  destruct (view_near _ _ _ _ _ D D') as [N1 N2].
  destruct (Q v o y v' o' y' (INR n) _ _ right V V' S1 S2 N1 N2 J) as (q & q' & Y & Y' & A0 & A1 & A2).
  exists q, q'. split; [exact Y|]. split; [exact Y'|].
  unfold arm_step in A0, A1, A2. unfold s in A0, A1, A2. cbn [ss_gate ss_dot row0 row1 row2] in A0, A1, A2.
  destruct Arms as (G1 & G2 & B1 & B2 & B3 & B4 & B5).
  set (e1 := fst (sp_dots p)) in *. set (e2 := snd (sp_dots p)) in *. set (h1 := fst (sp_gates p)) in *. set (h2 := snd (sp_gates p)) in *.
  assert (P1 : 0 < h1) by (destruct comp; lra). assert (P2 : 0 < h2) by lra.
  rewrite (Rabs_pos_eq h1), (Rabs_pos_eq h2) in A0, A1, A2 by lra.
  apply Rabs_le_inv in A0, A1, A2.
  assert (Ab : Rabs (e1 - e2) <= - e1 /\ Rabs (e1 - e2) <= - e2) by (unfold Rabs; destruct (Rcase_abs (e1 - e2)); lra).
  unfold rises. clearbody e1 e2 h1 h2. destruct right; lra.
Qed.
End M.

(** ** Peaks *)
Definition hump (mg : R * R) (mu : R) : R := 0.09 * snd mg ^ 2 / (snd mg ^ 2 + (mu - fst mg) ^ 2).
Lemma made_humps l ps mu : mapM (fun mg : R * R => sensor_peak_lorentzian (fst mg) (snd mg) 0.09 0) l = Ok ps ->
  peak_total ps mu = Rsum (map (fun mg => hump mg mu) l).
Proof.
  revert ps. induction l as [|[m g] t IH]; intros ps H; cbn [mapM] in H.
  - injection H as <-. reflexivity.
  - unfold sensor_peak_lorentzian at 1, raise_if in H. cbn [fst snd] in H. destruct (Rleb g 0) eqn:E; [discriminate|]. cbn [bind] in H.
    destruct (mapM _ t) as [ps'|] eqn:Et; [|discriminate]. cbn [bind] in H. injection H as <-. cbn [map Rsum].
    specialize (IH ps' eq_refl). unfold peak_total in *. cbn [map fold_right]. rewrite IH. f_equal.
    cbn. unfold sensor_response_lorentz, hump. cbn [fst snd]. lra.
Qed.
Lemma hump_pos mg mu : 0 < snd mg -> 0 < hump mg mu.
Proof.
  intros G. unfold hump. pose proof (pow_lt _ 2 G). pose proof (pow2_ge_0 (mu - fst mg)). apply Rdiv_lt_0_compat; lra.
Qed.
Lemma hump_top mg : 0 < snd mg -> hump mg (fst mg) = 0.09.
Proof. intros G. unfold hump. pose proof (pow_lt _ 2 G). field. replace (fst mg - fst mg) with 0 by ring. lra. Qed.
Lemma hump_low m g mu b : 0 < g -> 0.09 * g ^ 2 <= b * (g ^ 2 + (mu - m) ^ 2) -> hump (m, g) mu <= b.
Proof.
  intros G H. unfold hump. cbn [fst snd]. apply div_le; [|exact H]. pose proof (pow_lt _ 2 G). pose proof (pow2_ge_0 (mu - m)). lra.
Qed.
Ltac class m g mu b := assert (hump (m, g) mu <= b) by (apply hump_low; [lra|cbn; lra]).
Ltac bounded := repeat match goal with |- context [hump (?m, ?g) ?mu] =>
  first [class m g mu 0.0001|class m g mu 0.0003|class m g mu 0.0006|class m g mu 0.001|class m g mu 0.0015|class m g mu 0.003|class m g mu 0.0125|class m g mu 0.016|class m g mu 0.02]; generalize dependent (hump (m, g) mu); intros ? ? end.

Lemma v2_resolved s : default_sensor_v2 = Ok s ->
  (forall i, (i <= 18)%nat -> 0.09 <= base_dot s (-0.151 + 0.003 * INR i)) /\
  (forall i, (i <= 17)%nat -> base_dot s (-0.151 + 0.003 * INR i + 0.0015) < 0.05).
Proof.
  unfold default_sensor_v2.
  destruct (barrier_glf default_barrier1 0.001 0.999) as [b1|]; [|discriminate].
  destruct (barrier_glf default_barrier2 0.001 0.999) as [b2|]; [|discriminate]. cbn [bind].
  destruct (mapM _ default_peaks_v2) as [ps|] eqn:Ep; [|discriminate]. cbn [bind set_alpha_sensor set_alpha]. intros E. injection E as <-.
  unfold base_dot. cbn [ss_peaks]. split; intros i Hi; rewrite (made_humps _ _ _ Ep).
  - assert (G : forall l mu, Forall (fun mg : R * R => 0 < snd mg) l -> 0 <= Rsum (map (fun mg => hump mg mu) l) /\
      forall mg, In mg l -> hump mg mu <= Rsum (map (fun mg => hump mg mu) l)).
    { induction 1 as [|q l G _ [IH1 IH2]]; cbn; [split; [lra|contradiction]|]. pose proof (hump_pos q mu G). split; [lra|].
      intros q' [<-|Hq]; [lra|]. specialize (IH2 q' Hq). lra. }
    assert (D : Forall (fun mg : R * R => 0 < snd mg) default_peaks_v2) by (unfold default_peaks_v2; repeat constructor; cbn; lra).
    set (mg := nth i default_peaks_v2 (0, 0)). assert (Hm : In mg default_peaks_v2) by (apply nth_In; cbn; lia).
    assert (Em : fst mg = -0.151 + 0.003 * INR i).
    { unfold mg. clear - Hi. do 19 (destruct i as [|i]; [rewrite INR_IZR_INZ; cbn; lra|]). lia. }
    rewrite <- Em. destruct (G _ (fst mg) D) as [_ Q]. specialize (Q mg Hm). rewrite hump_top in Q; [exact Q|]. eapply Forall_forall in D; [exact D|exact Hm].
  - clear - Hi. do 18 (destruct i as [|i]; [rewrite INR_IZR_INZ; cbn [Z.of_nat Pos.of_succ_nat Pos.succ default_peaks_v2 map Rsum]; bounded; lra|]). lia.
Qed.
