(** Proofs about sensor scans of a simulation with a SensorScanSensorGeneric object. *)
From Coq Require Import FunctionalExtensionality.
From Verif Require Import RPrelude Arr ModelSupport ModelTct ModelCsd ModelDistortions ModelSensor ModelSimulation ModelInstance
  ModelScanInstance SpecTct SpecCsd SpecSensor SpecSimulation SpecInstance SpecScanInstance ProofsCsd ProofsDriver ProofsScan ProofsSensor ProofsScanSensor
  ProofsLabelScan ProofsSensorMore ProofsSimulation ProofsInstance.
Local Open Scope R_scope.

Lemma join_split p : join_potentials (split_potentials p) = Ok p.
Proof.
  destruct p as [[n f]|[r c f]]; cbn [split_potentials join_potentials amap1 amap2 len1 rows cols cell1 cell];
  rewrite !Nat.eqb_refl; cbn [andb negb raise_if]; unfold raise_if; do 3 f_equal.
  - apply functional_extensionality. intros i. destruct (f i). reflexivity.
  - apply functional_extensionality. intros i. apply functional_extensionality. intros j. destruct (f i j). reflexivity.
Qed.

Section Scan.
Variable label : arr2 nat -> arr2 nat.

Lemma scan_inv lim1 lim2 lims1 lims2 x s s1 s2 v1 v2 res st m st' :
  measure_sensor_scan (scan_config label lim1 lim2 lims1 lims2 x s) s1 s2 v1 v2 res st = (Ok m, st') ->
  exists l1 l2 o occ p h h1 ps h2, s1 = [fst l1; snd l1] /\ s2 = [fst l2; snd l2] /\
    plunger_occupation label x v1 v2 o /\ constant_scan res o occ /\
    scan_potential s occ (volt_arg v1) (volt_arg v2) (sweep_arg l1) (sweep_arg l2) = Ok (p, h) /\
    get_sensor_scan_labels s h (volt_arg v1) (volt_arg v2) (sweep_arg l1) (sweep_arg l2) p = Ok (sc_labels m, h1) /\
    scan_response s h1 p = Ok (sc_scan m, ps, h2) /\ st' = Some h2.
Proof.
  intros H. apply scan_ok in H. destruct H as (V & Pl & l1 & l2 & E1 & E2 & Sc).
  destruct Sc as (o & w1 & occ & p & w2 & pu & w3 & w4 & p' & w5 & r & w6 & Ho & Hc & P1 & P2 & Hl & Hd & Hr & Hi & _).
  cbn [scan_config sensor scan_object so_potential so_labels so_response sensor_potential_distortions sensor_response_distortions the_list] in *.
  change (given_to_sensor v1) with (volt_arg v1) in *. change (given_to_sensor v2) with (volt_arg v2) in *.
  change (SpecSimulation.swept l1) with (sweep_arg l1) in *. change (SpecSimulation.swept l2) with (sweep_arg l2) in *.
  destruct (scan_potential s occ (volt_arg v1) (volt_arg v2) (sweep_arg l1) (sweep_arg l2)) as [[q h]|e] eqn:Ep; [|discriminate].
  injection P1 as <- <-. injection P2 as <- <-.
  unfold joined in Hl. rewrite join_split in Hl. cbn [bind] in Hl.
  destruct (get_sensor_scan_labels _ _ _ _ _ _ _) as [[L h1]|e] eqn:El; [|discriminate]. injection Hl as HL <-.
  assert (p' = PotMany (split_potentials q) /\ w5 = Some h1) as [-> ->].
  { destruct occ; cbn [potential_distorted] in Hd; [| |exact Hd];
    (destruct Hd as (ys & -> & In); unfold in_order in In; destruct In as (st0 & S0 & S1 & _); cbn [length] in S1; rewrite S0 in S1;
     injection S1 as <- <-; auto). }
  unfold joined in Hr. rewrite join_split in Hr. cbn [bind] in Hr.
  destruct (scan_response s h1 q) as [[[im ps] h2]|e] eqn:Er; [|discriminate]. injection Hr as <- <-.
  assert (sc_scan m = im /\ st' = Some h2) as [-> ->].
  { unfold in_order in Hi. destruct Hi as (st0 & S0 & S1 & _). cbn [length] in S1. rewrite S0 in S1. injection S1 as <- <-. auto. }
  exists l1, l2, o, occ, q, h, h1, ps, h2. rewrite HL in *. repeat (split; [auto; fail|]). split; [|split; [exact Hc|auto]].
  unfold scan_occupation in Ho. cbn [scan_config ideal_csd_config] in Ho. unfold plunger_occupation. destruct x as [g|]; cbn [option_map] in Ho; [|apply Ho].
  destruct v1 as [x1|]; [|apply Ho]. destruct v2 as [x2|]; [|apply Ho].
  destruct Ho as (a & l & Hg & La & ->). unfold get_csd_data in Hg. cbn [fst snd] in Hg.
  destruct (ideal_csd_geometric _ _ _ _ _ _ _ _ _) as [d|e] eqn:I; [|discriminate]. cbn [bind] in Hg. injection Hg as Hg _.
  destruct d as [oc t|oc t]; cbn [csd_arrays] in Hg; [|discriminate]. injection Hg as <- _. exists oc, t. split; [reflexivity|].
  cbn [of_list1 len1 cell1] in *. destruct oc; [cbn in La; lia|reflexivity].
Qed.

Lemma volt_at_same v n i : (i < n)%nat -> volt_at (v, v) n i = v.
Proof. intros H. unfold volt_at. destruct (n =? 1)%nat; cbn [fst snd]; [reflexivity|]. ring. Qed.
Lemma limits_plunger v : limits_of (volt_arg v) = (plunger v, plunger v).
Proof. destruct v; reflexivity. Qed.

Lemma constant_first s res o occ v1 v2 w1 w2 p h : constant_scan res o occ -> scan_potential s occ v1 v2 w1 w2 = Ok (p, h) ->
  first_occ occ = Ok o.
Proof.
  intros Hc H. destruct (scan_potential_pot _ _ _ _ _ _ _ _ H) as (_ & _ & (o' & Ho) & _). rewrite Ho. f_equal.
  destruct occ as [a|a|]; cbn [first_occ] in Ho; [| |discriminate].
  - unfold get1 in Ho. destruct (0 <? len1 a)%nat eqn:E; [|discriminate]. injection Ho as <-. apply Nat.ltb_lt in E.
    destruct res as [n|[|n [|k [|]]]]; cbn [constant_scan] in Hc; try tauto.
    + destruct Hc as (_ & b & Eb & _ & Q). injection Eb as <-. auto.
    + destruct Hc as (_ & b & Eb & _ & Q). injection Eb as <-. auto.
    + destruct Hc as (_ & _ & b & Eb & _). discriminate.
  - unfold get2, in_shape in Ho. destruct ((0 <? rows a) && (0 <? cols a))%nat eqn:E; [|discriminate]. injection Ho as <-.
    apply andb_true_iff in E. rewrite !Nat.ltb_lt in E. destruct E.
    destruct res as [n|[|n [|k [|]]]]; cbn [constant_scan] in Hc; try tauto.
    + destruct Hc as (_ & b & Eb & _). discriminate.
    + destruct Hc as (_ & b & Eb & _). discriminate.
    + destruct Hc as (_ & _ & b & Eb & _ & _ & Q). injection Eb as <-. auto.
Qed.

(** pixels of a scan *)
Lemma scan_cell s res o occ v1 v2 l1 l2 p h : constant_scan res o occ ->
  scan_potential s occ (volt_arg v1) (volt_arg v2) (sweep_arg l1) (sweep_arg l2) = Ok (p, h) ->
  match p with Pot1 a => res_list res = [Z.of_nat (len1 a)] | Pot2 a => res = ResArray [Z.of_nat (cols a); Z.of_nat (rows a)] end /\
  forall i j, (i < nrows p)%nat -> (j < ncols p)%nat -> pot_spec s o (plunger v1, plunger v2) (volt_pix p l1 l2 i j) (pcell p i j).
Proof.
  intros Hc H. destruct (scan_potential_pot _ _ _ _ _ _ _ _ H) as (_ & Hn & _ & B).
  assert (El1 : limits_of (sweep_arg l1) = l1) by (destruct l1; reflexivity).
  assert (El2 : limits_of (sweep_arg l2) = l2) by (destruct l2; reflexivity).
  assert (Cases : (exists a n, occ = Occ1 a /\ res_list res = [n] /\ Z.of_nat (len1 a) = n /\ forall i, (i < len1 a)%nat -> cell1 a i = o) \/
                  (exists a n k, occ = Occ2 a /\ res = ResArray [n; k] /\ Z.of_nat (rows a) = k /\ Z.of_nat (cols a) = n /\
                     forall i j, (i < rows a)%nat -> (j < cols a)%nat -> cell a i j = o)).
  { destruct res as [n|[|n [|k [|]]]]; cbn [constant_scan] in Hc; try tauto.
    - destruct Hc as (_ & a & -> & Hl & Q). left. exists a, n. auto.
    - destruct Hc as (_ & a & -> & Hl & Q). left. exists a, n. auto.
    - destruct Hc as (_ & _ & a & -> & Hr & Hk & Q). right. exists a, n, k. auto. }
  destruct Cases as [(a & n & -> & Er & Hl & Q)|(a & n & k & -> & -> & Hr & Hk & Q)].
  - assert (P : (0 < len1 a)%nat).
    { destruct (len1 a) eqn:E; [|lia]. unfold scan_potential, raise_if in H. rewrite E in H. destruct (_ && _); discriminate. }
    destruct (scan_pixel_1d s a (volt_arg v1) (volt_arg v2) (sweep_arg l1) (sweep_arg l2) P B) as (p' & h' & E & Hl' & Q').
    rewrite H in E. injection E as -> ->. split; [rewrite Er; congruence|].
    intros i j Hi Hj. cbn [nrows ncols pcell volt_pix] in *. rewrite Hl' in *. specialize (Q' j Hj).
    rewrite Q in Q' by exact Hj. rewrite El1, El2, !limits_plunger, !volt_at_same in Q' by exact Hj. exact Q'.
  - assert (P : (0 < rows a)%nat /\ (0 < cols a)%nat).
    { unfold scan_potential, raise_if in H. destruct (_ && _) in H; [discriminate|].
      destruct ((rows a =? 0)%nat || (cols a =? 0)%nat) eqn:E; [discriminate|]. apply orb_false_iff in E. rewrite !Nat.eqb_neq in E. lia. }
    destruct P as [P1 P2].
    destruct (scan_pixel_2d s a (volt_arg v1) (volt_arg v2) (sweep_arg l1) (sweep_arg l2) P1 P2 B) as (p' & h' & E & Hr' & Hc' & Q').
    rewrite H in E. injection E as -> ->. split; [congruence|].
    intros i j Hi Hj. cbn [nrows ncols pcell volt_pix] in *. rewrite Hr', Hc' in *. specialize (Q' i j Hi Hj). rewrite Q in Q' by assumption.
    rewrite El1, El2, !limits_plunger, !volt_at_same in Q' by assumption. exact Q'.
Qed.
Lemma scan_cells s res o occ v1 v2 l1 l2 p h im : constant_scan res o occ ->
  scan_potential s occ (volt_arg v1) (volt_arg v2) (sweep_arg l1) (sweep_arg l2) = Ok (p, h) ->
  same_shape_pot im p ->
  requested_shape res im /\
  forall w x, scan_value im l1 l2 w x -> exists i j, (i < nrows p)%nat /\ (j < ncols p)%nat /\ img_pix im i j x /\
    w = volt_pix p l1 l2 i j /\ pot_spec s o (plunger v1, plunger v2) w (pcell p i j).
Proof.
  intros Hc H Sh. destruct (scan_cell s res o occ v1 v2 l1 l2 p h Hc H) as [Rs Q]. split.
  - destruct im as [c|c], p as [a|a]; try (destruct Sh; fail); cbn [same_shape_pot requested_shape] in *; [|destruct Sh]; congruence.
  - intros w x Hx.
    assert (exists i j, (i < nrows p)%nat /\ (j < ncols p)%nat /\ img_pix im i j x /\ w = volt_pix p l1 l2 i j) as (i & j & Hi & Hj & P & E).
    { destruct im as [c|c], p as [a|a]; try (destruct Sh; fail); cbn [same_shape_pot scan_value nrows ncols volt_pix] in *.
      - destruct Hx as (i & Hi & -> & ->). exists 0%nat, i. rewrite <- Sh. split; [lia|]. split; [lia|].
        split; [cbn; split; [reflexivity|]; split; [lia|reflexivity]|]. reflexivity.
      - destruct Hx as (i & j & Hi & Hj & -> & ->). destruct Sh as [Sh1 Sh2]. exists i, j. rewrite <- Sh1, <- Sh2. split; [lia|]. split; [lia|].
        split; [cbn; split; [lia|]; split; [lia|reflexivity]|]. reflexivity. }
    exists i, j. repeat (split; [assumption|]). rewrite E. auto.
Qed.

Lemma combined_shows s o occ v1 v2 l1 l2 p h im res dot dot' : constant_scan res o occ ->
  scan_potential s occ (volt_arg v1) (volt_arg v2) (sweep_arg l1) (sweep_arg l2) = Ok (p, h) ->
  combined s dot p im ->
  (forall i j, (i < nrows p)%nat -> (j < ncols p)%nat -> dot i j = dot' (volt_pix p l1 l2 i j) (at_sensor (pcell p i j))) ->
  requested_shape res im /\ shows s o (plunger v1, plunger v2) dot' im l1 l2.
Proof.
  intros Hc H [Sh C] D. destruct (scan_cells s res o occ v1 v2 l1 l2 p h im Hc H Sh) as [Rs Q]. split; [exact Rs|].
  intros w x Hx. destruct (Q w x Hx) as (i & j & Hi & Hj & Px & -> & Ps). exists (pcell p i j). split; [exact Ps|].
  rewrite <- D by assumption. apply (C i j x); [exact Px|]. apply pot_pix_spec. auto.
Qed.

(** ** without deformations and final rise *)
Lemma measured_plain lim1 lim2 lims1 lims2 x s a1 b1 a2 b2 v1 v2 res st m st' : ss_deform s = [] -> ss_rise s = None ->
  measure_sensor_scan (scan_config label lim1 lim2 lims1 lims2 x s) [a1; b1] [a2; b2] v1 v2 res st = (Ok m, st') ->
  requested_shape res (sc_scan m) /\
  exists o, plunger_occupation label x v1 v2 o /\
    shows s o (plunger v1, plunger v2) (fun _ mu => base_dot s mu) (sc_scan m) (a1, b1) (a2, b2).
Proof.
  intros Hd Hr H. destruct (scan_inv _ _ _ _ _ _ _ _ _ _ _ _ _ _ H) as (l1 & l2 & o & occ & p & h & h1 & ps & h2 & E1 & E2 & Ho & Hc & Ep & El & Er & _).
  injection E1 as -> ->. injection E2 as -> ->. rewrite <- !surjective_pairing.
  destruct (scan_potential_pot _ _ _ _ _ _ _ _ Ep) as (Eh & Hn & _).
  destruct (scan_response_plain s h1 p) as (im & E & C); auto.
  { left. exact Hd. }
  rewrite E in Er. injection Er as Er _ _. subst im.
  destruct (combined_shows s o occ v1 v2 l1 l2 p h (sc_scan m) res _ (fun _ mu => base_dot s mu) Hc Ep C) as [Q1 Q2]; [reflexivity|].
  split; [exact Q1|]. exists o. auto.
Qed.
(** ** with deformations *)
Lemma shown_at s mid full l1 l2 p ps i j : (i < nrows p)%nat -> (j < ncols p)%nat -> l1 = (fst full, fst full) -> l2 = (snd full, snd full) ->
  shown_total s mid l1 l2 p ps i j = deformed_total (deform_of (ss_deform s)) (middle_distance (row0 (ss_sensor s)) mid full) ps (sensor_at p i j).
Proof.
  intros Hi Hj -> ->. unfold shown_total, deformed_total. f_equal. apply map_ext. intros [k pk]. cbn [fst snd]. f_equal.
  unfold shown_peak, peak_position. replace (volt_pix p (fst full, fst full) (snd full, snd full) i j) with full; [reflexivity|].
  destruct p as [a|a]; cbn [volt_pix nrows ncols] in *; rewrite !volt_at_same by assumption; apply surjective_pairing.
Qed.
Lemma solved s h o v pot1 pot2 pt : first_occ (h_occ h) = Ok o -> (fst (h_g1 h), fst (h_g2 h)) = v ->
  calc_point s h pot1 pot2 true = Ok pt -> points_exist s o -> barriers_at s o v pot1 pot2 pt.
Proof.
  intros Ho <- Hp (D & A & B). destruct (calc_point_solves s h pot1 pot2 o Ho D A B) as (pt' & E & Q).
  rewrite Hp in E. injection E as <-. exact Q.
Qed.
Lemma volt_arg_fixed v : ~ SpecSensor.swept (volt_arg v).
Proof. intros (a & b & E). destruct v; discriminate. Qed.
Lemma measured_deformed lim1 lim2 lims1 lims2 x s ps a1 b1 a2 b2 v1 v2 res st m st' :
  ss_deform s <> [] -> ss_peaks s = Some ps -> 0 < fst (row0 (ss_sensor s)) ->
  measure_sensor_scan (scan_config label lim1 lim2 lims1 lims2 x s) [a1; b1] [a2; b2] v1 v2 res st = (Ok m, st') ->
  requested_shape res (sc_scan m) /\
  exists o mid full, plunger_occupation label x v1 v2 o /\
    (points_exist s o -> pinch_point s o (plunger v1, plunger v1) mid /\ full_point s o (plunger v1, plunger v2) full) /\
    shows s o (plunger v1, plunger v2)
      (fun _ mu => deformed_total (deform_of (ss_deform s)) (middle_distance (row0 (ss_sensor s)) mid full) ps mu)
      (sc_scan m) (a1, b1) (a2, b2).
Proof.
  intros Hd Hps Ha H. destruct (scan_inv _ _ _ _ _ _ _ _ _ _ _ _ _ _ H) as (l1 & l2 & o & occ & p & h & h1 & ps' & h2 & E1 & E2 & Ho & Hc & Ep & El & Er & _).
  injection E1 as -> ->. injection E2 as -> ->. rewrite <- !surjective_pairing.
  destruct (scan_potential_pot _ _ _ _ _ _ _ _ Ep) as (Eh & Hn & _).
  assert (Ho1 : first_occ (h_occ h) = Ok o) by (rewrite Eh; exact (constant_first _ _ _ _ _ _ _ _ _ _ Hc Ep)).
  destruct (labels_hidden_point _ _ _ _ _ _ _ _ _ _ Hn Ho1 El) as (full & Hf & (oa & Ea & La & Ca) & G1 & G2 & S1 & S2).
  rewrite limits_plunger in G1, G2. cbn [fst snd] in G1, G2.
  assert (Ho2 : first_occ (h_occ h1) = Ok o) by (rewrite Ea; cbn [first_occ]; unfold get1; rewrite La; cbn; rewrite Ca; reflexivity).
  assert (F1 : fixed (h_g1 h1)) by (rewrite G1; reflexivity). assert (F2 : fixed (h_g2 h1)) by (rewrite G2; reflexivity).
  assert (Ht : pot_two p).
  { assert (Dec : pot_two p \/ ~ pot_two p) by (destruct p; simpl; lia). destruct Dec as [Dec|Dec]; [exact Dec|]. exfalso.
    destruct (calc_point_ok s h1 (pinch_off (ss_barrier1 s)) (pinch_off (ss_barrier2 s)) true o Ho2) as (mid & Hm).
    rewrite (scan_response_deformed_single s h1 p mid Hd F1 F2 Hn Dec Hm) in Er. discriminate. }
  destruct (response_deformed_shown s h1 p ps Hd F1 F2 Ht Hps Ha (ex_intro _ o Ho2)) as (mid & im & Hm & E & C).
  rewrite E in Er. injection Er as Er _ _. subst im.
  destruct (combined_shows s o occ v1 v2 l1 l2 p h (sc_scan m) res _
    (fun _ mu => deformed_total (deform_of (ss_deform s)) (middle_distance (row0 (ss_sensor s)) mid full) ps mu) Hc Ep C) as [Q1 Q2].
  { intros i j Hi Hj. exact (shown_at s mid full _ _ p ps i j Hi Hj S1 S2). }
  split; [exact Q1|]. exists o, mid, full. split; [exact Ho|]. split; [|exact Q2].
  intros Pe. split.
  - apply (solved s h1); auto. rewrite G1, G2. reflexivity.
  - apply (solved s h); auto. rewrite Eh. cbn [h_g1 h_g2]. rewrite !limits_plunger. reflexivity.
Qed.

(** ** with a final rise *)
Lemma measured_rise lim1 lim2 lims1 lims2 x s rise a1 b1 a2 b2 v1 v2 res st m st' :
  ss_deform s = [] -> ss_rise s = Some rise ->
  measure_sensor_scan (scan_config label lim1 lim2 lims1 lims2 x s) [a1; b1] [a2; b2] v1 v2 res st = (Ok m, st') ->
  requested_shape res (sc_scan m) /\
  exists o full q, plunger_occupation label x v1 v2 o /\
    (points_exist s o -> full_point s o (plunger v1, plunger v1) full) /\ pot_spec s o (plunger v1, plunger v1) full q /\
    shows s o (plunger v1, plunger v2) (fun _ mu => Rmax (base_dot s mu) (rise mu (at_sensor q))) (sc_scan m) (a1, b1) (a2, b2).
Proof.
  intros Hd Hr H. destruct (scan_inv _ _ _ _ _ _ _ _ _ _ _ _ _ _ H) as (l1 & l2 & o & occ & p & h & h1 & ps' & h2 & E1 & E2 & Ho & Hc & Ep & El & Er & _).
  injection E1 as -> ->. injection E2 as -> ->. rewrite <- !surjective_pairing.
  destruct (scan_potential_pot _ _ _ _ _ _ _ _ Ep) as (Eh & Hn & _).
  assert (Ho1 : first_occ (h_occ h) = Ok o) by (rewrite Eh; exact (constant_first _ _ _ _ _ _ _ _ _ _ Hc Ep)).
  destruct (labels_hidden _ _ _ _ _ _ _ _ _ _ Hn Ho1 El) as (Ho2 & G1 & G2).
  rewrite limits_plunger in G1, G2. cbn [fst snd] in G1, G2.
  destruct (response_rise_shown s h1 p rise o (or_introl Hd) Hr Hn Ho2) as (full & q & im & h' & Hf & Hq & E & C).
  rewrite E in Er. injection Er as Er _ _. subst im.
  destruct (combined_shows s o occ v1 v2 l1 l2 p h (sc_scan m) res _
    (fun _ mu => Rmax (base_dot s mu) (rise mu (at_sensor q))) Hc Ep C) as [Q1 Q2]; [reflexivity|].
  split; [exact Q1|]. exists o, full, q. split; [exact Ho|]. rewrite G1, G2 in Hq. split; [|split; [exact Hq|exact Q2]].
  intros Pe. replace (sensor_is_swept h1) with true in Hf.
  - apply (solved s h1); auto. rewrite G1, G2. reflexivity.
  - symmetry. unfold sensor_is_swept. rewrite G1. unfold equal_ends. cbn [fst snd]. unfold Reqb. destruct (Req_EM_T _ _); [reflexivity|congruence].
Qed.
(** ** labels *)
Lemma nth_error_at {A} (d : A) m i j a : (exists row, nth_error m i = Some row /\ nth_error row j = Some a) -> at_ d m i j = a.
Proof. intros (row & E1 & E2). unfold at_. rewrite (nth_error_nth _ _ _ E1). apply nth_error_nth, E2. Qed.
Lemma at_nth_error {A} (d : A) m p i j : has_shape m p -> (i < nrows p)%nat -> (j < ncols p)%nat ->
  exists row, nth_error m i = Some row /\ nth_error row j = Some (at_ d m i j).
Proof.
  intros [L1 L2] Hi Hj. exists (nth i m []). split; [apply nth_error_nth'; lia|].
  unfold at_. apply nth_error_nth'. rewrite L2 by exact Hi. exact Hj.
Qed.
Lemma measured_labels lim1 lim2 lims1 lims2 x s a1 b1 a2 b2 v1 v2 res st m st' :
  measure_sensor_scan (scan_config label lim1 lim2 lims1 lims2 x s) [a1; b1] [a2; b2] v1 v2 res st = (Ok m, st') ->
  (forall w y, scan_value (sc_scan m) (a1, b1) (a2, b2) w y ->
     exists c k, labelled_value (sc_scan m) (sc_labels m) (a1, b1) (a2, b2) w y c k) /\
  (plunger v1 = plunger v2 ->
   exists o full qf, plunger_occupation label x v1 v2 o /\
    (points_exist s o -> full_point s o (plunger v1, plunger v2) full) /\ pot_spec s o (plunger v1, plunger v2) full qf /\
    forall w y c k, labelled_value (sc_scan m) (sc_labels m) (a1, b1) (a2, b2) w y c k ->
      exists q, pot_spec s o (plunger v1, plunger v2) w q /\ area_of s (at_sensor qf) q c).
Proof.
  intros H. destruct (scan_inv _ _ _ _ _ _ _ _ _ _ _ _ _ _ H) as (l1 & l2 & o & occ & p & h & h1 & ps' & h2 & E1 & E2 & Ho & Hc & Ep & El & Er & _).
  injection E1 as -> ->. injection E2 as -> ->. rewrite <- !surjective_pairing.
  destruct (scan_potential_pot _ _ _ _ _ _ _ _ Ep) as (Eh & Hn & _).
  assert (Ho1 : first_occ (h_occ h) = Ok o) by (rewrite Eh; exact (constant_first _ _ _ _ _ _ _ _ _ _ Hc Ep)).
  assert (Sh : same_shape_pot (sc_scan m) p) by (destruct (response_combined _ _ _ _ _ _ Er) as (dot & Q); apply Q).
  assert (Px : forall w y, scan_value (sc_scan m) l1 l2 w y -> exists i j, (i < nrows p)%nat /\ (j < ncols p)%nat /\ img_pix (sc_scan m) i j y /\
    w = volt_pix p l1 l2 i j /\ pot_spec s o (plunger v1, plunger v2) w (pcell p i j)) by (apply (scan_cells s res o occ v1 v2 l1 l2 p h); auto).
  destruct (labels_masks _ _ _ _ _ _ _ _ _ Hn El) as (M1 & M2 & _).
  split.
  - intros w y Hy. unfold labelled_value, scan_value in *. destruct (sc_scan m) as [a|a], p as [b|b]; try (destruct Sh; fail); cbn [same_shape_pot] in Sh.
    + destruct Hy as (i & Hi & Ew & Ey). exists (at_ 0%nat (conductive (sc_labels m)) 0 i), (at_ 0%nat (coulomb (sc_labels m)) 0 i).
      exists i. split; [exact Hi|]. split; [exact Ew|]. split; [exact Ey|].
      split; apply (at_nth_error 0%nat _ (Pot1 b)); auto; cbn [nrows ncols]; lia.
    + destruct Hy as (i & j & Hi & Hj & Ew & Ey). exists (at_ 0%nat (conductive (sc_labels m)) i j), (at_ 0%nat (coulomb (sc_labels m)) i j).
      exists i, j. split; [exact Hi|]. split; [exact Hj|]. split; [exact Ew|]. split; [exact Ey|].
      split; apply (at_nth_error 0%nat _ (Pot2 b)); auto; cbn [nrows ncols]; lia.
  - intros Ev. destruct (labels_threshold s occ _ _ _ _ p h (sc_labels m) h1 Ep El) as (o' & pt & q & Eo & Hpt & Hq & A).
    { left. rewrite !limits_plunger. exact Ev. }
    assert (o' = o) by (rewrite Eh in Ho1; cbn [h_occ] in Ho1; congruence). subst o'.
    rewrite !limits_plunger in Hq. cbn [fst snd] in Hq.
    exists o, pt, q. split; [exact Ho|]. split.
    { intros Pe. apply (solved s h); auto. rewrite Eh. cbn [h_g1 h_g2]. rewrite !limits_plunger. reflexivity. }
    split; [exact Hq|]. intros w y c k Hl.
    assert (exists i j, (i < nrows p)%nat /\ (j < ncols p)%nat /\ w = volt_pix p l1 l2 i j /\ at_ 0%nat (conductive (sc_labels m)) i j = c) as (i & j & Hi & Hj & Ew & Ec).
    { unfold labelled_value in Hl. destruct (sc_scan m) as [a|a], p as [b|b]; try (destruct Sh; fail); cbn [same_shape_pot nrows ncols volt_pix] in *.
      - destruct Hl as (i & Hi & Ew & _ & C1 & _). exists 0%nat, i. rewrite <- Sh. split; [lia|]. split; [lia|]. split; [exact Ew|]. apply nth_error_at, C1.
      - destruct Hl as (i & j & Hi & Hj & Ew & _ & C1 & _). destruct Sh as [Sh1 Sh2]. exists i, j. rewrite <- Sh1, <- Sh2. split; [lia|]. split; [lia|]. split; [exact Ew|]. apply nth_error_at, C1. }
    exists (pcell p i j). split; [|rewrite <- Ec; apply A; assumption].
    rewrite Ew. apply (scan_cell s res o occ v1 v2 l1 l2 p h); auto.
Qed.

(** ** which scans succeed *)
Lemma full1_fine n o : (0 <= n)%Z -> full1 n o = Ok (Occ1 (mk_arr1 (Z.to_nat n) (fun _ => o))).
Proof. intros H. unfold full1, raise_if. replace (n <? 0)%Z with false by (symmetry; apply Z.ltb_ge; lia). reflexivity. Qed.
Lemma full2_fine n k o : (0 <= n)%Z -> (0 <= k)%Z -> full_entries [n; k] o = Ok (Occ2 (mk_arr2 (Z.to_nat k) (Z.to_nat n) (fun _ _ => o))).
Proof.
  intros H1 H2. unfold full_entries, full2, raise_if. cbn [get_item nth_error bind].
  replace (n <? 0)%Z with false by (symmetry; apply Z.ltb_ge; lia). replace (k <? 0)%Z with false by (symmetry; apply Z.ltb_ge; lia). reflexivity.
Qed.
Definition occ_shape (res : resolution) (o : R * R) : occupation :=
  match res_list res with
  | [n] => Occ1 (mk_arr1 (Z.to_nat n) (fun _ => o))
  | [n; k] => Occ2 (mk_arr2 (Z.to_nat k) (Z.to_nat n) (fun _ _ => o))
  | _ => OccOther
  end.
Lemma occupations_found lim1 lim2 lims1 lims2 x s v1 v2 res st : scannable x v1 v2 res ->
  (forall g, x = Some g -> config_ok label g) ->
  exists o res', scan_occupations (scan_config label lim1 lim2 lims1 lims2 x s) v1 v2 res st = (Ok (occ_shape res o, res'), st) /\
    plunger_occupation label x v1 v2 o.
Proof.
  intros [Pos Hres] Cf.
  assert (Unknown : (x = None \/ v1 = None \/ v2 = None) -> exists o res', 
     scan_occupations (scan_config label lim1 lim2 lims1 lims2 x s) v1 v2 res st = (Ok (occ_shape res o, res'), st) /\ plunger_occupation label x v1 v2 o).
  { intros U. exists (0, 0), res. split.
    - rewrite unknown_occupations.
      + destruct res as [n|[|n [|k [|]]]]; cbn [res_list occ_shape] in *; try discriminate.
        * inversion Pos; subst. rewrite full1_fine by lia. reflexivity.
        * destruct Hres as (N0 & N1 & N2). destruct U as [U|[U|U]]; contradiction.
        * inversion Pos as [|? ? P1 P2]; subst. inversion P2; subst. rewrite full2_fine by lia. reflexivity.
      + unfold knows_occupation, scan_config. cbn [ideal_csd_config]. intros (A & B & C). destruct U as [U|[U|U]]; rewrite U in *; cbn in *; congruence.
    - unfold plunger_occupation. destruct x, v1, v2; auto. destruct U as [U|[U|U]]; discriminate. }
  destruct x as [g|]; [|auto]. destruct v1 as [x1|]; [|auto]. destruct v2 as [x2|]; [|auto].
  destruct (Cf g eq_refl) as (P & Len & K & Lab & _). destruct (gamma_known (g_cdf g) (g_gamma g) K) as [gm Hg].
  destruct (csd_1d label (g_tcts g) x1 x1 x2 x2 (ResInt 1) 1 (g_rotation g) (g_lut g) (g_cdf g) (g_gamma g) gm P K Hg eq_refl)
    as (occ & lead & E & L1 & L2 & _).
  destruct occ as [|o [|? ?]]; try discriminate L1.
  unfold scan_occupations, scan_config. cbn [ideal_csd_config option_map]. unfold mbind, get_csd_data. cbn [fst snd]. rewrite E. cbn [bind csd_arrays fst snd].
  exists o. destruct res as [n|[|n [|k [|]]]]; try discriminate Hres.
  - destruct Hres as [Hr|[Hr|Hr]]; discriminate.
  - inversion Pos; subst. exists (ResInt n). cbn [of_list1 first_of len1 length cell1 nth Nat.ltb Nat.leb bind]. rewrite full1_fine by lia. split; [reflexivity|].
    cbn [plunger_occupation]. eauto.
  - inversion Pos as [|? ? P1 P2]; subst. inversion P2; subst. exists (ResArray [n; k]).
    cbn [of_list1 first_of len1 length cell1 nth Nat.ltb Nat.leb bind]. rewrite full2_fine by lia. split; [reflexivity|].
    cbn [plunger_occupation]. eauto.
Qed.

Lemma measured_outcome lim1 lim2 lims1 lims2 x s ps a1 b1 a2 b2 v1 v2 res st :
  valid_scan (scan_config label lim1 lim2 lims1 lims2 x s) [a1; b1] [a2; b2] v1 v2 res -> scannable x v1 v2 res ->
  (forall g, x = Some g -> config_ok label g) -> ss_peaks s = Some ps ->
  ss_deform s = [] \/ Forall (fun n => (2 <= n)%Z) (res_list res) ->
  exists m st', measure_sensor_scan (scan_config label lim1 lim2 lims1 lims2 x s) [a1; b1] [a2; b2] v1 v2 res st = (Ok m, st').
Proof.
  intros V Sc Cf Hps Hd. unfold measure_sensor_scan.
  rewrite (proj2 (check_scan_iff _ _ _ _ _ _ (a1, b1) (a2, b2)) (conj V (conj eq_refl eq_refl))).
  destruct (occupations_found lim1 lim2 lims1 lims2 x s v1 v2 res st Sc Cf) as (o & res' & Eo & Po).
  unfold mbind at 1. rewrite Eo. clear Eo. set (occ := occ_shape res o).
  assert (B : ~ both_swept (volt_arg v1) (volt_arg v2) (sweep_arg (a1, b1)) (sweep_arg (a2, b2))).
  { intros [[B|B] _]; apply volt_arg_fixed in B; exact B. }
  assert (Ep : exists p h, scan_potential s occ (volt_arg v1) (volt_arg v2) (sweep_arg (a1, b1)) (sweep_arg (a2, b2)) = Ok (p, h) /\
    (Forall (fun n => (2 <= n)%Z) (res_list res) -> pot_two p)).
  { destruct Sc as [Pos Hres]. unfold occ, occ_shape. destruct (res_list res) as [|n [|k [|]]] eqn:Er.
    - destruct res as [n|[|n [|k [|]]]]; discriminate.
    - inversion Pos; subst. edestruct (scan_pixel_1d s (mk_arr1 (Z.to_nat n) (fun _ => o)) (volt_arg v1) (volt_arg v2) (sweep_arg (a1, b1)) (sweep_arg (a2, b2))) as (p & h & E & Hl & _).
      { cbn [len1]. lia. } { exact B. } 
      exists (Pot1 p), h. split; [exact E|]. intros F. inversion F; subst. cbn [pot_two]. rewrite Hl. cbn [len1]. lia.
    - inversion Pos as [|? ? P1 P2]; subst. inversion P2; subst.
      edestruct (scan_pixel_2d s (mk_arr2 (Z.to_nat k) (Z.to_nat n) (fun _ _ => o)) (volt_arg v1) (volt_arg v2) (sweep_arg (a1, b1)) (sweep_arg (a2, b2))) as (p & h & E & Hr & Hc & _).
      { cbn [rows]. lia. } { cbn [cols]. lia. } { exact B. }
      exists (Pot2 p), h. split; [exact E|]. intros F. inversion F as [|? ? F1 F2]; subst. inversion F2; subst. cbn [pot_two]. rewrite Hr, Hc. cbn [rows cols]. lia.
    - destruct res as [?|[|? [|? [|]]]]; try discriminate. }
  destruct Ep as (p & h & Ep & Two). destruct (scan_potential_pot _ _ _ _ _ _ _ _ Ep) as (Eh & Hn & (o' & Ho') & _).
  assert (Ho1 : first_occ (h_occ h) = Ok o') by (rewrite Eh; exact Ho').
  destruct (labels_total s h (volt_arg v1) (volt_arg v2) (sweep_arg (a1, b1)) (sweep_arg (a2, b2)) p ps o' Hn (volt_arg_fixed v1) (volt_arg_fixed v2)) as (L & h1 & EL); auto.
  { do 2 eexists; reflexivity. } { do 2 eexists; reflexivity. }
  destruct (labels_hidden _ _ _ _ _ _ _ _ _ _ Hn Ho1 EL) as (Ho2 & G1 & G2).
  assert (Er : exists im ps' h2, scan_response s h1 p = Ok (im, ps', h2)).
  { destruct (ss_deform s) as [|d ds] eqn:Ed.
    - destruct (ss_rise s) as [rise|] eqn:Eri.
      + destruct (response_rise_shown s h1 p rise o' (or_introl Ed) Eri Hn Ho2) as (? & ? & im & h' & _ & _ & E & _). eauto.
      + destruct (scan_response_plain s h1 p (or_introl Ed) Eri Hn) as (im & E & _). eauto.
    - destruct Hd as [Hd|Hd]; [discriminate|].
      destruct (calc_point_ok s h1 (pinch_off (ss_barrier1 s)) (pinch_off (ss_barrier2 s)) true o' Ho2) as (mid & Hm).
      destruct (scan_response_deformed s h1 p mid) as (im & E & _); auto.
      + congruence.
      + rewrite G1. reflexivity.
      + rewrite G2. reflexivity.
      + eauto. }
  destruct Er as (im & ps' & h2 & Er).
  cbn [scan_config sensor scan_object so_potential so_labels so_response sensor_potential_distortions sensor_response_distortions].
  unfold mbind. rewrite Ep. unfold joined. rewrite join_split. cbn [bind]. rewrite EL.
  unfold distort_potential, image_loop, images_loop, opt_list.
  assert (Dp : (match occ with OccOther => ret (PotMany (split_potentials p)) | _ => mbind (ret (split_potentials p)) (fun ys => ret (PotMany ys)) end) (Some h1)
     = (Ok (PotMany (split_potentials p)), Some h1)) by (destruct occ; reflexivity).
  destruct occ; cbv beta iota delta [mbind ret]; unfold joined; rewrite join_split; cbn [bind]; rewrite Er; eauto.
Qed.
Lemma measured_rise_equal lim1 lim2 lims1 lims2 x s rise a1 b1 a2 b2 v1 v2 res st m st' :
  ss_deform s = [] -> ss_rise s = Some rise -> plunger v1 = plunger v2 ->
  measure_sensor_scan (scan_config label lim1 lim2 lims1 lims2 x s) [a1; b1] [a2; b2] v1 v2 res st = (Ok m, st') ->
  exists o full q, plunger_occupation label x v1 v2 o /\
    (points_exist s o -> full_point s o (plunger v1, plunger v2) full) /\ pot_spec s o (plunger v1, plunger v2) full q /\
    shows s o (plunger v1, plunger v2) (fun _ mu => Rmax (base_dot s mu) (rise mu (at_sensor q))) (sc_scan m) (a1, b1) (a2, b2).
Proof. intros Hd Hr E H. destruct (measured_rise _ _ _ _ _ _ _ _ _ _ _ _ _ _ _ _ _ Hd Hr H) as [_ Q]. rewrite <- E in *. exact Q. Qed.
End Scan.
