(** Proofs about sensor scans and diagrams of a simulation with a SensorScanSensorGeneric object and distortions. *)
From Coq Require Import FunctionalExtensionality.
From Verif Require Import RPrelude Arr ModelSupport ModelTct ModelCsd ModelJumps ModelDistortions ModelSensor ModelSimulation ModelInstance
  ModelNoise ModelScanInstance ModelDefault ModelDefaultNoise ModelScanNoise SpecSupport SpecTct SpecCsd SpecSensor SpecSimulation SpecDistortions SpecInstance SpecNoise
  SpecScanInstance SpecScanNoise ProofsCsd ProofsDriver ProofsScan ProofsDistortions ProofsSimulation ProofsInstance ProofsScanSensor ProofsLabelScan ProofsSensorMore ProofsNoise ProofsScanInstance ProofsScanCsd ProofsScanNoise.
Local Open Scope R_scope.

Section Noisy.
Context {G : Type}.
Variable src : sources G.
Hypothesis Sok : sources_ok src.
Variable label : arr2 nat -> arr2 nat.
Notation world := (scan_world G).
Notation noisy := (noisy_scan_config src label).

Lemma occupations_same lim1 lim2 lims1 lims2 x s occs pots resps v1 v2 res : exists r,
  (forall w, scan_occupations (noisy lim1 lim2 lims1 lims2 x s occs pots resps) v1 v2 res w = (r, w)) /\
  (forall st, scan_occupations (scan_config label lim1 lim2 lims1 lims2 x s) v1 v2 res st = (r, st)).
Proof.
  unfold scan_occupations, noisy_scan_config, scan_config. cbn [ideal_csd_config].
  destruct x as [g|]; cbn [option_map]; [|eexists; split; intros; reflexivity].
  destruct v1 as [x1|]; [|eexists; split; intros; reflexivity]. destruct v2 as [x2|]; [|eexists; split; intros; reflexivity].
  unfold mbind, get_csd_data. cbn [fst snd]. 
  destruct (ideal_csd_geometric _ _ _ _ _ _ _ _ _) as [d|e]; cbn [bind]; [|eexists; split; intros; reflexivity].
  destruct res as [n|l]; eexists; split; intros; reflexivity.
Qed.

Lemma on_sensor_potential s occ v1 v2 w1 w2 (w : world) p h : scan_potential s occ v1 v2 w1 w2 = Ok (p, h) ->
  so_potential (scan_sensor_object (G := G) s) occ v1 v2 (Some (w1, w2)) w = (Ok (PotMany (split_potentials p)), (fst w, Some h)).
Proof. intros E. cbn [scan_sensor_object so_potential scan_object]. unfold on_sensor. rewrite E. reflexivity. Qed.
Lemma on_sensor_labels s v1 v2 w1 w2 p n h L h1 : get_sensor_scan_labels s h v1 v2 w1 w2 p = Ok (L, h1) ->
  so_labels (scan_sensor_object (G := G) s) v1 v2 w1 w2 (PotMany (split_potentials p)) (n, Some h) = (Ok L, (n, Some h1)).
Proof. intros E. cbn [scan_sensor_object so_labels scan_object]. unfold on_sensor. cbn [fst snd]. unfold joined. rewrite join_split. cbn [bind]. rewrite E. reflexivity. Qed.
Lemma on_sensor_response s P p n h im ps h1 : joined P = Ok p -> scan_response s h p = Ok (im, ps, h1) ->
  so_response (scan_sensor_object (G := G) s) P (n, Some h) = (Ok im, (n, Some h1)).
Proof. intros J E. cbn [scan_sensor_object so_response scan_object]. unfold on_sensor. cbn [fst snd]. rewrite J. cbn [bind]. rewrite E. reflexivity. Qed.

(** What a successful noisy scan did. *)
Lemma noisy_scan_inv lim1 lim2 lims1 lims2 x s occs pots resps s1 s2 v1 v2 res w w' m :
  measure_sensor_scan (noisy lim1 lim2 lims1 lims2 x s occs pots resps) s1 s2 v1 v2 res w = (Ok m, w') ->
  exists l1 l2 occ res' p h h1 z0 z1 z2 g p' im ps h2 zr g',
    check_sensor_scan (scan_config label lim1 lim2 lims1 lims2 x s) s1 s2 v1 v2 res = Ok (l1, l2) /\
    (forall st, scan_occupations (scan_config label lim1 lim2 lims1 lims2 x s) v1 v2 res st = (Ok (occ, res'), st)) /\
    scan_potential s occ (volt_arg v1) (volt_arg v2) (sweep_arg l1) (sweep_arg l2) = Ok (p, h) /\
    get_sensor_scan_labels s h (volt_arg v1) (volt_arg v2) (sweep_arg l1) (sweep_arg l2) p = Ok (sc_labels m, h1) /\
    drawn3_all src pots (pot_shape p) l1 l2 (w_rng (fst w)) = Ok (z0, z1, z2, g) /\
    (length z0 = shape_size (pot_shape p) /\ length z1 = shape_size (pot_shape p) /\ length z2 = shape_size (pot_shape p)) /\
    noisy_pot p z0 z1 z2 p' /\ scan_response s h1 p' = Ok (im, ps, h2) /\
    drawn_all src resps (image_shape im) l1 l1 g = Ok (zr, g') /\ length zr = shape_size (image_shape im) /\
    image_shape (sc_scan m) = image_shape im /\ pixels (sc_scan m) = plus_pixels (pixels im) zr /\
    w' = (mk_noise_world (w_sigma (fst w)) (w_jump (fst w)) g', Some h2).
Proof.
  intros H. unfold measure_sensor_scan in H.
  change (check_sensor_scan (noisy lim1 lim2 lims1 lims2 x s occs pots resps) s1 s2 v1 v2 res) with
    (check_sensor_scan (scan_config label lim1 lim2 lims1 lims2 x s) s1 s2 v1 v2 res) in H.
  destruct (check_sensor_scan (scan_config label lim1 lim2 lims1 lims2 x s) s1 s2 v1 v2 res) as [[l1 l2]|e] eqn:Ec; [|discriminate].
  destruct (occupations_same lim1 lim2 lims1 lims2 x s occs pots resps v1 v2 res) as (r & E1 & E2).
  unfold mbind at 1 in H. rewrite E1 in H. destruct r as [[occ res']|e]; [|discriminate].
  cbn [noisy_scan_config sensor sensor_potential_distortions sensor_response_distortions opt_list] in H.
  destruct (scan_potential s occ (volt_arg v1) (volt_arg v2) (sweep_arg l1) (sweep_arg l2)) as [[p h]|e] eqn:Ep.
  2:{ unfold mbind at 1 in H. cbn [scan_sensor_object so_potential scan_object] in H. unfold on_sensor in H. rewrite Ep in H. discriminate. }
  assert (No : occ <> OccOther) by (intros ->; discriminate).
  unfold mbind at 1 in H. rewrite (on_sensor_potential _ _ _ _ _ _ _ _ _ Ep) in H.
  unfold mbind at 1 in H. rewrite (on_sensor_potential _ _ _ _ _ _ _ _ _ Ep) in H. cbn [fst] in H.
  destruct (get_sensor_scan_labels s h (volt_arg v1) (volt_arg v2) (sweep_arg l1) (sweep_arg l2) p) as [[L h1]|e] eqn:El.
  2:{ unfold mbind at 1 in H. cbn [scan_sensor_object so_labels scan_object] in H. unfold on_sensor in H. cbn [fst snd] in H. unfold joined in H. rewrite join_split in H. cbn [bind] in H.
      rewrite El in H. discriminate. }
  unfold mbind at 1 in H. rewrite (on_sensor_labels _ _ _ _ _ _ _ _ _ _ El) in H.
  pose proof (distort_spec src Sok l1 l2 pots occ p (fst w, Some h1) No) as D. cbn [fst] in D.
  destruct (drawn3_all src pots (pot_shape p) l1 l2 (w_rng (fst w))) as [[[[z0 z1] z2] g]|e] eqn:Dr.
  2:{ unfold mbind at 1 in H. destruct (distort_potential _ _ _ _ _ _) as [[P|e'] w2]; cbn [fst] in D; discriminate. }
  destruct D as (P & p' & Ed & J & Np & Ls). unfold mbind at 1 in H. rewrite Ed in H. unfold set_rng in H. cbn [fst snd] in H.
  destruct (scan_response s h1 p') as [[[im ps] h2]|e] eqn:Er.
  2:{ unfold mbind at 1 in H. cbn [scan_sensor_object so_response scan_object] in H. unfold on_sensor in H. cbn [fst snd] in H. rewrite J in H. cbn [bind] in H. rewrite Er in H. discriminate. }
  unfold mbind at 1 in H. rewrite (on_sensor_response _ _ _ _ _ _ _ _ J Er) in H.
  pose proof (image_loop_spec src Sok l1 l1 resps im (mk_noise_world (w_sigma (fst w)) (w_jump (fst w)) g, Some h2)) as Dl. cbn [fst w_rng] in Dl.
  destruct (drawn_all src resps (image_shape im) l1 l1 g) as [[zr g']|e] eqn:Drr.
  2:{ unfold mbind at 1 in H. destruct (image_loop _ _ _ _ _) as [[P'|e'] w2]; cbn [fst] in Dl; discriminate. }
  destruct Dl as (Lr & im' & E' & Sh & Px). unfold mbind at 1 in H. rewrite E' in H. unfold set_rng in H. cbn [fst snd w_sigma w_jump] in H. injection H as <- <-. cbn [sc_scan sc_labels].
  exists l1, l2, occ, res', p, h, h1, z0, z1, z2, g, p', im, ps, h2, zr, g'. split; [reflexivity|]. repeat (split; [assumption|]). reflexivity.
Qed.
(** The scan without distortions. *)
Lemma clean_scan_run lim1 lim2 lims1 lims2 x s s1 s2 v1 v2 res st l1 l2 occ res' p h h1 L im ps h2 :
  check_sensor_scan (scan_config label lim1 lim2 lims1 lims2 x s) s1 s2 v1 v2 res = Ok (l1, l2) ->
  (forall st, scan_occupations (scan_config label lim1 lim2 lims1 lims2 x s) v1 v2 res st = (Ok (occ, res'), st)) ->
  scan_potential s occ (volt_arg v1) (volt_arg v2) (sweep_arg l1) (sweep_arg l2) = Ok (p, h) ->
  get_sensor_scan_labels s h (volt_arg v1) (volt_arg v2) (sweep_arg l1) (sweep_arg l2) p = Ok (L, h1) ->
  scan_response s h1 p = Ok (im, ps, h2) ->
  exists m, measure_sensor_scan (scan_config label lim1 lim2 lims1 lims2 x s) s1 s2 v1 v2 res st = (Ok m, Some h2) /\ sc_labels m = L /\ sc_scan m = im.
Proof.
  intros Ec Eo Ep El Er. unfold measure_sensor_scan. rewrite Ec. unfold mbind at 1. rewrite Eo.
  cbn [scan_config sensor scan_object so_potential so_labels so_response sensor_potential_distortions sensor_response_distortions].
  unfold mbind. rewrite Ep. unfold joined. rewrite join_split. cbn [bind]. rewrite El.
  unfold distort_potential, image_loop, images_loop, opt_list.
  assert (No : occ <> OccOther) by (intros ->; discriminate).
  destruct occ; [| |contradiction]; cbv beta iota delta [mbind ret]; unfold joined; rewrite join_split; cbn [bind]; rewrite Er; eexists; (split; [reflexivity|]); auto.
Qed.

(** ** Values of the pixels *)
Lemma response_any s h p o : undeformed s h -> pot_nonempty p -> first_occ (h_occ h) = Ok o ->
  exists off im h', scan_response s h p = Ok (im, ss_peaks s, h') /\
    combined s (fun i j => dot_value s off (at_sensor (pcell p i j))) p im /\
    (forall rise, ss_rise s = Some rise -> exists pt q,
       calc_point s h (fully_conductive (ss_barrier1 s)) (fully_conductive (ss_barrier2 s)) (sensor_is_swept h) = Ok pt /\
       pot_spec s o (fst (h_g1 h), fst (h_g2 h)) pt q /\ off = at_sensor q).
Proof.
  intros U Hn Ho. unfold dot_value. destruct (ss_rise s) as [rise|] eqn:Er.
  - destruct (response_rise_shown s h p rise o U Er Hn Ho) as (pt & q & im & h' & Hpt & Hq & E & C).
    exists (at_sensor q), im, h'. split; [exact E|]. split; [exact C|]. intros r [= <-]. exists pt, q. auto.
  - destruct (scan_response_plain s h p U Er Hn) as (im & E & C). exists 0, im, h. split; [exact E|]. split; [exact C|]. discriminate.
Qed.
Lemma combined_shape s dot p im : combined s dot p im -> image_shape im = pot_shape p.
Proof. intros [Sc _]. destruct im as [y|y], p as [z|z]; cbn in Sc |- *; try contradiction; [congruence|]. destruct Sc. congruence. Qed.
Lemma response_state s h p p' im ps h1 im' ps' h1' : ss_deform s = [] -> scan_response s h p = Ok (im, ps, h1) -> scan_response s h p' = Ok (im', ps', h1') -> h1 = h1'.
Proof.
  intros Hd E E'. unfold scan_response, dot_response in E, E'. rewrite Hd in E, E'. cbn [length Nat.eqb negb andb] in E, E'. unfold raise_if in E, E'.
  destruct (ss_rise s) as [rise|].
  - destruct (first_occ (h_occ h)) as [o|]; [|discriminate]. cbn [bind] in E, E'.
    destruct (calc_point _ _ _ _ _) as [pt|]; [|discriminate]. cbn [bind] in E, E'.
    destruct (scan_potential _ _ _ _ _ _) as [[[a|a] hh]|]; [| |discriminate]; cbn [bind fst snd] in E, E'; [|discriminate].
    destruct (length (pot_list p) =? 0)%nat, (length (pot_list p') =? 0)%nat; try discriminate. injection E as _ _ <-. injection E' as _ _ <-. reflexivity.
  - cbn [bind] in E, E'. destruct (length (pot_list p) =? 0)%nat, (length (pot_list p') =? 0)%nat; try discriminate. injection E as _ _ <-. injection E' as _ _ <-. reflexivity.
Qed.
Lemma pixel_index im l1 l2 k w y p : image_shape im = pot_shape p -> scan_pixel im l1 l2 k w y ->
  exists i j, (i < nrows p)%nat /\ (j < ncols p)%nat /\ k = (i * ncols p + j)%nat /\ w = volt_pix p l1 l2 i j /\ y = nth k (pixels im) 0.
Proof.
  intros Sh H. destruct im as [c|c], p as [a|a]; cbn in Sh; try discriminate; cbn [scan_pixel nrows ncols volt_pix] in *.
  - injection Sh as Sh. destruct H as (Hk & -> & ->). exists 0%nat, k. rewrite <- Sh. split; [lia|]. split; [lia|]. split; [lia|]. split; [reflexivity|]. symmetry. apply nth_pixels1, Hk.
  - injection Sh as S1 S2. destruct H as (i & j & Hi & Hj & -> & -> & ->). exists i, j. rewrite <- S1, <- S2. split; [lia|]. split; [lia|]. split; [reflexivity|]. split; [reflexivity|].
    symmetry. apply nth_pixels2; assumption.
Qed.
Lemma requested_same res im sh : requested_shape res im -> image_shape im = sh -> requested res sh.
Proof. intros H <-. destruct im as [c|c]; cbn in *; [exact H|]. rewrite H. reflexivity. Qed.

Lemma scan_occ_found lim1 lim2 lims1 lims2 x s s1 s2 v1 v2 res l1 l2 st occ res' :
  check_sensor_scan (scan_config label lim1 lim2 lims1 lims2 x s) s1 s2 v1 v2 res = Ok (l1, l2) ->
  scan_occupations (scan_config label lim1 lim2 lims1 lims2 x s) v1 v2 res st = (Ok (occ, res'), st) ->
  s1 = [fst l1; snd l1] /\ s2 = [fst l2; snd l2] /\ exists o, plunger_occupation label x v1 v2 o /\ constant_scan res o occ.
Proof.
  intros Ec Eo. apply check_scan_iff in Ec. destruct Ec as (V & E1 & E2). split; [exact E1|]. split; [exact E2|].
  apply scan_occupations_ok in Eo; [|exact (vs_axes _ _ _ _ _ _ V)]. destruct Eo as (_ & _ & o & Ho & Hc). exists o. split; [|exact Hc].
  unfold scan_occupation in Ho. cbn [scan_config ideal_csd_config] in Ho. unfold plunger_occupation. destruct x as [g|]; cbn [option_map] in Ho; [|apply Ho].
  destruct v1 as [x1|]; [|apply Ho]. destruct v2 as [x2|]; [|apply Ho].
  destruct Ho as (a & l & Hg & La & ->). unfold get_csd_data in Hg. cbn [fst snd] in Hg.
  destruct (ideal_csd_geometric _ _ _ _ _ _ _ _ _) as [d|e] eqn:I; [|discriminate]. cbn [bind] in Hg.
  destruct d as [oc t|oc t]; cbn [csd_arrays] in Hg; [|discriminate]. injection Hg as <- _. exists oc, t. split; [reflexivity|].
  cbn [of_list1 len1 cell1] in *. destruct oc; [cbn in La; lia|reflexivity].
Qed.

Lemma scan_values_drawn pots resps :
  forall lim1 lim2 lims1 lims2 x s occs a1 b1 a2 b2 v1 v2 res w w' m, ss_deform s = [] ->
  measure_sensor_scan (noisy lim1 lim2 lims1 lims2 x s occs pots resps) [a1; b1] [a2; b2] v1 v2 res w = (Ok m, w') ->
  exists z0 z1 z2 g zr o off, let sh := image_shape (sc_scan m) in
    requested res sh /\ drawn3_all src pots sh (a1, b1) (a2, b2) (w_rng (fst w)) = Ok (z0, z1, z2, g) /\ drawn_all src resps sh (a1, b1) (a1, b1) g = Ok (zr, w_rng (fst w')) /\
    plunger_occupation label x v1 v2 o /\
    (ss_rise s <> None -> exists full q, (points_exist s o -> full_point s o (plunger v1, plunger v1) full) /\
       pot_spec s o (plunger v1, plunger v1) full q /\ off = at_sensor q) /\
    forall k u y, scan_pixel (sc_scan m) (a1, b1) (a2, b2) k u y -> exists q, pot_spec s o (plunger v1, plunger v2) u q /\
      noisy_value s off q (nth k z0 0) (nth k z1 0) (nth k z2 0) (nth k zr 0) y.
Proof.
  intros lim1 lim2 lims1 lims2 x s occs a1 b1 a2 b2 v1 v2 res w w' m Hd H.
  destruct (noisy_scan_inv _ _ _ _ _ _ _ _ _ _ _ _ _ _ _ _ _ H) as
    (l1 & l2 & occ & res' & p & h & h1 & z0 & z1 & z2 & g & p' & im & ps & h2 & zr & g' & Ec & Eo & Ep & El & Dr & Ls & Np & Er & Drr & Lr & Sh & Px & ->).
  destruct (scan_potential_pot _ _ _ _ _ _ _ _ Ep) as (Eh & Hn & (o0 & Ho0) & _).
  assert (Hf : first_occ (h_occ h) = Ok o0) by (rewrite Eh; exact Ho0).
  destruct (labels_hidden _ _ _ _ _ _ _ _ _ _ Hn Hf El) as (Ho2 & G1 & G2). rewrite limits_plunger in G1, G2. cbn [fst snd] in G1, G2.
  destruct (scan_occ_found _ _ _ _ _ _ _ _ _ _ _ _ _ None _ _ Ec (Eo None)) as (Es1 & Es2 & o & Ho & Hc).
  injection Es1 as C1 D1. injection Es2 as C2 D2.
  assert (o0 = o) as -> by (rewrite (constant_first _ _ _ _ _ _ _ _ _ _ Hc Ep) in Ho0; congruence).
  assert (El1 : l1 = (a1, b1)) by (destruct l1; cbn in *; congruence). assert (El2 : l2 = (a2, b2)) by (destruct l2; cbn in *; congruence).
  destruct (scan_cell s res o occ v1 v2 l1 l2 p h Hc Ep) as [Rs Q].
  destruct (response_any s h1 p' o (or_introl Hd) (noisy_nonempty _ _ _ _ _ Np Hn) Ho2) as (off & im1 & h3 & E1 & C & Hoff).
  rewrite E1 in Er. injection Er as <- _ _.
  assert (Si : image_shape im1 = pot_shape p).
  { destruct C as [Sc _]. destruct Np as [Sp _]. rewrite <- Sp. destruct im1 as [y|y], p' as [z|z]; cbn in Sc |- *; try contradiction; [congruence|]. destruct Sc. congruence. }
  exists z0, z1, z2, g, zr, o, off. cbv zeta. rewrite Sh, Si in *. rewrite <- El1, <- El2. cbn [fst w_rng].
  split. { destruct p as [a|a]; cbn [pot_shape requested]; [exact Rs|]. rewrite Rs. reflexivity. }
  split; [exact Dr|]. split; [exact Drr|]. split; [exact Ho|]. split.
  { intros Hr. destruct (ss_rise s) as [rise|] eqn:Eri; [|contradiction]. destruct (Hoff rise eq_refl) as (pt & q & Hpt & Hq & ->).
    rewrite G1, G2 in Hq. cbn [fst] in Hq. exists pt, q. split; [|split; [exact Hq|reflexivity]]. intros Pe.
    replace (sensor_is_swept h1) with true in Hpt.
    - apply (solved s h1); auto. rewrite G1, G2. reflexivity.
    - symmetry. unfold sensor_is_swept. rewrite G1. unfold equal_ends. cbn [fst snd]. unfold Reqb. destruct (Req_EM_T _ _); [reflexivity|congruence]. }
  intros k u y Hy. destruct (pixel_index _ _ _ _ _ _ p Sh Hy) as (i & j & Hi & Hj & Hk & -> & ->).
  exists (pcell p i j). split; [exact (Q i j Hi Hj)|].
  assert (Sh' : image_shape (sc_scan m) = image_shape im1) by congruence. assert (Lr' : length zr = shape_size (image_shape im1)) by congruence.
  exact (proj2 (response_value s off p z0 z1 z2 p' im1 (sc_scan m) zr k i j Np C Sh' Lr' Px Hi Hj Hk)).
Qed.
Lemma noisy_scan_values pots resps :
  exists (np : shape -> limits -> limits -> G -> result (list R * list R * list R * G)) (nr : shape -> limits -> limits -> G -> result (list R * G)),
  (forall sh l1 l2 g g' z0 z1 z2, np sh l1 l2 g = Ok (z0, z1, z2, g') ->
     length z0 = shape_size sh /\ length z1 = shape_size sh /\ length z2 = shape_size sh) /\
  (forall sh l1 l2 g g' z, nr sh l1 l2 g = Ok (z, g') -> length z = shape_size sh) /\
  forall lim1 lim2 lims1 lims2 x s occs a1 b1 a2 b2 v1 v2 res w w' m, ss_deform s = [] ->
  measure_sensor_scan (noisy lim1 lim2 lims1 lims2 x s occs pots resps) [a1; b1] [a2; b2] v1 v2 res w = (Ok m, w') ->
  exists z0 z1 z2 g zr o off, let sh := image_shape (sc_scan m) in
    requested res sh /\ np sh (a1, b1) (a2, b2) (w_rng (fst w)) = Ok (z0, z1, z2, g) /\ nr sh (a1, b1) (a1, b1) g = Ok (zr, w_rng (fst w')) /\
    plunger_occupation label x v1 v2 o /\
    (ss_rise s <> None -> exists full q, (points_exist s o -> full_point s o (plunger v1, plunger v1) full) /\
       pot_spec s o (plunger v1, plunger v1) full q /\ off = at_sensor q) /\
    forall k u y, scan_pixel (sc_scan m) (a1, b1) (a2, b2) k u y -> exists q, pot_spec s o (plunger v1, plunger v2) u q /\
      noisy_value s off q (nth k z0 0) (nth k z1 0) (nth k z2 0) (nth k zr 0) y.
Proof.
  exists (drawn3_all src pots), (drawn_all src resps). split; [|split].
  { intros sh l1 l2 g g' z0 z1 z2 E. pose (im := match sh with Shape1 n => Img1 (mk_arr1 n (fun _ => 0)) | Shape2 r c => Img2 (mk_arr2 r c (fun _ _ => 0)) end).
    assert (Si : image_shape im = sh) by (destruct sh; reflexivity).
    pose (w := (mk_noise_world (fun _ => None) (fun _ => mk_jump_state None None) g, None) : world).
    pose proof (images_loop_spec src Sok l1 l2 sh pots im im im w Si Si Si) as H. cbn [w fst w_rng] in H. rewrite E in H. destruct H as (? & ? & ? & _ & T & _). exact T. }
  { intros sh l1 l2 g g' z E. exact (drawn_all_length src Sok resps sh l1 l2 g z g' E). }
  exact (scan_values_drawn pots resps).
Qed.

Lemma noisy_scan_labels lim1 lim2 lims1 lims2 x s occs pots resps s1 s2 v1 v2 res w w' m :
  measure_sensor_scan (noisy lim1 lim2 lims1 lims2 x s occs pots resps) s1 s2 v1 v2 res w = (Ok m, w') ->
  (forall st m0 st', measure_sensor_scan (scan_config label lim1 lim2 lims1 lims2 x s) s1 s2 v1 v2 res st = (Ok m0, st') -> sc_labels m0 = sc_labels m) /\
  (ss_deform s = [] -> forall st, exists m0, measure_sensor_scan (scan_config label lim1 lim2 lims1 lims2 x s) s1 s2 v1 v2 res st = (Ok m0, snd w') /\
     image_shape (sc_scan m0) = image_shape (sc_scan m)) /\
  w_sigma (fst w') = w_sigma (fst w) /\ w_jump (fst w') = w_jump (fst w).
Proof.
  intros H. destruct (noisy_scan_inv _ _ _ _ _ _ _ _ _ _ _ _ _ _ _ _ _ H) as
    (l1 & l2 & occ & res' & p & h & h1 & z0 & z1 & z2 & g & p' & im & ps & h2 & zr & g' & Ec & Eo & Ep & El & Dr & Ls & Np & Er & Drr & Lr & Sh & Px & ->).
  split; [|split; [|split; reflexivity]].
  - intros st m0 st' M0. unfold measure_sensor_scan in M0. rewrite Ec in M0. unfold mbind at 1 in M0. rewrite Eo in M0.
    cbn [scan_config sensor scan_object so_potential so_labels so_response sensor_potential_distortions sensor_response_distortions] in M0.
    unfold mbind in M0. rewrite Ep in M0. unfold joined in M0. rewrite join_split in M0. cbn [bind] in M0. rewrite El in M0.
    unfold distort_potential, image_loop, images_loop, opt_list in M0.
    assert (No : occ <> OccOther) by (intros ->; discriminate).
    destruct occ; [| |contradiction]; cbv beta iota delta [mbind ret] in M0; unfold joined in M0; rewrite join_split in M0; cbn [bind] in M0;
    (destruct (scan_response s h1 p) as [[[im0 ps0] h0]|e]; [|discriminate]; injection M0 as <- _; reflexivity).
  - intros Hd st. destruct (scan_potential_pot _ _ _ _ _ _ _ _ Ep) as (Eh & Hn & (o0 & Ho0) & _).
    assert (Hf : first_occ (h_occ h) = Ok o0) by (rewrite Eh; exact Ho0).
    destruct (labels_hidden _ _ _ _ _ _ _ _ _ _ Hn Hf El) as (Ho2 & _ & _).
    destruct (response_any s h1 p o0 (or_introl Hd) Hn Ho2) as (off0 & im0 & h0 & E0 & C0 & _).
    destruct (clean_scan_run _ _ _ _ _ _ _ _ _ _ _ st _ _ _ _ _ _ _ _ _ _ _ Ec Eo Ep El E0) as (m0 & M0 & _ & Sm).
    destruct (response_any s h1 p' o0 (or_introl Hd) (noisy_nonempty _ _ _ _ _ Np Hn) Ho2) as (off1 & im1 & h3 & E1 & C1 & _).
    rewrite E1 in Er. injection Er as <- _ <-. cbn [snd]. exists m0. split.
    + rewrite M0. do 2 f_equal. exact (response_state s h1 p p' _ _ _ _ _ _ Hd E0 E1).
    + rewrite Sm, Sh. rewrite (combined_shape _ _ _ _ C0), (combined_shape _ _ _ _ C1). symmetry. exact (proj1 Np).
Qed.

(** ** Diagrams *)
Lemma noisy_csd_inv lim1 lim2 lims1 lims2 x s occs pots resps s1 s2 v1 v2 res w w' m :
  measure (noisy lim1 lim2 lims1 lims2 (Some x) s occs pots resps) s1 s2 v1 v2 res w = (Ok m, w') ->
  exists l1 l2 d n1 p h z0 z1 z2 g p' im ps h2 zr g',
    s1 = [fst l1; snd l1] /\ s2 = [fst l2; snd l2] /\ ideal_of label x (fst l1) (snd l1) (fst l2) (snd l2) res = Ok d /\
    occupation_loop (map (occ_object src) occs) (get_csd_data label x) l1 l2 (csd_arrays d) (fst w) = (Ok (m_occ m, m_lead m), n1) /\
    scan_potential s (m_occ m) (sweep_arg l1) (sweep_arg l2) (volt_arg v1) (volt_arg v2) = Ok (p, h) /\
    drawn3_all src pots (pot_shape p) l1 l2 (w_rng n1) = Ok (z0, z1, z2, g) /\
    (length z0 = shape_size (pot_shape p) /\ length z1 = shape_size (pot_shape p) /\ length z2 = shape_size (pot_shape p)) /\
    noisy_pot p z0 z1 z2 p' /\ scan_response s h p' = Ok (im, ps, h2) /\
    drawn_all src resps (image_shape im) l1 l2 g = Ok (zr, g') /\ length zr = shape_size (image_shape im) /\
    image_shape (m_csd m) = image_shape im /\ pixels (m_csd m) = plus_pixels (pixels im) zr /\
    w' = (mk_noise_world (w_sigma n1) (w_jump n1) g', Some h2).
Proof.
  intros H. unfold measure in H.
  assert (C : forall gen l1 l2, check_measure (noisy lim1 lim2 lims1 lims2 (Some x) s occs pots resps) s1 s2 v1 v2 res = Ok (gen, l1, l2) ->
    gen = get_csd_data label x /\ s1 = [fst l1; snd l1] /\ s2 = [fst l2; snd l2]).
  { intros gen l1 l2. unfold check_measure, noisy_scan_config. cbn [ideal_csd_config option_map volt_limits_sensor_g1 volt_limits_sensor_g2].
    destruct s1 as [|u1 [|u2 [|u3 s1']]]; try discriminate. destruct s2 as [|u4 [|u5 [|u6 s2']]]; try discriminate.
    unfold raise_if. destruct (_ || _)%bool; [discriminate|]. destruct (sensor_volt_outside lims1 v1) as [[|]|]; cbn [bind]; try discriminate.
    destruct (sensor_volt_outside lims2 v2) as [[|]|]; cbn [bind]; try discriminate.
    repeat match goal with |- context [if ?b then _ else _] => destruct b end; try discriminate; intros E; inversion E; auto. }
  destruct (check_measure (noisy lim1 lim2 lims1 lims2 (Some x) s occs pots resps) s1 s2 v1 v2 res) as [[[gen l1] l2]|e]; [|discriminate].
  destruct (C gen _ _ eq_refl) as (-> & E1 & E2). clear C.
  unfold mbind at 1 in H. unfold get_csd_data at 1 in H.
  change (ideal_csd_geometric label (g_tcts x) [fst l1; snd l1] [fst l2; snd l2] res (g_rotation x) (g_lut x) (g_cdf x) (g_gamma x))
    with (ideal_of label x (fst l1) (snd l1) (fst l2) (snd l2) res) in H.
  destruct (ideal_of label x (fst l1) (snd l1) (fst l2) (snd l2) res) as [d|e] eqn:Ed; [|discriminate]. cbn [bind] in H.
  unfold mbind at 1 in H. cbn [noisy_scan_config occupation_distortions opt_list sensor sensor_potential_distortions sensor_response_distortions] in H.
  rewrite (lifted_loop src occs _ (get_csd_data label x) l1 l2 _ (csd_lifts label x)) in H. unfold on_noise at 1 in H.
  destruct (occupation_loop (map (occ_object src) occs) (get_csd_data label x) l1 l2 (csd_arrays d) (fst w)) as [[ol|e] n1] eqn:Eo; [|discriminate].
  change (so_scan (scan_sensor_object (G := G) s)) with true in H. cbv iota in H.
  destruct (scan_potential s (fst ol) (sweep_arg l1) (sweep_arg l2) (volt_arg v1) (volt_arg v2)) as [[p h]|e] eqn:Ep.
  2:{ unfold mbind at 1 in H. cbn [scan_sensor_object so_potential scan_object] in H. unfold on_sensor in H. rewrite Ep in H. discriminate. }
  assert (No : fst ol <> OccOther) by (intros E; rewrite E in Ep; discriminate).
  unfold mbind at 1 in H. rewrite (on_sensor_potential _ _ _ _ _ _ _ _ _ Ep) in H. cbn [fst snd] in H.
  pose proof (distort_spec src Sok l1 l2 pots (fst ol) p (n1, Some h) No) as D. cbn [fst] in D.
  destruct (drawn3_all src pots (pot_shape p) l1 l2 (w_rng n1)) as [[[[z0 z1] z2] g]|e] eqn:Dr.
  2:{ unfold mbind at 1 in H. destruct (distort_potential _ _ _ _ _ _) as [[P|e'] w2]; cbn [fst] in D; discriminate. }
  destruct D as (P & p' & Edd & J & Np & Ls). unfold mbind at 1 in H. rewrite Edd in H. unfold set_rng in H. cbn [fst snd] in H.
  destruct (scan_response s h p') as [[[im ps] h2]|e] eqn:Er.
  2:{ unfold mbind at 1 in H. cbn [scan_sensor_object so_response scan_object] in H. unfold on_sensor in H. cbn [fst snd] in H. rewrite J in H. cbn [bind] in H. rewrite Er in H. discriminate. }
  unfold mbind at 1 in H. rewrite (on_sensor_response _ _ _ _ _ _ _ _ J Er) in H.
  pose proof (image_loop_spec src Sok l1 l2 resps im (mk_noise_world (w_sigma n1) (w_jump n1) g, Some h2)) as Dl. cbn [fst w_rng] in Dl.
  destruct (drawn_all src resps (image_shape im) l1 l2 g) as [[zr g']|e] eqn:Drr.
  2:{ unfold mbind at 1 in H. destruct (image_loop _ _ _ _ _) as [[P'|e'] w2]; cbn [fst] in Dl; discriminate. }
  destruct Dl as (Lr & im' & E' & Sh & Px). unfold mbind at 1 in H. rewrite E' in H. unfold set_rng in H. cbn [fst snd w_sigma w_jump] in H. injection H as <- <-.
  cbn [m_csd m_occ m_lead]. rewrite <- surjective_pairing.
  exists l1, l2, d, n1, p, h, z0, z1, z2, g, p', im, ps, h2, zr, g'. repeat (split; [assumption|]). reflexivity.
Qed.

Lemma csd_pixel_index im occ l1 l2 k v o y p s v1 v2 h : scan_potential s occ (sweep_arg l1) (sweep_arg l2) (volt_arg v1) (volt_arg v2) = Ok (p, h) ->
  image_shape im = pot_shape p -> csd_pixel im occ l1 l2 k v o y ->
  exists i j, (i < nrows p)%nat /\ (j < ncols p)%nat /\ k = (i * ncols p + j)%nat /\ pot_spec s o v (plunger v1, plunger v2) (pcell p i j) /\ y = nth k (pixels im) 0.
Proof.
  intros Ep Sh H. pose proof (csd_cell s occ v1 v2 l1 l2 p h Ep) as Q.
  destruct im as [c|c], p as [a|a]; cbn in Sh; try discriminate; destruct occ as [b|b|]; try contradiction; cbn [csd_pixel nrows ncols] in *.
  - destruct Q as [Hl Q]. injection Sh as Sh. destruct H as (Hk & _ & -> & -> & ->). exists 0%nat, k. split; [lia|]. split; [lia|]. split; [lia|]. split; [exact (Q k Hk)|].
    symmetry. apply nth_pixels1. lia.
  - destruct Q as (Hr & Hc & Q). injection Sh as S1 S2. destruct H as (i & j & Hi & Hj & Hk & _ & _ & -> & -> & ->). exists i, j. split; [lia|]. split; [lia|].
    split; [rewrite Hc; exact Hk|]. split; [exact (Q i j Hi Hj)|].
    rewrite Hk. replace (cols b) with (cols c) by congruence. symmetry. apply nth_pixels2; lia.
Qed.
Lemma csd_pixel_exists im occ l1 l2 k sh : image_shape im = sh -> shape_of_occ occ = Some sh -> (k < shape_size sh)%nat -> exists v o y, csd_pixel im occ l1 l2 k v o y.
Proof.
  intros <- So Hk. destruct im as [c|c], occ as [a|a|]; cbn in So; try discriminate; cbn [image_shape shape_size csd_pixel] in *.
  - injection So as So. do 3 eexists. split; [lia|]. split; [congruence|]. auto.
  - injection So as S1 S2. destruct (Nat.eq_dec (cols c) 0) as [E|E]; [rewrite E in Hk; lia|].
    do 3 eexists. exists (k / cols c)%nat, (k mod cols c)%nat.
    split; [rewrite S1; apply Nat.div_lt_upper_bound; lia|]. split; [rewrite S2; apply Nat.mod_upper_bound; exact E|].
    split; [rewrite S2; rewrite (Nat.div_mod k (cols c) E) at 1; lia|]. auto.
Qed.
Lemma scan_pixel_exists im l1 l2 k : (k < shape_size (image_shape im))%nat -> exists w y, scan_pixel im l1 l2 k w y.
Proof.
  intros Hk. destruct im as [c|c]; cbn [image_shape shape_size scan_pixel] in *.
  - do 2 eexists. split; [lia|]. auto.
  - destruct (Nat.eq_dec (cols c) 0) as [E|E]; [rewrite E in Hk; lia|].
    do 2 eexists. exists (k / cols c)%nat, (k mod cols c)%nat.
    split; [apply Nat.div_lt_upper_bound; lia|]. split; [apply Nat.mod_upper_bound; exact E|].
    split; [rewrite (Nat.div_mod k (cols c) E) at 1; lia|]. auto.
Qed.

Lemma csd_values_drawn pots resps :
  forall lim1 lim2 lims1 lims2 x s occs a1 b1 a2 b2 v1 v2 res w w' m, config_ok label x -> ss_deform s = [] \/ a1 <> b1 \/ a2 <> b2 ->
  measure (noisy lim1 lim2 lims1 lims2 (Some x) s occs pots resps) [a1; b1] [a2; b2] v1 v2 res w = (Ok m, w') ->
  exists sh g0 z0 z1 z2 g zr off,
    requested res sh /\ image_shape (m_csd m) = sh /\ shape_of_occ (m_occ m) = Some sh /\ (occs = [] -> g0 = w_rng (fst w)) /\
    drawn3_all src pots sh (a1, b1) (a2, b2) g0 = Ok (z0, z1, z2, g) /\ drawn_all src resps sh (a1, b1) (a2, b2) g = Ok (zr, w_rng (fst w')) /\
    (ss_rise s <> None -> exists o1 pt q, first_occ (m_occ m) = Ok o1 /\ pot_spec s o1 (a1, a2) pt q /\
       (points_exist s o1 -> a1 = b1 \/ a2 = b2 -> full_point s o1 (a1, a2) pt) /\ off = at_sensor q) /\
    forall k v o y, csd_pixel (m_csd m) (m_occ m) (a1, b1) (a2, b2) k v o y -> exists q, pot_spec s o v (plunger v1, plunger v2) q /\
      noisy_value s off q (nth k z0 0) (nth k z1 0) (nth k z2 0) (nth k zr 0) y.
Proof.
  intros lim1 lim2 lims1 lims2 x s occs a1 b1 a2 b2 v1 v2 res w w' m C Hd H.
  destruct (noisy_csd_inv _ _ _ _ _ _ _ _ _ _ _ _ _ _ _ _ _ H) as
    (l1 & l2 & d & n1 & p & h & z0 & z1 & z2 & g & p' & im & ps & h2 & zr & g' & Es1 & Es2 & Ed & Eo & Ep & Dr & Ls & Np & Er & Drr & Lr & Sh & Px & ->).
  injection Es1 as -> ->. injection Es2 as -> ->. rewrite <- !surjective_pairing in *.
  destruct (ideal_requested label _ _ _ _ _ _ _ C Ed) as (sh & Hs & Hr).
  pose proof (loop_shape src _ _ _ _ _ _ _ _ Eo) as L. cbn [fst] in L.
  destruct (scan_potential_pot _ _ _ _ _ _ _ _ Ep) as (Eh & Hn & (o1 & Ho) & _).
  assert (G1 : h_g1 h = l1) by (rewrite Eh; destruct l1; reflexivity). assert (G2 : h_g2 h = l2) by (rewrite Eh; destruct l2; reflexivity).
  assert (Ho' : first_occ (h_occ h) = Ok o1) by (rewrite Eh; exact Ho).
  assert (U : undeformed s h).
  { destruct Hd as [Hd|Hd]; [left; exact Hd|]. right. rewrite G1, G2. unfold fixed. tauto. }
  destruct (response_any s h p' o1 U (noisy_nonempty _ _ _ _ _ Np Hn) Ho') as (off & im1 & h3 & E1 & Cm & Hoff).
  rewrite E1 in Er. injection Er as <- _ _.
  assert (Si : image_shape im1 = pot_shape p) by (rewrite (combined_shape _ _ _ _ Cm); exact (proj1 Np)).
  assert (Sp : pot_shape p = sh).
  { pose proof (csd_cell s (m_occ m) v1 v2 l1 l2 p h Ep) as Q. assert (So : shape_of_occ (m_occ m) = Some sh) by congruence.
    destruct p as [a|a], (m_occ m) as [b|b|]; try contradiction; cbn in So |- *; injection So as <-; [destruct Q; congruence|destruct Q as (? & ? & _); congruence]. }
  exists sh, (w_rng n1), z0, z1, z2, g, zr, off.
  split; [exact Hr|]. split; [congruence|]. split; [congruence|]. split.
  { intros O. destruct (loop_nil src _ _ _ _ _ _ _ _ O Eo) as [_ ->]. reflexivity. }
  split; [congruence|]. split; [cbn [fst w_rng]; congruence|]. split.
  { intros Hr'. destruct (ss_rise s) as [rise|] eqn:Eri; [|contradiction]. destruct (Hoff rise eq_refl) as (pt & q & Hpt & Hq & ->).
    rewrite G1, G2 in Hq. exists o1, pt, q. split; [exact Ho|]. split; [exact Hq|]. split; [|reflexivity].
    intros Pe Ee. assert (Sw : sensor_is_swept h = true).
    { unfold sensor_is_swept. rewrite G1, G2. apply orb_true_iff. rewrite !equal_ends_true. exact Ee. }
    rewrite Sw in Hpt. apply (solved s h); auto. rewrite G1, G2. reflexivity. }
  intros k v o y Hy. assert (Smp : image_shape (m_csd m) = pot_shape p) by congruence.
  destruct (csd_pixel_index _ _ _ _ _ _ _ _ p s v1 v2 h Ep Smp Hy) as (i & j & Hi & Hj & Hk & Q & ->).
  exists (pcell p i j). split; [exact Q|].
  exact (proj2 (response_value s off p z0 z1 z2 p' im1 (m_csd m) zr k i j Np Cm Sh Lr Px Hi Hj Hk)).
Qed.
Lemma noisy_csd_values pots resps :
  exists (np : shape -> limits -> limits -> G -> result (list R * list R * list R * G)) (nr : shape -> limits -> limits -> G -> result (list R * G)),
  (forall sh l1 l2 g g' z0 z1 z2, np sh l1 l2 g = Ok (z0, z1, z2, g') ->
     length z0 = shape_size sh /\ length z1 = shape_size sh /\ length z2 = shape_size sh) /\
  (forall sh l1 l2 g g' z, nr sh l1 l2 g = Ok (z, g') -> length z = shape_size sh) /\
  forall lim1 lim2 lims1 lims2 x s occs a1 b1 a2 b2 v1 v2 res w w' m, config_ok label x -> ss_deform s = [] \/ a1 <> b1 \/ a2 <> b2 ->
  measure (noisy lim1 lim2 lims1 lims2 (Some x) s occs pots resps) [a1; b1] [a2; b2] v1 v2 res w = (Ok m, w') ->
  exists sh g0 z0 z1 z2 g zr off,
    requested res sh /\ image_shape (m_csd m) = sh /\ shape_of_occ (m_occ m) = Some sh /\ (occs = [] -> g0 = w_rng (fst w)) /\
    np sh (a1, b1) (a2, b2) g0 = Ok (z0, z1, z2, g) /\ nr sh (a1, b1) (a2, b2) g = Ok (zr, w_rng (fst w')) /\
    (ss_rise s <> None -> exists o1 pt q, first_occ (m_occ m) = Ok o1 /\ pot_spec s o1 (a1, a2) pt q /\
       (points_exist s o1 -> a1 = b1 \/ a2 = b2 -> full_point s o1 (a1, a2) pt) /\ off = at_sensor q) /\
    forall k v o y, csd_pixel (m_csd m) (m_occ m) (a1, b1) (a2, b2) k v o y -> exists q, pot_spec s o v (plunger v1, plunger v2) q /\
      noisy_value s off q (nth k z0 0) (nth k z1 0) (nth k z2 0) (nth k zr 0) y.
Proof.
  exists (drawn3_all src pots), (drawn_all src resps). split; [|split].
  { intros sh l1 l2 g g' z0 z1 z2 E. pose (im := match sh with Shape1 n => Img1 (mk_arr1 n (fun _ => 0)) | Shape2 r c => Img2 (mk_arr2 r c (fun _ _ => 0)) end).
    assert (Si : image_shape im = sh) by (destruct sh; reflexivity).
    pose (w := (mk_noise_world (fun _ => None) (fun _ => mk_jump_state None None) g, None) : world).
    pose proof (images_loop_spec src Sok l1 l2 sh pots im im im w Si Si Si) as H. cbn [w fst w_rng] in H. rewrite E in H. destruct H as (? & ? & ? & _ & T & _). exact T. }
  { intros sh l1 l2 g g' z E. exact (drawn_all_length src Sok resps sh l1 l2 g z g' E). }
  exact (csd_values_drawn pots resps).
Qed.
Lemma same_occupations lim1 lim2 lims1 lims2 x s occs pots resps lim1' lim2' s' pots' resps' s1 s2 v1 v2 v1' v2' res w w' m m' n' :
  measure (noisy lim1 lim2 lims1 lims2 (Some x) s occs pots resps) s1 s2 v1 v2 res w = (Ok m, w') ->
  measure (noisy_config src label lim1' lim2' x s' occs pots' resps') s1 s2 v1' v2' res (fst w) = (Ok m', n') ->
  m_occ m = m_occ m' /\ m_lead m = m_lead m'.
Proof.
  intros H H'. destruct (noisy_csd_inv _ _ _ _ _ _ _ _ _ _ _ _ _ _ _ _ _ H) as (l1 & l2 & d & n1 & _ & _ & _ & _ & _ & _ & _ & _ & _ & _ & _ & _ & E1 & E2 & Ed & Eo & _).
  destruct (noisy_inv _ _ _ _ _ _ _ _ _ _ _ _ _ _ _ _ _ H') as (a1 & b1 & a2 & b2 & d' & ol & n2 & _ & _ & _ & F1 & F2 & Ed' & Eo' & _ & _ & _ & Mo & Ml).
  subst s1 s2. injection F1 as <- <-. injection F2 as <- <-. rewrite Ed in Ed'. injection Ed' as <-. rewrite <- !surjective_pairing in Eo'.
  rewrite Eo in Eo'. injection Eo' as <- _. rewrite Mo, Ml. auto.
Qed.
End Noisy.
