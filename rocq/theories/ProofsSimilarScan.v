(** SensorScanSensorGeneric in another unit and with another zero of the voltages: potentials, responses and labels. *)
From Coq Require Import FunctionalExtensionality.
From Verif Require Import RPrelude Arr ModelSupport ModelTct ModelCsd ModelDistortions ModelSensor ModelSimulation ModelInstance ModelScanInstance
  SpecTct SpecCsd SpecSimilar SpecSimilarScan ProofsSimilar ProofsSimilar2 ProofsSimilar3.
Local Open Scope R_scope.

Definition rmap {A B} (f : A -> B) (r : result A) : result B := match r with Ok a => Ok (f a) | Err e => Err e end.
Lemma mapM_rmap {A B C} (f : A -> result B) (f' : A -> result C) (g : B -> C) l :
  (forall x, f' x = rmap g (f x)) -> mapM f' l = rmap (map g) (mapM f l).
Proof.
  intros E. induction l as [|x l IH]; [reflexivity|]. cbn [mapM]. rewrite E. destruct (f x) as [y|e]; cbn [rmap bind]; [|reflexivity].
  rewrite IH. destruct (mapM f l) as [ys|e]; reflexivity.
Qed.
Definition stretch_volts (k e : R) (v : volts) : volts :=
  match v with VNone => VNone | VFix x => VFix (stretch k e x) | VSweep a b => VSweep (stretch k e a) (stretch k e b) end.
Definition kept (e : R) (v : volts) : Prop := v = VNone -> e = 0.

Section Scan.
Variables (k : R) (t u : point) (s : scan_sensor).
Hypothesis Hk : 0 < k.
Notation s' := (stretch_scan k t u s).
Notation gv := (stretch_point k t).
Notation sw := (stretch_point k u).
Notation SH := (stretch_hidden k t u).
Notation g1 := (stretch_volts k (fst t)).
Notation g2 := (stretch_volts k (snd t)).
Notation q1 := (stretch_volts k (fst u)).
Notation q2 := (stretch_volts k (snd u)).

Lemma pixel_stretch o v w : pixel_potential s' o (gv v) (sw w) = pixel_potential s o v w.
Proof.
  unfold pixel_potential, stretch_scan, divide_rows, lost, dot2, stretch_point, stretch.
  cbn [ss_dot ss_gate ss_sensor ss_offset row0 row1 row2 at_sensor at_barrier1 at_barrier2 fst snd]. f_equal; field; lra.
Qed.
Lemma sweep_stretch e v : is_sweep (stretch_volts k e v) = is_sweep v.
Proof. destruct v; reflexivity. Qed.
Lemma limits_stretch e v : kept e v -> as_limits (stretch_volts k e v) = stretch_lims k e (as_limits v).
Proof. intros K. destruct v; try reflexivity. rewrite (K eq_refl). unfold stretch_lims, stretch. cbn. f_equal; ring. Qed.
Lemma grid_move e l n i : grid (stretch_lims k e l) n i = stretch k e (grid l n i).
Proof. unfold grid, stretch_lims, stretch, Rdiv. cbn [fst snd]. ring. Qed.
Lemma scan_potential_stretch occ v1 v2 w1 w2 :
  kept (fst t) v1 -> kept (snd t) v2 -> kept (fst u) w1 -> kept (snd u) w2 ->
  scan_potential s' occ (g1 v1) (g2 v2) (q1 w1) (q2 w2) = rmap (fun ph => (fst ph, SH (snd ph))) (scan_potential s occ v1 v2 w1 w2).
Proof.
  intros K1 K2 K3 K4. unfold scan_potential. rewrite !sweep_stretch, !limits_stretch by assumption. unfold raise_if.
  destruct occ as [a|a|]; [| |reflexivity]; (destruct (_ && _); [reflexivity|]); cbv zeta.
  - destruct (_ =? _)%nat; [reflexivity|]. cbn [rmap fst snd]. do 2 f_equal. f_equal. f_equal. apply functional_extensionality. intros i.
    rewrite <- pixel_stretch. cbn [h_g1 h_g2 h_s1 h_s2]. unfold volts1, stretch_point. cbn [fst snd]. rewrite !grid_move. reflexivity.
  - destruct (_ || _); [reflexivity|]. cbn [rmap fst snd]. do 2 f_equal. f_equal. f_equal. apply functional_extensionality. intros i. apply functional_extensionality. intros j.
    rewrite <- pixel_stretch. cbn [h_g1 h_g2 h_s1 h_s2]. unfold volts2, stretch_point. cbn [fst snd]. rewrite !grid_move. reflexivity.
Qed.

(** ** The point of given barrier potentials *)
Hypothesis Hc : clear_lever_arms k s.
Lemma calc_point_stretch h p q b : b = true \/ t = (0, 0) /\ u = (0, 0) ->
  calc_point s' (SH h) p q b = rmap sw (calc_point s h p q b).
Proof.
  intros B. unfold calc_point. cbn [h_occ stretch_hidden]. destruct (first_occ (h_occ h)) as [o|e]; [|reflexivity]. cbn [bind].
  set (G := if b then _ else _). set (G' := if b then _ else _).
  assert (E : fst G + at_barrier1 (ss_offset s') = fst G' + at_barrier1 (ss_offset s) - lost k u (row1 (ss_sensor s))
           /\ snd G + at_barrier2 (ss_offset s') = snd G' + at_barrier2 (ss_offset s) - lost k u (row2 (ss_sensor s))).
  { subst G G'. destruct b.
    - unfold stretch_scan, divide_rows, stretch_hidden, stretch_lims, lost, dot2, stretch.
      cbn [ss_gate ss_offset row1 row2 h_g1 h_g2 at_barrier1 at_barrier2 fst snd]. split; field; lra.
    - destruct B as [B|[T U]]; [discriminate|]. rewrite T, U. unfold stretch_scan, divide_rows, stretch_hidden, stretch_lims, lost, dot2, stretch.
      cbn [ss_sensor ss_offset row1 row2 h_s1 h_s2 at_barrier1 at_barrier2 fst snd]. split; field; lra. }
  clearbody G G'. destruct E as [E1 E2]. rewrite E1, E2. cbn [ss_dot stretch_scan]. clear E1 E2 G B.
  set (r1 := fst G' + _ + _ + _). set (r1' := fst G' + _ - _ + _ + _). set (r2 := snd G' + _ + _ + _). set (r2' := snd G' + _ - _ + _ + _).
  replace r1' with (r1 - lost k u (row1 (ss_sensor s))) by (subst r1 r1'; ring). replace r2' with (r2 - lost k u (row2 (ss_sensor s))) by (subst r2 r2'; ring).
  clearbody r1 r2. clear r1' r2'. unfold lost. cbn [ss_sensor stretch_scan divide_rows row1 row2 fst snd].
  destruct Hc as (D & Z & _). destruct (row1 (ss_sensor s)) as [a b1]. destruct (row2 (ss_sensor s)) as [c d]. cbn [fst snd] in *.
  set (x := p - r1). set (y := q - r2).
  replace (p - (r1 - (fst u * a + snd u * b1) / k)) with (x + (fst u * a + snd u * b1) / k) by (subst x; ring).
  replace (q - (r2 - (fst u * c + snd u * d) / k)) with (y + (fst u * c + snd u * d) / k) by (subst y; ring). clearbody x y.
  assert (K0 : k <> 0) by lra.
  destruct Z as [->|[Z1 Z2]].
  - assert (A0 : a <> 0 /\ d <> 0) by (split; intros ->; apply D; ring). destruct A0 as [A0 D0]. replace (0 / k) with 0 by (field; lra). rewrite Rabs_R0, Rltb_true by lra.
    cbn [rmap]. f_equal. unfold stretch_point, stretch. cbn [fst snd]. f_equal; field; auto.
  - assert (B0 : b1 <> 0) by (intros ->; rewrite Rabs_R0 in Z1; lra). rewrite !Rltb_false by assumption. cbn [rmap]. f_equal. unfold stretch_point, stretch. cbn [fst snd].
    assert (D' : c * b1 - a * d <> 0) by (intros E; apply D; lra). f_equal; field; auto.
Qed.

(** ** Deformed peaks *)
Lemma middle_stretch mid w : ss_deform s <> [] -> middle_dist s' (sw mid) (sw w) = k * middle_dist s mid w.
Proof.
  intros N. destruct Hc as (_ & _ & F). specialize (F N). unfold middle_dist. cbn [ss_sensor stretch_scan divide_rows row0 fst snd].
  replace (snd (row0 (ss_sensor s)) / k / (fst (row0 (ss_sensor s)) / k)) with (snd (row0 (ss_sensor s)) / fst (row0 (ss_sensor s))) by (field; lra).
  set (m := _ / _). clearbody m. unfold signed_dist, stretch_point. cbn [fst snd].
  replace (stretch k (fst u) (fst mid) + 1 - stretch k (fst u) (fst mid)) with 1 by ring.
  replace (stretch k (snd u) (snd mid) + m - stretch k (snd u) (snd mid)) with m by ring.
  replace (fst mid + 1 - fst mid) with 1 by ring. replace (snd mid + m - snd mid) with m by ring. rewrite !(stretch_diff k). unfold Rdiv. ring.
Qed.
Lemma deform_get i : dict_get (ss_deform s') i = rmap (stretch_deform k) (dict_get (ss_deform s) i).
Proof.
  cbn [ss_deform stretch_scan]. induction (ss_deform s) as [|[j f] l IH]; [reflexivity|]. cbn [map dict_get fst snd]. destruct (j =? i)%nat; [reflexivity|exact IH].
Qed.
Lemma back d : k * d / k = d.
Proof. field. lra. Qed.
Lemma peak_loop_stretch dist mu ps : forall idx sum, peak_loop (ss_deform s') (k * dist) mu idx ps sum = peak_loop (ss_deform s) dist mu idx ps sum.
Proof.
  induction ps as [|p ps IH]; intros idx sum; [reflexivity|]. cbn [peak_loop]. rewrite deform_get.
  destruct (dict_get (ss_deform s) idx) as [f|e]; cbn [rmap]; [unfold stretch_deform; rewrite back|]; rewrite IH; reflexivity.
Qed.
Lemma peak_scan_stretch mid px : ss_deform s <> [] -> forall ps,
  peak_scan s' (sw mid) (map (fun mw => (fst mw, sw (snd mw))) px) ps = peak_scan s mid px ps.
Proof.
  intros N. induction px as [|[mu w] px IH]; intros ps; [reflexivity|]. cbn [map peak_scan fst snd]. unfold peak_func. rewrite (middle_stretch mid w N). destruct ps as [ps|].
  - rewrite peak_loop_stretch. destruct (peak_loop _ _ _ _ _ _) as [r ps1]. rewrite IH. reflexivity.
  - rewrite IH. reflexivity.
Qed.
Lemma px_stretch e l n i : px_volt (stretch_lims k e l) n i = rmap (stretch k e) (px_volt l n i).
Proof.
  unfold px_volt, pixel_to_volt_1d, raise_if. destruct (_ =? 0)%nat; [reflexivity|]. cbn [rmap]. f_equal. unfold stretch_lims. cbn [fst snd]. rewrite (stretch_diff k). unfold stretch. ring.
Qed.
Lemma pixels_stretch h p : scan_pixels (SH h) p = rmap (map (fun mw => (fst mw, sw (snd mw)))) (scan_pixels h p).
Proof.
  destruct p as [a|a]; cbn [scan_pixels stretch_hidden h_s1 h_s2].
  - apply mapM_rmap. intros i. rewrite !px_stretch. destruct (px_volt (h_s2 h) _ i) as [y|e]; [|reflexivity]. cbn [rmap bind]. destruct (px_volt (h_s1 h) _ i); reflexivity.
  - rewrite (mapM_rmap (fun i => let? y := px_volt (h_s2 h) (rows a) i in
          mapM (fun j => let? x := px_volt (h_s1 h) (cols a) j in Ok (at_sensor (cell a i j), (x, y))) (seq 0 (cols a))) _ (map (fun mw => (fst mw, sw (snd mw))))).
    + destruct (mapM _ (seq 0 (rows a))) as [r|e]; [|reflexivity]. cbn [rmap bind]. rewrite concat_map. reflexivity.
    + intros i. rewrite px_stretch. destruct (px_volt (h_s2 h) _ i) as [y|e]; [|reflexivity]. cbn [rmap bind]. apply mapM_rmap. intros j.
      rewrite px_stretch. destruct (px_volt (h_s1 h) _ j); reflexivity.
Qed.

(** ** Response *)
Lemma ends_stretch e l : equal_ends (stretch_lims k e l) = equal_ends l.
Proof. apply (stretch_eq k Hk). Qed.
Definition shiftable (h : hidden) : Prop :=
  equal_ends (h_g1 h) || equal_ends (h_g2 h) = true \/ (t = (0, 0) /\ u = (0, 0)) \/ ss_rise s = None.
Lemma dot_response_stretch h p : shiftable h ->
  dot_response s' (SH h) p = rmap (fun r => (fst (fst r), snd (fst r), SH (snd r))) (dot_response s h p).
Proof.
  intros B. unfold dot_response. cbv zeta. cbn [stretch_hidden h_g1 h_g2 h_occ]. rewrite !ends_stretch.
  change (mk_hidden (stretch_lims k (fst t) (h_g1 h)) (stretch_lims k (snd t) (h_g2 h)) (stretch_lims k (fst u) (h_s1 h)) (stretch_lims k (snd u) (h_s2 h)) (h_occ h)) with (SH h).
  replace (length (ss_deform s')) with (length (ss_deform s)) by (cbn; rewrite map_length; reflexivity).
  destruct (negb (length (ss_deform s) =? 0)%nat && (equal_ends (h_g1 h) && equal_ends (h_g2 h))) eqn:A.
  - apply andb_prop in A. destruct A as [A1 A2]. apply andb_prop in A2. destruct A2 as [A2 A3]. rewrite A2. cbn [orb].
    assert (N : ss_deform s <> []) by (intros N; rewrite N in A1; discriminate). change (ss_barrier1 s') with (ss_barrier1 s). change (ss_barrier2 s') with (ss_barrier2 s).
    rewrite calc_point_stretch by (left; reflexivity). destruct (calc_point s h _ _ true) as [mid|e]; [|reflexivity]. cbn [rmap bind]. rewrite pixels_stretch.
    destruct (scan_pixels h p) as [px|e]; [|reflexivity]. cbn [rmap bind]. rewrite (peak_scan_stretch mid px N). change (ss_peaks s') with (ss_peaks s).
    destruct (peak_scan s mid px (ss_peaks s)) as [rs ps]. reflexivity.
  - change (ss_rise s') with (ss_rise s). change (ss_peaks s') with (ss_peaks s). destruct (ss_rise s) as [rise|] eqn:ER; [|reflexivity].
    destruct (first_occ (h_occ h)) as [o|e]; [|reflexivity]. cbn [bind]. change (ss_barrier1 s') with (ss_barrier1 s). change (ss_barrier2 s') with (ss_barrier2 s).
    rewrite calc_point_stretch.
    2:{ unfold shiftable in B. rewrite ER in B. destruct B as [B|[B|B]]; [left; exact B|right; exact B|discriminate]. }
    destruct (calc_point s h _ _ _) as [pt|e]; [|reflexivity]. cbn [rmap bind].
    change (VFix (fst (stretch_lims k (fst t) (h_g1 h)))) with (g1 (VFix (fst (h_g1 h)))). change (VFix (fst (stretch_lims k (snd t) (h_g2 h)))) with (g2 (VFix (fst (h_g2 h)))).
    change (VFix (fst (sw pt))) with (q1 (VFix (fst pt))). change (VFix (snd (sw pt))) with (q2 (VFix (snd pt))).
    rewrite scan_potential_stretch by discriminate. destruct (scan_potential s _ _ _ _ _) as [[p' h']|e]; [|reflexivity]. cbn [rmap bind fst snd]. destruct p' as [a|a]; reflexivity.
Qed.
Lemma scan_response_stretch h p : shiftable h ->
  scan_response s' (SH h) p = rmap (fun r => (fst (fst r), snd (fst r), SH (snd r))) (scan_response s h p).
Proof.
  intros B. unfold scan_response. rewrite (dot_response_stretch h p B). destruct (dot_response s h p) as [[[d ps] h']|e]; [|reflexivity]. cbn [rmap bind fst snd]. unfold raise_if.
  destruct (_ =? 0)%nat; reflexivity.
Qed.

(** ** Labels *)
Lemma label_peak_stretch peaks pots dists idx pk id mask : ss_deform s <> [] ->
  label_peak s' peaks pots (map (map (Rmult k)) dists) idx pk id mask = label_peak s peaks pots dists idx pk id mask.
Proof.
  intros N. unfold label_peak. rewrite deform_get.
  assert (E : forall (f f' : R -> R), (forall d, f' (k * d) = f d) ->
    mapM (fun rdm : (list R * list R) * list nat => let '((r, d), mrow) := rdm in
          raise_if (length r =? 0)%nat ValueError (Ok (mark mrow (peak_pixel (map (fun xd : R * R => fst xd + f' (snd xd)) (combine r d)) (mu0 pk) (mean_diff pots)) (id + 1))))
       (combine (combine pots (map (map (Rmult k)) dists)) mask)
    = mapM (fun rdm : (list R * list R) * list nat => let '((r, d), mrow) := rdm in
          raise_if (length r =? 0)%nat ValueError (Ok (mark mrow (peak_pixel (map (fun xd : R * R => fst xd + f (snd xd)) (combine r d)) (mu0 pk) (mean_diff pots)) (id + 1))))
       (combine (combine pots dists) mask)).
  { intros f f' F. generalize (mean_diff pots). intros th. revert dists mask. induction pots as [|r pots IH]; intros dists mask; [reflexivity|]. destruct dists as [|d dists]; [reflexivity|].
    cbn [map combine]. destruct mask as [|m mask]; [reflexivity|]. cbn [combine mapM]. rewrite IH.
    replace (map (fun xd : R * R => fst xd + f' (snd xd)) (combine r (map (Rmult k) d))) with (map (fun xd : R * R => fst xd + f (snd xd)) (combine r d)); [reflexivity|].
    revert d. induction r as [|x r IHr]; intros d; [reflexivity|]. destruct d as [|y d]; [reflexivity|]. cbn [combine map fst snd]. rewrite F, <- IHr. reflexivity. }
  destruct (dict_get (ss_deform s) idx) as [f|e]; cbn [rmap].
  - destruct (get_item peaks idx) as [q|e]; cbn [bind]; [|reflexivity]. apply (E (fun d => mu0 pk - f d (mu0 q)) (fun d => mu0 pk - stretch_deform k f d (mu0 q))). intros d. unfold stretch_deform. rewrite back. reflexivity.
  - apply (E (fun _ => 0) (fun _ => 0)). reflexivity.
Qed.
Lemma volt_rows_stretch p l1 l2 : volt_rows p (stretch_lims k (fst u) l1) (stretch_lims k (snd u) l2) = map (map sw) (volt_rows p l1 l2).
Proof.
  destruct p as [a|a]; cbn [volt_rows map].
  - f_equal. rewrite map_map. apply map_ext. intros i. unfold volts1, stretch_point. cbn [fst snd]. rewrite !grid_move. reflexivity.
  - rewrite map_map. apply map_ext. intros i. rewrite map_map. apply map_ext. intros j. unfold volts2, stretch_point. cbn [fst snd]. rewrite !grid_move. reflexivity.
Qed.
Lemma labels_stretch h v1 v2 w1 w2 p : fst t = snd t -> kept (fst t) v1 ->
  get_sensor_scan_labels s' (SH h) (g1 v1) (g2 v2) (q1 w1) (q2 w2) p = rmap (fun r => (fst r, SH (snd r))) (get_sensor_scan_labels s h v1 v2 w1 w2 p).
Proof.
  intros T K. unfold get_sensor_scan_labels. cbn [stretch_hidden h_occ].
  change (mk_hidden (stretch_lims k (fst t) (h_g1 h)) (stretch_lims k (snd t) (h_g2 h)) (stretch_lims k (fst u) (h_s1 h)) (stretch_lims k (snd u) (h_s2 h)) (h_occ h)) with (SH h).
  destruct (first_occ (h_occ h)) as [o|e]; [|reflexivity]. cbn [bind]. unfold float_or_none at 1 2. rewrite !sweep_stretch. unfold raise_if at 1 2.
  change (negb (is_sweep v1)) with (float_or_none v1). change (negb (is_sweep v2)) with (float_or_none v2). destruct (negb _); [reflexivity|].
  change (ss_barrier1 s') with (ss_barrier1 s). change (ss_barrier2 s') with (ss_barrier2 s).
  rewrite calc_point_stretch by (left; reflexivity). destruct (calc_point s h _ _ true) as [pt|e]; [|reflexivity]. cbn [rmap bind].
  change (VFix (fst (sw pt))) with (q1 (VFix (fst pt))). change (VFix (snd (sw pt))) with (q2 (VFix (snd pt))).
  replace (scan_potential s' (Occ1 (mk_arr1 1 (fun _ => o))) (g1 v1) (g1 v1)) with (scan_potential s' (Occ1 (mk_arr1 1 (fun _ => o))) (g1 v1) (g2 v1)) by (rewrite T; reflexivity).
  rewrite scan_potential_stretch; [|exact K|rewrite <- T; exact K|discriminate|discriminate].
  destruct (scan_potential s _ _ _ _ _) as [[p' h']|e]; [|reflexivity]. cbn [rmap bind fst snd].
  destruct (match p' with Pot1 a => Ok (at_sensor (cell1 a 0)) | Pot2 _ => Err TypeError end) as [full|e]; [|reflexivity]. cbn [bind].
  assert (SB : forall e w, subscript (stretch_volts k e w) = rmap (stretch_lims k e) (subscript w)) by (intros e w; destruct w; reflexivity). rewrite !SB.
  destruct (subscript w1) as [l1|e]; [|reflexivity]. cbn [rmap bind]. destruct (subscript w2) as [l2|e]; [|reflexivity]. cbn [rmap bind].
  replace (length (ss_deform s')) with (length (ss_deform s)) by (cbn; rewrite map_length; reflexivity). change (ss_peaks s') with (ss_peaks s).
  destruct (length (ss_deform s) =? 0)%nat eqn:L.
  - cbn [bind]. destruct (ss_peaks s) as [peaks|]; [|reflexivity].
    assert (N : ss_deform s = []) by (destruct (ss_deform s); [reflexivity|discriminate]).
    assert (E : forall pots dists idx pk id mask, label_peak s' peaks pots dists idx pk id mask = label_peak s peaks pots dists idx pk id mask).
    { intros. unfold label_peak. rewrite deform_get, N. reflexivity. }
    replace (fun (m : list (list nat)) (x : nat * (ModelSensor.peak * nat)) => let '(idx, (pk, id)) := x in label_peak s' peaks (map (map at_sensor) (pot_rows p)) (map (map (fun _ : three => 0)) (pot_rows p)) idx pk id m)
      with (fun (m : list (list nat)) (x : nat * (ModelSensor.peak * nat)) => let '(idx, (pk, id)) := x in label_peak s peaks (map (map at_sensor) (pot_rows p)) (map (map (fun _ : three => 0)) (pot_rows p)) idx pk id m).
    2:{ apply functional_extensionality. intros m. apply functional_extensionality. intros [idx [pk id]]. rewrite E. reflexivity. }
    destruct (foldM _ _ _) as [mask|e]; reflexivity.
  - assert (N : ss_deform s <> []) by (intros N; rewrite N in L; discriminate).
    rewrite calc_point_stretch by (left; reflexivity). destruct (calc_point s h' _ _ true) as [mid|e]; [|reflexivity]. cbn [rmap bind].
    rewrite volt_rows_stretch. rewrite map_map.
    replace (map (fun x => map (middle_dist s' (sw mid)) (map sw x)) (volt_rows p l1 l2)) with (map (map (Rmult k)) (map (map (middle_dist s mid)) (volt_rows p l1 l2))).
    2:{ rewrite map_map. apply map_ext. intros r. rewrite !map_map. apply map_ext. intros w. symmetry. apply middle_stretch. exact N. }
    destruct (ss_peaks s) as [peaks|]; [|reflexivity]. set (D := map (map (middle_dist s mid)) (volt_rows p l1 l2)). clearbody D.
    replace (fun (m : list (list nat)) (x : nat * (ModelSensor.peak * nat)) => let '(idx, (pk, id)) := x in label_peak s' peaks (map (map at_sensor) (pot_rows p)) (map (map (Rmult k)) D) idx pk id m)
      with (fun (m : list (list nat)) (x : nat * (ModelSensor.peak * nat)) => let '(idx, (pk, id)) := x in label_peak s peaks (map (map at_sensor) (pot_rows p)) D idx pk id m).
    2:{ apply functional_extensionality. intros m. apply functional_extensionality. intros [idx [pk id]]. rewrite (label_peak_stretch _ _ _ _ _ _ _ N). reflexivity. }
    destruct (foldM _ _ _) as [mask|e]; reflexivity.
Qed.
End Scan.
