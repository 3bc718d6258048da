(** Lemmas about the response of the sensor-scan sensor. *)
From Verif Require Import RPrelude Arr ModelSupport ModelTct ModelCsd ModelDistortions ModelSensor
  SpecSupport SpecSensor ProofsSupport ProofsSensor.
Local Open Scope R_scope.

(** ** Peaks are restored, C34 *)
Lemma set_mu0_back p m : set_mu0 (set_mu0 p m) (mu0 p) = p.
Proof. destruct p; reflexivity. Qed.
Lemma dict_deform d k : dict_get d k = match deform_of d k with Some f => Ok f | None => Err KeyError end.
Proof.
  unfold deform_of. induction d as [|[k' v] t IH]; simpl; [reflexivity|].
  destruct (Nat.eqb_spec k' k); [reflexivity|]. exact IH.
Qed.
Lemma peak_loop_spec deform dist mu ps : forall idx sum,
  peak_loop deform dist mu idx ps sum =
  (sum + fold_right Rplus 0 (map (fun ip : nat * peak =>
     peak_fun (snd ip) (match deform_of deform (fst ip) with Some f => f dist (mu0 (snd ip)) | None => mu0 (snd ip) end) mu)
     (combine (seq idx (length ps)) ps)), ps).
Proof.
  induction ps as [|p t IH]; intros idx sum; simpl; [rewrite Rplus_0_r; reflexivity|].
  rewrite dict_deform. destruct (deform_of deform idx) as [f|]; rewrite IH.
  - rewrite set_mu0_back. unfold sensor_function. simpl. f_equal. ring.
  - unfold sensor_function. f_equal. ring.
Qed.
Lemma peak_func_spec s ps mid mu w :
  peak_func s ps mid mu w =
  (match ps with None => mu | Some l => deformed_total (deform_of (ss_deform s)) (middle_dist s mid w) l mu end, ps).
Proof.
  unfold peak_func. destruct ps as [l|]; [|reflexivity]. rewrite peak_loop_spec. rewrite Rplus_0_l. reflexivity.
Qed.
Definition deformed_dot (s : scan_sensor) (mid : point) (mw : R * point) : R :=
  match ss_peaks s with
  | None => fst mw
  | Some l => deformed_total (deform_of (ss_deform s)) (middle_dist s mid (snd mw)) l (fst mw)
  end.
Lemma peak_scan_spec s mid px :
  peak_scan s mid px (ss_peaks s) = (map (deformed_dot s mid) px, ss_peaks s).
Proof.
  induction px as [|[mu w] t IH]; simpl; [reflexivity|]. rewrite peak_func_spec, IH. reflexivity.
Qed.

(** ** Row-major lists *)
Lemma mapM_all {A B} (f : A -> result B) (g : A -> B) l :
  (forall x, In x l -> f x = Ok (g x)) -> mapM f l = Ok (map g l).
Proof.
  induction l as [|x t IH]; intros H; simpl; [reflexivity|]. rewrite H by (left; auto).
  rewrite IH; [reflexivity|]. intros y Hy. apply H. right; auto.
Qed.
Lemma nth_map_seq {A} (f : nat -> A) n i d : (i < n)%nat -> nth i (map f (seq 0 n)) d = f i.
Proof.
  intros H. erewrite nth_indep by (rewrite map_length, seq_length; auto).
  rewrite (map_nth f (seq 0 n) 0%nat). rewrite seq_nth by auto. reflexivity.
Qed.
Definition grid_list {A} (r c : nat) (f : nat -> nat -> A) : list A :=
  concat (map (fun i => map (f i) (seq 0 c)) (seq 0 r)).
Lemma length_grid_list {A} r c (f : nat -> nat -> A) : length (grid_list r c f) = (r * c)%nat.
Proof.
  unfold grid_list. generalize 0%nat at 2. induction r; intros k; simpl; [reflexivity|].
  rewrite app_length, map_length, seq_length, IHr. reflexivity.
Qed.
Lemma nth_grid_gen {A} c (f : nat -> nat -> A) d : forall r k i j, (i < r)%nat -> (j < c)%nat ->
  nth (i * c + j) (concat (map (fun i => map (f i) (seq 0 c)) (seq k r))) d = f (k + i)%nat j.
Proof.
  induction r; intros k i j Hi Hj; [lia|]. simpl. destruct i as [|i].
  - rewrite app_nth1 by (rewrite map_length, seq_length; lia). simpl. rewrite nth_map_seq by auto. f_equal. lia.
  - rewrite app_nth2 by (rewrite map_length, seq_length; lia). rewrite map_length, seq_length.
    replace (S i * c + j - c)%nat with (i * c + j)%nat by lia. rewrite IHr by lia. f_equal. lia.
Qed.
Lemma nth_grid {A} r c (f : nat -> nat -> A) d i j : (i < r)%nat -> (j < c)%nat ->
  nth (i * c + j) (grid_list r c f) d = f i j.
Proof. intros. unfold grid_list. rewrite nth_grid_gen by auto. reflexivity. Qed.
Lemma map_grid_list {A B} (g : A -> B) r c (f : nat -> nat -> A) :
  map g (grid_list r c f) = grid_list r c (fun i j => g (f i j)).
Proof. unfold grid_list. rewrite concat_map, map_map. f_equal. apply map_ext. intros i. apply map_map. Qed.
Lemma combine_grid_list {A B} r c (f : nat -> nat -> A) (g : nat -> nat -> B) :
  combine (grid_list r c f) (grid_list r c g) = grid_list r c (fun i j => (f i j, g i j)).
Proof.
  unfold grid_list. generalize 0%nat at 2 4 6. induction r; intros k; simpl; [reflexivity|].
  rewrite <- IHr. generalize (concat (map (fun i => map (f i) (seq 0 c)) (seq (S k) r))).
  generalize (concat (map (fun i => map (g i) (seq 0 c)) (seq (S k) r))). intros lb la.
  clear IHr. induction (seq 0 c); simpl; [reflexivity|]. rewrite IHl. reflexivity.
Qed.

(** Potentials as a row-major grid. *)
Lemma pot_list_grid p : pot_list p = grid_list (nrows p) (ncols p) (pcell p).
Proof.
  destruct p as [a|a]; simpl.
  - unfold grid_list, to_list1. simpl. rewrite app_nil_r. reflexivity.
  - unfold grid_list, to_list2. reflexivity.
Qed.
Lemma pot_pix_spec p i j q : pot_pix p i j q <-> (i < nrows p)%nat /\ (j < ncols p)%nat /\ q = pcell p i j.
Proof. destruct p; simpl; [|reflexivity]. split; intros (A & B & C); repeat split; auto; lia. Qed.
Lemma reshape_pix p f i j x : img_pix (reshape p (grid_list (nrows p) (ncols p) f)) i j x <->
  (i < nrows p)%nat /\ (j < ncols p)%nat /\ x = f i j.
Proof.
  destruct p as [a|a]; simpl.
  - split.
    + intros (-> & B & C). repeat split; auto; try lia. rewrite C.
      replace j with (0 * len1 a + j)%nat at 1 by lia. apply nth_grid; lia.
    + intros (A & B & C). assert (i = 0)%nat as -> by lia. repeat split; auto. rewrite C.
      replace j with (0 * len1 a + j)%nat at 2 by lia. symmetry. apply nth_grid; lia.
  - split.
    + intros (A & B & C). repeat split; auto. rewrite C. apply nth_grid; auto.
    + intros (A & B & C). repeat split; auto. rewrite C. symmetry. apply nth_grid; auto.
Qed.
Lemma reshape_shape p l : same_shape_pot (reshape p l) p.
Proof. destruct p; simpl; auto. Qed.

Lemma px_volt_ok l n i : (2 <= n)%nat -> px_volt l n i = Ok (volt_at l n i).
Proof.
  intros H. unfold px_volt, pixel_to_volt_1d, volt_at. destruct (Nat.eqb_spec (n - 1) 0); [lia|].
  destruct (Nat.eqb_spec n 1); [lia|]. reflexivity.
Qed.
Lemma px_volt_fail l i : px_volt l 1 i = Err ZeroDivisionError.
Proof. reflexivity. Qed.
Lemma scan_pixels_ok h p : pot_two p ->
  scan_pixels h p = Ok (grid_list (nrows p) (ncols p) (fun i j => (at_sensor (pcell p i j), volt_pix p (h_s1 h) (h_s2 h) i j))).
Proof.
  destruct p as [a|a]; intros H; simpl in H; unfold scan_pixels.
  - rewrite (mapM_all _ (fun i => (at_sensor (cell1 a i), volt_pix (Pot1 a) (h_s1 h) (h_s2 h) 0 i))).
    + unfold grid_list. simpl. rewrite app_nil_r. reflexivity.
    + intros i _. rewrite !px_volt_ok by auto. reflexivity.
  - rewrite (mapM_all _ (fun i => map (fun j => (at_sensor (cell a i j), volt_pix (Pot2 a) (h_s1 h) (h_s2 h) i j)) (seq 0 (cols a)))).
    + reflexivity.
    + intros i _. rewrite px_volt_ok by lia. cbn [bind].
      apply mapM_all. intros j _. rewrite px_volt_ok by lia. reflexivity.
Qed.
Lemma scan_pixels_single h p : pot_nonempty p -> ~ pot_two p -> scan_pixels h p = Err ZeroDivisionError.
Proof.
  destruct p as [a|a]; intros Hn Ht; simpl in *; unfold scan_pixels.
  - assert (len1 a = 1)%nat as -> by lia. reflexivity.
  - destruct Hn as [Hr Hc]. destruct (rows a) as [|r]; [lia|]. destruct r as [|r].
    + reflexivity.
    + assert (cols a = 1)%nat as -> by lia.
      change (seq 0 (S (S r))) with (0%nat :: seq 1 (S r)). cbn [mapM].
      rewrite px_volt_ok by lia. reflexivity.
Qed.

(** ** The response, pixel by pixel *)
Lemma series_of_series s b1 b2 : series_of (series s b1 b2) s b1 b2.
Proof.
  unfold series_of, series. cbv zeta. split; intros H.
  - rewrite Reqb_false by auto. reflexivity.
  - rewrite Reqb_true by auto. reflexivity.
Qed.
Lemma equal_ends_true l : equal_ends l = true <-> fixed l.
Proof. unfold equal_ends, fixed. destruct (Reqb_spec (fst l) (snd l)); split; auto; discriminate. Qed.

(** From the response of the dot (a grid) to the response of the sensor. *)
Lemma scan_response_from s h p f ps h' : pot_nonempty p ->
  dot_response s h p = Ok (grid_list (nrows p) (ncols p) f, ps, h') ->
  scan_response s h p = Ok (reshape p (grid_list (nrows p) (ncols p)
    (fun i j => series (f i j) (get_value (ss_barrier1 s) (at_barrier1 (pcell p i j)))
                               (get_value (ss_barrier2 s) (at_barrier2 (pcell p i j))))), ps, h').
Proof.
  intros Hn H. unfold scan_response. rewrite H. cbn [bind]. rewrite pot_list_grid, length_grid_list.
  assert (N : (nrows p * ncols p =? 0)%nat = false).
  { apply Nat.eqb_neq. destruct p; simpl in *; nia. }
  rewrite N. unfold raise_if. rewrite combine_grid_list, map_grid_list. reflexivity.
Qed.

Lemma combined_reshape s p f :
  combined s f p (reshape p (grid_list (nrows p) (ncols p)
    (fun i j => series (f i j) (get_value (ss_barrier1 s) (at_barrier1 (pcell p i j)))
                               (get_value (ss_barrier2 s) (at_barrier2 (pcell p i j)))))).
Proof.
  split; [apply reshape_shape|]. intros i j x q Hx Hq. apply reshape_pix in Hx. apply pot_pix_spec in Hq.
  destruct Hx as (_ & _ & ->), Hq as (_ & _ & ->). apply series_of_series.
Qed.

(** deformed response *)
Lemma scan_response_deformed s h p mid : ss_deform s <> [] -> fixed (h_g1 h) -> fixed (h_g2 h) -> pot_two p ->
  calc_point s h (pinch_off (ss_barrier1 s)) (pinch_off (ss_barrier2 s)) true = Ok mid ->
  exists im, scan_response s h p = Ok (im, ss_peaks s, h) /\
    combined s (fun i j => deformed_dot s mid (at_sensor (pcell p i j), volt_pix p (h_s1 h) (h_s2 h) i j)) p im.
Proof.
  intros Hd H1 H2 Ht Hm.
  assert (Hn : pot_nonempty p) by (destruct p; simpl in *; lia).
  eexists. split; [|apply combined_reshape].
  apply scan_response_from; [exact Hn|].
  unfold dot_response. apply equal_ends_true in H1, H2. rewrite H1, H2.
  assert (L : (length (ss_deform s) =? 0)%nat = false) by (apply Nat.eqb_neq; destruct (ss_deform s); simpl; congruence).
  rewrite L. cbn [negb andb orb]. rewrite Hm. cbn [bind]. rewrite scan_pixels_ok by auto. cbn [bind].
  rewrite peak_scan_spec, map_grid_list. reflexivity.
Qed.
Lemma scan_response_deformed_single s h p mid : ss_deform s <> [] -> fixed (h_g1 h) -> fixed (h_g2 h) ->
  pot_nonempty p -> ~ pot_two p ->
  calc_point s h (pinch_off (ss_barrier1 s)) (pinch_off (ss_barrier2 s)) true = Ok mid ->
  scan_response s h p = Err ZeroDivisionError.
Proof.
  intros Hd H1 H2 Hn Ht Hm. unfold scan_response, dot_response. apply equal_ends_true in H1, H2. rewrite H1, H2.
  assert (L : (length (ss_deform s) =? 0)%nat = false) by (apply Nat.eqb_neq; destruct (ss_deform s); simpl; congruence).
  rewrite L. cbn [negb andb orb]. rewrite Hm. cbn [bind]. rewrite scan_pixels_single by auto. reflexivity.
Qed.

Lemma undeformed_b s h : undeformed s h ->
  negb (length (ss_deform s) =? 0)%nat && (equal_ends (h_g1 h) && equal_ends (h_g2 h)) = false.
Proof.
  intros [->|[H|H]]; [reflexivity| |]; apply andb_false_intro2.
  - apply andb_false_intro1. apply not_true_is_false. rewrite equal_ends_true. exact H.
  - apply andb_false_intro2. apply not_true_is_false. rewrite equal_ends_true. exact H.
Qed.
Lemma scan_response_plain s h p : undeformed s h -> ss_rise s = None -> pot_nonempty p ->
  exists im, scan_response s h p = Ok (im, ss_peaks s, h) /\
    combined s (fun i j => base_dot s (at_sensor (pcell p i j))) p im.
Proof.
  intros Hu Hr Hn. eexists. split; [|apply combined_reshape].
  apply scan_response_from; [exact Hn|]. unfold dot_response. rewrite undeformed_b by auto. rewrite Hr.
  rewrite pot_list_grid, map_grid_list. reflexivity.
Qed.

Definition sensor_is_swept (h : hidden) : bool := equal_ends (h_g1 h) || equal_ends (h_g2 h).
(** hidden state after a response with final rise *)
Definition hidden_after (h : hidden) (occ : R * R) (pt : point) : hidden :=
  mk_hidden (fst (h_g1 h), fst (h_g1 h)) (fst (h_g2 h), fst (h_g2 h)) (fst pt, fst pt) (snd pt, snd pt)
            (Occ1 (mk_arr1 1 (fun _ => occ))).
Definition rise_offset (s : scan_sensor) (h : hidden) (occ : R * R) (pt : point) : R :=
  at_sensor (pixel_potential s occ (fst (h_g1 h), fst (h_g2 h)) pt).
Lemma scan_point s occ g1 g2 (pt : point) : exists a,
  scan_potential s (Occ1 (mk_arr1 1 (fun _ => occ))) (VFix g1) (VFix g2) (VFix (fst pt)) (VFix (snd pt))
  = Ok (Pot1 a, mk_hidden (g1, g1) (g2, g2) (fst pt, fst pt) (snd pt, snd pt) (Occ1 (mk_arr1 1 (fun _ => occ)))) /\
  len1 a = 1%nat /\ cell1 a 0 = pixel_potential s occ (g1, g2) pt.
Proof.
  eexists. split; [reflexivity|]. split; [reflexivity|]. cbn [cell1]. unfold volts1.
  assert (G : forall v, grid (v, v) 1 0 = v) by (intros v; unfold grid; simpl; lra).
  cbn [len1 h_g1 h_g2 h_s1 h_s2 as_limits]. rewrite !G. destruct pt. reflexivity.
Qed.
Lemma scan_response_rise s h p rise occ pt : undeformed s h -> ss_rise s = Some rise -> pot_nonempty p ->
  first_occ (h_occ h) = Ok occ ->
  calc_point s h (fully_conductive (ss_barrier1 s)) (fully_conductive (ss_barrier2 s)) (sensor_is_swept h) = Ok pt ->
  exists im, scan_response s h p = Ok (im, ss_peaks s, hidden_after h occ pt) /\
    im = reshape p (grid_list (nrows p) (ncols p)
    (fun i j => series (Rmax (base_dot s (at_sensor (pcell p i j))) (rise (at_sensor (pcell p i j)) (rise_offset s h occ pt)))
          (get_value (ss_barrier1 s) (at_barrier1 (pcell p i j)))
                               (get_value (ss_barrier2 s) (at_barrier2 (pcell p i j))))).
Proof.
  intros Hu Hr Hn Ho Hc. eexists. split; [|reflexivity].
  apply (scan_response_from s h p (fun i j => Rmax (base_dot s (at_sensor (pcell p i j))) (rise (at_sensor (pcell p i j)) (rise_offset s h occ pt)))); [exact Hn|].
  unfold dot_response. rewrite undeformed_b by auto. rewrite Hr.
  rewrite Ho. cbn [bind]. fold (sensor_is_swept h). rewrite Hc. cbn [bind].
  destruct (scan_point s occ (fst (h_g1 h)) (fst (h_g2 h)) pt) as (a & E & L & C). rewrite E. cbn [bind fst snd].
  rewrite C. rewrite pot_list_grid, map_grid_list. reflexivity.
Qed.

(** whenever the response succeeds, no peak changes *)
Lemma dot_response_peaks s h p dots ps h' : dot_response s h p = Ok (dots, ps, h') -> ps = ss_peaks s.
Proof.
  unfold dot_response. intros H. destruct (negb _ && _).
  - destruct (calc_point _ _ _ _ _) as [mid|]; [|discriminate]. cbn [bind] in H.
    destruct (scan_pixels h p) as [px|]; [|discriminate]. cbn [bind] in H. rewrite peak_scan_spec in H. congruence.
  - destruct (ss_rise s) as [rise|]; [|congruence].
    destruct (first_occ (h_occ h)) as [occ|]; [|discriminate]. cbn [bind] in H.
    destruct (calc_point _ _ _ _ _) as [pt|]; [|discriminate]. cbn [bind] in H.
    destruct (scan_potential _ _ _ _ _ _) as [[pp hh]|]; [|discriminate]. cbn [bind fst snd] in H.
    destruct pp; congruence.
Qed.
Lemma scan_response_peaks s h p im ps h' : scan_response s h p = Ok (im, ps, h') -> ps = ss_peaks s.
Proof.
  unfold scan_response. destruct (dot_response s h p) as [[[dots ps0] h0]|] eqn:E; [|discriminate]. cbn [bind].
  unfold raise_if. destruct (_ =? 0)%nat; [discriminate|]. intros H. inversion H; subst. eapply dot_response_peaks; eauto.
Qed.

Lemma hidden_unchanged s h p im ps h' : scan_response s h p = Ok (im, ps, h') ->
  (ss_rise s = None \/ ~ undeformed s h) -> h' = h.
Proof.
  intros H C. unfold scan_response in H. destruct (dot_response s h p) as [[[dots ps0] h0]|] eqn:E; [|discriminate].
  cbn [bind] in H. unfold raise_if in H. destruct (_ =? 0)%nat; [discriminate|]. inversion H; subst. clear H.
  unfold dot_response in E. destruct (negb (length (ss_deform s) =? 0)%nat && _) eqn:B.
  - destruct (calc_point _ _ _ _ _) as [mid|]; [|discriminate]. cbn [bind] in E.
    destruct (scan_pixels h p) as [px|]; [|discriminate]. cbn [bind] in E.
    destruct (peak_scan _ _ _ _). congruence.
  - destruct C as [C|C].
    + rewrite C in E. congruence.
    + exfalso. apply C. apply andb_false_iff in B. destruct B as [B|B].
      * left. destruct (ss_deform s); [reflexivity|discriminate].
      * right. apply andb_false_iff in B. destruct B as [B|B]; [left|right]; rewrite <- equal_ends_true; congruence.
Qed.
Lemma calc_point_swept_same s h h' pot1 pot2 occ : first_occ (h_occ h) = Ok occ -> first_occ (h_occ h') = Ok occ ->
  fst (h_g1 h) = fst (h_g1 h') -> fst (h_g2 h) = fst (h_g2 h') ->
  calc_point s h pot1 pot2 true = calc_point s h' pot1 pot2 true.
Proof. intros H H' E1 E2. unfold calc_point. rewrite H, H', E1, E2. reflexivity. Qed.
Lemma response_repeat s h p im ps h' : pot_nonempty p -> repeatable s h ->
  scan_response s h p = Ok (im, ps, h') ->
  exists h'', scan_response s h' p = Ok (im, ps, h'').
Proof.
  intros Hn R H.
  assert (D : ss_rise s = None \/ ~ undeformed s h \/ (exists rise, ss_rise s = Some rise /\ undeformed s h /\ ss_deform s = [] /\ (fixed (h_g1 h) \/ fixed (h_g2 h)))).
  { destruct R as [R|[[R1 R2]|[R1 R2]]]; [auto| |].
    - destruct (ss_rise s) as [rise|]; [right|auto]. destruct (ss_deform s) eqn:Ed.
      + right. exists rise. repeat split; auto. left; auto.
      + left. intros [U|[U|U]]; congruence.
    - destruct (ss_rise s) as [rise|]; [right|auto]. right. exists rise. repeat split; auto. left; auto. }
  destruct D as [D|[D|(rise & Er & U & Ed & F)]].
  - assert (h' = h) as -> by (eapply hidden_unchanged; eauto). eauto.
  - assert (h' = h) as -> by (eapply hidden_unchanged; eauto). eauto.
  - assert (S : sensor_is_swept h = true).
    { unfold sensor_is_swept. apply orb_true_iff. rewrite !equal_ends_true. exact F. }
    assert (exists occ, first_occ (h_occ h) = Ok occ) as (occ & Ho).
    { unfold scan_response, dot_response in H. rewrite undeformed_b in H by auto. rewrite Er in H.
      destruct (first_occ (h_occ h)); [eauto|discriminate]. }
    assert (exists pt, calc_point s h (fully_conductive (ss_barrier1 s)) (fully_conductive (ss_barrier2 s)) true = Ok pt) as (pt & Hp).
    { unfold calc_point. rewrite Ho. cbn [bind]. destruct (Rltb _ _); eauto. }
    destruct (scan_response_rise s h p rise occ pt U Er Hn Ho) as (im0 & E & Eim); [rewrite S; exact Hp|].
    rewrite E in H. injection H as H1 H2 H3. subst ps h' im.
    assert (Hp' : calc_point s (hidden_after h occ pt) (fully_conductive (ss_barrier1 s)) (fully_conductive (ss_barrier2 s))
                    (sensor_is_swept (hidden_after h occ pt)) = Ok pt).
    { unfold sensor_is_swept, hidden_after. cbn [h_g1 h_g2]. unfold equal_ends at 1. cbn [fst snd].
      rewrite Reqb_true by reflexivity. cbn [orb]. rewrite <- Hp. apply (calc_point_swept_same _ _ _ _ _ occ); auto. }
    destruct (scan_response_rise s (hidden_after h occ pt) p rise occ pt (or_introl Ed) Er Hn eq_refl Hp') as (im1 & E1 & Eim1).
    exists (hidden_after (hidden_after h occ pt) occ pt). rewrite E1. rewrite Eim, Eim1. reflexivity.
Qed.
