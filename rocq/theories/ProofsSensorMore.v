(** Further lemmas about the sensors: end-to-end statements about responses and labels, geometry of the
    deformations. *)
From Coq Require Import Permutation Sorted.
From Verif Require Import RPrelude Arr ModelSupport ModelTct ModelCsd ModelDistortions ModelSensor
  SpecSupport SpecSensor ProofsSupport ProofsTct ProofsSensor ProofsScanSensor ProofsLabelScan.
Local Open Scope R_scope.

Lemma response_combined s h p im ps h' : scan_response s h p = Ok (im, ps, h') ->
  exists dot, combined s dot p im.
Proof.
  intros H. assert (Hn : pot_nonempty p).
  { unfold scan_response in H. destruct (dot_response s h p) as [[[d q] k]|]; [|discriminate]. cbn [bind] in H.
    unfold raise_if in H. destruct (length (pot_list p) =? 0)%nat eqn:E; [discriminate|].
    apply Nat.eqb_neq in E. rewrite pot_list_grid, length_grid_list in E. destruct p as [a|a]; simpl in *; nia. }
  destruct (dot_response s h p) as [[[d q] k]|e] eqn:Ed.
  2:{ unfold scan_response in H. rewrite Ed in H. discriminate. }
  assert (G : exists f, d = grid_list (nrows p) (ncols p) f).
  { unfold dot_response in Ed. cbv zeta in Ed. destruct (negb _ && _).
    - destruct (calc_point _ _ _ _ _) as [mid|]; [|discriminate]. cbn [bind] in Ed.
      destruct (scan_pixels h p) as [px|] eqn:Ep; [|discriminate]. cbn [bind] in Ed. rewrite peak_scan_spec in Ed.
      injection Ed as <- _ _. assert (T : pot_two p).
      { assert (D : pot_two p \/ ~ pot_two p) by (destruct p as [a|a]; simpl; lia). destruct D as [D|D]; [exact D|].
        rewrite (scan_pixels_single h p Hn D) in Ep. discriminate. }
      rewrite scan_pixels_ok in Ep by exact T. injection Ep as <-. rewrite map_grid_list. eauto.
    - destruct (ss_rise s).
      + destruct (first_occ _); [|discriminate]. cbn [bind] in Ed. destruct (calc_point _ _ _ _ _); [|discriminate]. cbn [bind] in Ed.
        destruct (scan_potential _ _ _ _ _ _) as [[pp hh]|]; [|discriminate]. cbn [bind fst snd] in Ed. destruct pp; [|discriminate].
        injection Ed as <- _ _. rewrite pot_list_grid, map_grid_list. eauto.
      + injection Ed as <- _ _. rewrite pot_list_grid, map_grid_list. eauto. }
  destruct G as (f & ->). exists f. rewrite (scan_response_from s h p f q k Hn Ed) in H. injection H as <- _ _.
  apply combined_reshape.
Qed.

Lemma series_of_unique r r' s b1 b2 : series_of r s b1 b2 -> series_of r' s b1 b2 -> r = r'.
Proof.
  intros [A B] [A' B']. destruct (Req_dec (b1 * b2 + s * b1 + s * b2) 0) as [E|E].
  - rewrite (B E), (B' E). reflexivity.
  - rewrite (A E), (A' E). reflexivity.
Qed.
Lemma series_of_eq r s b1 b2 : series_of r s b1 b2 -> r = series s b1 b2.
Proof. intros H. eapply series_of_unique; [exact H|]. apply series_of_series. Qed.
Lemma series_of_laws s b1 b2 r : 0 <= s -> 0 <= b1 -> 0 <= b2 -> series_of r s b1 b2 ->
  0 <= r <= Rmin s (Rmin b1 b2) /\ is_series r s b1 b2 /\
  (forall s' b1' b2' r', s <= s' -> b1 <= b1' -> b2 <= b2' -> series_of r' s' b1' b2' -> r <= r').
Proof.
  intros Hs H1 H2 Hr. apply series_of_eq in Hr. subst r. destruct (series_laws s b1 b2 Hs H1 H2) as (A & B & _).
  split; [exact A|]. split; [exact B|]. intros s' b1' b2' r' Ls L1 L2 Hr'. apply series_of_eq in Hr'. subst r'.
  destruct (series_laws s b1 b2 Hs H1 H2) as (_ & _ & M & _).
  destruct (series_laws s' b1 b2 ltac:(lra) H1 H2) as (_ & _ & _ & M1 & _).
  destruct (series_laws s' b1' b2 ltac:(lra) ltac:(lra) H2) as (_ & _ & _ & _ & M2).
  specialize (M s' Ls). specialize (M1 b1' L1). specialize (M2 b2' L2). lra.
Qed.
Lemma response_bounds s h p im ps h' : scan_response s h p = Ok (im, ps, h') ->
  same_shape_pot im p /\ exists dot, forall i j x q, img_pix im i j x -> pot_pix p i j q ->
    let b1 := get_value (ss_barrier1 s) (at_barrier1 q) in let b2 := get_value (ss_barrier2 s) (at_barrier2 q) in
    series_of x (dot i j) b1 b2.
Proof. intros H. destruct (response_combined s h p im ps h' H) as (dot & S & C). split; [exact S|]. exists dot. exact C. Qed.

(** label errors *)
Lemma labels_swept_plunger s h v1 v2 w1 w2 p occ : first_occ (h_occ h) = Ok occ -> swept v1 \/ swept v2 ->
  get_sensor_scan_labels s h v1 v2 w1 w2 p = Err ValueError.
Proof.
  intros Ho Hs. unfold get_sensor_scan_labels. rewrite Ho. cbn [bind]. unfold float_or_none.
  destruct Hs as [Hs|Hs]; apply is_sweep_spec in Hs; rewrite Hs; cbn [negb andb]; [reflexivity|].
  rewrite andb_false_r. reflexivity.
Qed.
Lemma labels_fixed_sensor s h v1 v2 w1 w2 p occ : first_occ (h_occ h) = Ok occ -> ~ swept v1 -> ~ swept v2 ->
  ~ swept w1 \/ ~ swept w2 \/ ss_peaks s = None ->
  get_sensor_scan_labels s h v1 v2 w1 w2 p = Err TypeError.
Proof.
  intros Ho N1 N2 Hw. rewrite <- is_sweep_spec in N1, N2. apply not_true_is_false in N1, N2.
  unfold get_sensor_scan_labels. rewrite Ho. cbn [bind]. unfold float_or_none. rewrite N1, N2. cbn [negb andb raise_if].
  destruct (calc_point_ok s h (fully_conductive (ss_barrier1 s)) (fully_conductive (ss_barrier2 s)) true occ Ho) as (pt & Ept).
  unfold raise_if. rewrite Ept. cbn [bind].
  assert (N1' : ~ swept v1) by (rewrite <- is_sweep_spec, N1; discriminate).
  destruct (scan_point' s occ v1 pt N1') as (a & Ea & _). rewrite Ea. cbn [bind fst snd].
  destruct (subscript w1) as [l1|e] eqn:S1.
  - cbn [bind]. destruct (subscript w2) as [l2|e] eqn:S2.
    + cbn [bind]. destruct Hw as [Hw|[Hw|Hw]].
      * elim Hw. destruct w1; try discriminate. do 2 eexists. reflexivity.
      * elim Hw. destruct w2; try discriminate. do 2 eexists. reflexivity.
      * rewrite Hw. destruct (length (ss_deform s) =? 0)%nat; [reflexivity|].
        match goal with |- context [calc_point s ?h0 ?x ?y true] => destruct (calc_point_ok s h0 x y true occ eq_refl) as (mid & Em); rewrite Em end.
        reflexivity.
    + destruct w2; try discriminate; injection S2 as <-; reflexivity.
  - destruct w1; try discriminate; injection S1 as <-; reflexivity.
Qed.

(** ** geometry of the deformations *)
Lemma circle_is_circle a radius d m : norm2 a = 1 -> radius <> 0 -> Rabs d <= Rabs radius ->
  d ^ 2 + (circle_calc_mu a radius d m - (m - radius)) ^ 2 = radius ^ 2 /\
  (0 < radius -> m - radius <= circle_calc_mu a radius d m <= m) /\
  (radius < 0 -> m <= circle_calc_mu a radius d m <= m - radius).
Proof.
  intros Ha Hr Hd. rewrite circle_closed by (lra || assumption). rewrite Ha.
  replace (radius / 1) with radius by field.
  rewrite Rleb_true by exact Hd. set (q := sqrt (Rabs radius ^ 2 - d ^ 2)).
  assert (Q : 0 <= Rabs radius ^ 2 - d ^ 2).
  { rewrite <- !Rsqr_pow2. pose proof (Rsqr_le_abs_1 d radius Hd). rewrite <- (Rsqr_abs radius). lra. }
  assert (Hq : q ^ 2 = radius ^ 2 - d ^ 2).
  { unfold q. rewrite <- Rsqr_pow2. rewrite Rsqr_sqrt by exact Q. rewrite <- (Rsqr_pow2 (Rabs radius)), <- Rsqr_abs, Rsqr_pow2. reflexivity. }
  assert (Q0 : 0 <= q) by apply sqrt_pos.
  assert (Qr : q <= Rabs radius).
  { apply Rsqr_incr_0_var; [|apply Rabs_pos]. rewrite <- Rsqr_abs, !Rsqr_pow2. rewrite Hq. pose proof (pow2_ge_0 d). lra. }
  destruct (Rtotal_order radius 0) as [L|[L|L]]; [|contradiction|].
  - rewrite (Rsign_neg radius L). rewrite (Rabs_left radius L) in *. split; [|split; lra].
    replace (m - (- radius - q) * -1 - (m - radius)) with (- q) by ring. replace ((- q) ^ 2) with (q ^ 2) by ring. rewrite Hq. ring.
  - rewrite (Rsign_pos radius L). rewrite (Rabs_right radius) in * by lra. split; [|split; lra].
    replace (m - (radius - q) * 1 - (m - radius)) with q by ring. rewrite Hq. ring.
Qed.
(** at the widest point of the circle the peak is displaced by radius / norm instead of radius *)
Lemma circle_widest a radius d m : 0 < norm2 a -> 0 < radius -> radius / norm2 a <= Rabs d ->
  circle_calc_mu a radius d m = m - radius / norm2 a.
Proof.
  intros Ha Hr Hd. assert (P : 0 < radius / norm2 a) by (apply Rdiv_lt_0_compat; lra).
  rewrite circle_sup by assumption. rewrite Rmax_left; [rewrite sqrt_0; lra|].
  assert (S : Rsqr (radius / norm2 a) <= Rsqr d) by (apply Rsqr_le_abs_1; rewrite (Rabs_right (radius / norm2 a)) by lra; exact Hd).
  rewrite !Rsqr_pow2 in S. lra.
Qed.
Lemma circle_not_circle a radius m : 0 < norm2 a -> 0 < radius ->
  let d := radius / norm2 a in
  (norm2 a * d) ^ 2 + (circle_calc_mu a radius d m - (m - radius)) ^ 2 = radius ^ 2 <-> norm2 a = 1.
Proof.
  intros Ha Hr d. assert (P : 0 < d) by (apply Rdiv_lt_0_compat; lra).
  assert (Ed : norm2 a * d = radius) by (unfold d; field; lra).
  rewrite circle_widest by (try assumption; rewrite Rabs_right by lra; apply Rle_refl). fold d. rewrite Ed. split.
  - intros E. assert (E' : (radius - d) ^ 2 = 0) by (replace (m - d - (m - radius)) with (radius - d) in E by ring; lra).
    rewrite <- Rsqr_pow2 in E'. apply Rsqr_0_uniq in E'. apply (Rmult_eq_reg_r d); lra.
  - intros N. rewrite N in Ed. replace (m - d - (m - radius)) with 0 by lra. ring.
Qed.
(** the linear deformation is a straight line under the given angle: moving d sideways moves the peak by
    d / tan angle along the middle line (in volts) *)
Lemma linear_is_line a angle d m : 0 < norm2 a ->
  (linear_calc_mu a angle d m - m) / norm2 a = d / tan angle.
Proof.
  intros H. unfold linear_calc_mu, Rdiv. rewrite Rmult_1_l. set (t := / tan angle).
  replace ((m + t * d * norm2 a - m) * / norm2 a) with (d * t * (norm2 a * / norm2 a)) by ring. rewrite Rinv_r by lra. ring.
Qed.

Lemma response_deformed_shown s h p ps : ss_deform s <> [] -> fixed (h_g1 h) -> fixed (h_g2 h) -> pot_two p ->
  ss_peaks s = Some ps -> 0 < fst (row0 (ss_sensor s)) -> (exists occ, first_occ (h_occ h) = Ok occ) ->
  exists mid im, calc_point s h (pinch_off (ss_barrier1 s)) (pinch_off (ss_barrier2 s)) true = Ok mid /\
    scan_response s h p = Ok (im, Some ps, h) /\
    combined s (shown_total s mid (h_s1 h) (h_s2 h) p ps) p im.
Proof.
  intros Hd F1 F2 Ht Hp Ha (occ & Ho).
  destruct (calc_point_ok s h (pinch_off (ss_barrier1 s)) (pinch_off (ss_barrier2 s)) true occ Ho) as (mid & Hm).
  destruct (scan_response_deformed s h p mid Hd F1 F2 Ht Hm) as (im & E & S & C). exists mid, im. split; [exact Hm|].
  split; [congruence|]. split; [exact S|]. intros i j x q Hx Hq. specialize (C i j x q Hx Hq).
  unfold deformed_dot in C. rewrite Hp in C. cbn [fst snd] in C. rewrite middle_dist_spec in C by exact Ha. exact C.
Qed.
Lemma scan_potential_pot s occ v1 v2 w1 w2 p h : scan_potential s occ v1 v2 w1 w2 = Ok (p, h) ->
  h = mk_hidden (limits_of v1) (limits_of v2) (limits_of w1) (limits_of w2) occ /\ pot_nonempty p /\
  (exists o, first_occ occ = Ok o) /\ ~ both_swept v1 v2 w1 w2.
Proof.
  intros H.
  assert (B : ~ both_swept v1 v2 w1 w2) by (intros B; rewrite scan_rejected in H by auto; discriminate).
  destruct occ as [a|a|]; unfold scan_potential, raise_if in H; [| |discriminate];
    (destruct ((is_sweep v1 || is_sweep v2) && (is_sweep w1 || is_sweep w2)); [discriminate|]).
  - destruct (len1 a =? 0)%nat eqn:E; [discriminate|]. apply Nat.eqb_neq in E. injection H as <- <-.
    split; [reflexivity|]. split; [simpl; lia|]. split; [|exact B]. exists (cell1 a 0). simpl. unfold get1.
    destruct (0 <? len1 a)%nat eqn:E2; [reflexivity|]. apply Nat.ltb_ge in E2. lia.
  - destruct ((rows a =? 0)%nat || (cols a =? 0)%nat) eqn:E; [discriminate|]. apply orb_false_iff in E. rewrite !Nat.eqb_neq in E.
    destruct E as [E1 E2]. injection H as <- <-.
    split; [reflexivity|]. split; [simpl; lia|]. split; [|exact B]. exists (cell a 0 0). simpl. unfold get2, in_shape.
    destruct (0 <? rows a)%nat eqn:E3; [|apply Nat.ltb_ge in E3; lia]. cbn [andb].
    destruct (0 <? cols a)%nat eqn:E4; [reflexivity|apply Nat.ltb_ge in E4; lia].
Qed.
Lemma calc_point_hidden s h h' a b : first_occ (h_occ h) = first_occ (h_occ h') ->
  fst (h_g1 h) = fst (h_g1 h') -> fst (h_g2 h) = fst (h_g2 h') -> calc_point s h a b true = calc_point s h' a b true.
Proof. intros Ho E1 E2. unfold calc_point. rewrite Ho, E1, E2. reflexivity. Qed.
Lemma labels_hidden s h v1 v2 w1 w2 p L h1 occ : pot_nonempty p -> first_occ (h_occ h) = Ok occ ->
  get_sensor_scan_labels s h v1 v2 w1 w2 p = Ok (L, h1) ->
  first_occ (h_occ h1) = Ok occ /\ h_g1 h1 = (fst (limits_of v1), fst (limits_of v1)) /\ h_g2 h1 = (fst (limits_of v1), fst (limits_of v1)).
Proof.
  intros Hn Ho H. destruct (labels_full _ _ _ _ _ _ _ _ _ Hn H) as (l1 & l2 & o & ps & pt & W1 & W2 & Ho' & Hps & Hpt & E1 & _).
  assert (o = occ) by congruence. subst o. rewrite E1. auto.
Qed.
Lemma labels_hidden_point s h v1 v2 w1 w2 p L h1 occ : pot_nonempty p -> first_occ (h_occ h) = Ok occ ->
  get_sensor_scan_labels s h v1 v2 w1 w2 p = Ok (L, h1) ->
  exists pt, calc_point s h (fully_conductive (ss_barrier1 s)) (fully_conductive (ss_barrier2 s)) true = Ok pt /\
    (exists a, h_occ h1 = Occ1 a /\ len1 a = 1%nat /\ cell1 a 0 = occ) /\
    h_g1 h1 = (fst (limits_of v1), fst (limits_of v1)) /\ h_g2 h1 = (fst (limits_of v1), fst (limits_of v1)) /\
    h_s1 h1 = (fst pt, fst pt) /\ h_s2 h1 = (snd pt, snd pt).
Proof.
  intros Hn Ho H. destruct (labels_full _ _ _ _ _ _ _ _ _ Hn H) as (l1 & l2 & o & ps & pt & W1 & W2 & Ho' & Hps & Hpt & E1 & _).
  assert (o = occ) by congruence. subst o. exists pt. split; [exact Hpt|]. rewrite E1. cbn. split; [eexists; split; [reflexivity|]; split; reflexivity|]. auto.
Qed.
Lemma labels_match s occ v1 v2 w1 w2 p h ps : scan_potential s occ v1 v2 w1 w2 = Ok (p, h) ->
  pot_two p -> ss_deform s <> [] -> ss_peaks s = Some ps -> sorted_peaks ps -> 0 < fst (row0 (ss_sensor s)) ->
  ~ swept v1 -> ~ swept v2 -> swept w1 -> swept w2 -> fst (limits_of v1) = fst (limits_of v2) ->
  exists mid im L h', scan_response s h p = Ok (im, Some ps, h) /\
    get_sensor_scan_labels s h v1 v2 w1 w2 p = Ok (L, h') /\
    combined s (shown_total s mid (limits_of w1) (limits_of w2) p ps) p im /\
    forall i j, (i < nrows p)%nat -> (j < ncols p)%nat ->
    let position k pk c := shown_peak s mid (limits_of w1) (limits_of w2) p i c k pk in
    (forall k, labelled L i j k -> exists pk, nth_error ps k = Some pk /\ marks_at p (position k pk) i j) /\
    (at_ 0%nat (conductive L) i j = 1%nat -> forall k pk, nth_error ps k = Some pk ->
       marks_at p (position k pk) i j -> exists k', labelled L i j k').
Proof.
  intros H Ht Hd Hp Hs Ha N1 N2 S1 S2 E.
  destruct (scan_potential_pot s occ v1 v2 w1 w2 p h H) as (Eh & Hn & (o & Ho) & _).
  assert (F : forall v, ~ swept v -> fixed (limits_of v)).
  { intros [|x|x y] N; try reflexivity. elim N. do 2 eexists; reflexivity. }
  destruct (response_deformed_shown s h p ps) as (mid & im & Em & Er & C); auto.
  { rewrite Eh. apply F, N1. } { rewrite Eh. apply F, N2. } { exists o. rewrite Eh. exact Ho. }
  assert (Ho' : first_occ (h_occ h) = Ok o) by (rewrite Eh; exact Ho).
  destruct (labels_total s h v1 v2 w1 w2 p ps o) as (L & h1 & EL); auto.
  exists mid, im, L, h1. split; [exact Er|]. split; [exact EL|]. split.
  { rewrite Eh in C. exact C. }
  destruct (labels_deformed s h v1 v2 w1 w2 p L h1 ps Hn Hs Hp Ha Hd EL) as (mid' & Em' & Q).
  destruct (labels_hidden s h v1 v2 w1 w2 p L h1 o Hn Ho' EL) as (O1 & G1 & G2).
  rewrite (calc_point_hidden s h1 h) in Em'.
  - rewrite Em in Em'. injection Em' as <-. intros i j Hi Hj position. destruct (Q i j Hi Hj) as [Q1 Q2]. split.
    + intros k HL. destruct (Q1 k HL) as (pk & Hk & M & _). eauto.
    + exact Q2.
  - congruence.
  - rewrite G1, Eh. reflexivity.
  - rewrite G2, Eh. simpl. exact E.
Qed.
(** The fully conductive threshold: right for equal plunger voltages. *)
Lemma labels_threshold s occ v1 v2 w1 w2 p h L h' : scan_potential s occ v1 v2 w1 w2 = Ok (p, h) ->
  get_sensor_scan_labels s h v1 v2 w1 w2 p = Ok (L, h') ->
  fst (limits_of v1) = fst (limits_of v2) \/ snd (row0 (ss_gate s)) = 0 ->
  exists o pt q, first_occ occ = Ok o /\
    calc_point s h (fully_conductive (ss_barrier1 s)) (fully_conductive (ss_barrier2 s)) true = Ok pt /\
    pot_spec s o (fst (limits_of v1), fst (limits_of v2)) pt q /\
    forall i j, (i < nrows p)%nat -> (j < ncols p)%nat ->
      area_of s (at_sensor q) (pcell p i j) (at_ 0%nat (conductive L) i j).
Proof.
  intros H HL E. destruct (scan_potential_pot s occ v1 v2 w1 w2 p h H) as (Eh & Hn & _ & _).
  destruct (labels_areas s h v1 v2 w1 w2 p L h' Hn HL) as (o & pt & q & Ho & Hpt & Hq & A).
  exists o, pt, (pixel_potential s o (fst (limits_of v1), fst (limits_of v2)) pt).
  split; [rewrite Eh in Ho; exact Ho|]. split; [exact Hpt|]. split; [apply pixel_potential_spec|].
  intros i j Hi Hj. specialize (A i j Hi Hj).
  replace (at_sensor (pixel_potential s o (fst (limits_of v1), fst (limits_of v2)) pt)) with (at_sensor q); [exact A|].
  destruct Hq as (Q0 & _). rewrite Q0. unfold affine_scan, affine, pixel_potential, dot2. simpl.
  destruct E as [E|E]; rewrite E; ring.
Qed.
Lemma peak_loop_restores deform dist mu idx ps sum : snd (peak_loop deform dist mu idx ps sum) = ps.
Proof. rewrite peak_loop_spec. reflexivity. Qed.
Lemma linear_all a angle d d' m :
  linear_calc_mu a angle 0 m = m /\
  linear_calc_mu a angle (- d) m - m = - (linear_calc_mu a angle d m - m) /\
  linear_calc_mu a angle d m - linear_calc_mu a angle d' m = norm2 a / tan angle * (d - d') /\
  continuous_everywhere (fun d => linear_calc_mu a angle d m).
Proof. destruct (linear_laws a angle d d' m) as (A & B & C). auto using linear_continuous. Qed.
Lemma circle_all a radius d m : 0 < norm2 a -> radius <> 0 ->
  circle_calc_mu a radius 0 m = m /\ circle_calc_mu a radius (- d) m = circle_calc_mu a radius d m /\
  (0 < radius -> continuous_everywhere (fun d => circle_calc_mu a radius d m)).
Proof. intros Ha Hr. split; [apply circle_zero; auto|]. split; [apply circle_even|]. intros H. apply circle_continuous; auto. Qed.
Lemma response_rise_shown s h p rise occ : undeformed s h -> ss_rise s = Some rise -> pot_nonempty p ->
  first_occ (h_occ h) = Ok occ ->
  exists pt q im h', calc_point s h (fully_conductive (ss_barrier1 s)) (fully_conductive (ss_barrier2 s)) (sensor_is_swept h) = Ok pt /\
    pot_spec s occ (fst (h_g1 h), fst (h_g2 h)) pt q /\ scan_response s h p = Ok (im, ss_peaks s, h') /\
    combined s (fun i j => Rmax (base_dot s (at_sensor (pcell p i j))) (rise (at_sensor (pcell p i j)) (at_sensor q))) p im.
Proof.
  intros Hu Hr Hn Ho.
  destruct (calc_point_ok s h (fully_conductive (ss_barrier1 s)) (fully_conductive (ss_barrier2 s)) (sensor_is_swept h) occ Ho) as (pt & Hpt).
  destruct (scan_response_rise s h p rise occ pt Hu Hr Hn Ho Hpt) as (im & E & Eim).
  exists pt, (pixel_potential s occ (fst (h_g1 h), fst (h_g2 h)) pt), im, (hidden_after h occ pt).
  split; [exact Hpt|]. split; [apply pixel_potential_spec|]. split; [exact E|]. rewrite Eim. apply combined_reshape.
Qed.
Lemma set_alpha_spec arg r : set_alpha arg = Ok r <->
  (exists a, arg = AlphaPair a /\ row0 r = a /\ row1 r = a /\ row2 r = a) \/ arg = AlphaRows r \/
  (arg = AlphaNone /\ row0 r = (0, 0) /\ row1 r = (0, 0) /\ row2 r = (0, 0)).
Proof.
  split.
  - destruct arg as [|a|r'|]; simpl; intros H; try discriminate; injection H as <-; simpl; eauto 10.
  - destruct r as [x y z]. simpl. intros [(a & -> & -> & -> & ->)|[->|(-> & -> & -> & ->)]]; reflexivity.
Qed.
Lemma set_alpha_sensor_spec arg r : set_alpha_sensor arg = Ok r <-> arg = AlphaRows r.
Proof. split; [destruct arg; simpl; intros H; try discriminate; injection H as <-; reflexivity|intros ->; reflexivity]. Qed.
Lemma barrier_multi_spec pinch full ps :
  (forall gs, ps = flat_map glf_tuple gs -> exists b, barrier_multi_glf pinch full ps = Ok b /\
     pinch_off b = pinch /\ fully_conductive b = full /\ forall x, get_value b x = glf_total gs x) /\
  ((forall gs, ps <> flat_map glf_tuple gs) -> barrier_multi_glf pinch full ps = Err ValueError).
Proof.
  unfold barrier_multi_glf, raise_if. split.
  - intros gs ->. rewrite length_tuples, Nat.mul_comm, Nat.mod_mul by lia. cbn [Nat.eqb negb].
    eexists. split; [reflexivity|]. split; [reflexivity|]. split; [reflexivity|]. intros x. apply multi_glf_tuples.
  - intros H. destruct (length ps mod 7 =? 0)%nat eqn:E; [|reflexivity].
    apply Nat.eqb_eq in E. destruct (tuples_of ps E) as (gs & Eg). elim (H gs Eg).
Qed.
