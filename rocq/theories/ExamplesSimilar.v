(** Concrete stretched and shifted configurations. *)
From Verif Require Import RPrelude Arr ModelSupport ModelTct ModelCsd ModelJumps ModelDistortions ModelSensor ModelSimulation ModelInstance ModelNoise ModelDefault ModelDefaultNoise
  SpecSupport SpecTct SpecCsd SpecSimilar ProofsSupport ProofsTct ProofsCsd ProofsOcc ProofsRegions ProofsDriver ProofsScan ProofsLabel ProofsSimilar ProofsSimilar2 ProofsSimilar3 ExamplesCsd.
Local Open Scope R_scope.

(** The two TCTs of ExamplesCsd as a configuration. *)
Definition couple_csd (e : R) : geometric := mk_geometric (couple e) 0 None Sigmoid None.
Lemma couple_bent e : bent (couple_csd e).
Proof. intros p [<-|[<-|[]]]; cbn; lra. Qed.
Lemma couple_admissible e : 0 <= e <= 1/4 -> Forall admissible (couple e).
Proof. intros He. constructor; [apply first_admissible; auto|]. constructor; [apply second_admissible|constructor]. Qed.
Lemma default_bent : bent default_csd.
Proof. intros p Hp. cbn [default_csd g_tcts default_tcts In] in Hp. repeat (destruct Hp as [<-|Hp]; [cbn [slope_left slope_right]; lra|]). destruct Hp. Qed.
Lemma couple_visible k e : 1/10000000 <= e -> 1 <= k -> visible_couplings k (couple_csd e).
Proof.
  intros He Hk n u l po Hn (pu & cu & po' & Eu & Cu & -> & Eo & Co) Eo'. cbn [couple_csd g_tcts g_cdf g_gamma gamma_of] in *. rewrite Eo in Eo'. injection Eo' as <-.
  destruct n as [|[|n]]; [lia| |destruct n; discriminate]. cbn in Eu, Eo. injection Eu as <-. injection Eo as <-. destruct Cu as [C1 C2], Co as [C3 C4]. cbn in C1, C2, C3, C4.
  destruct cu as [cx cy], l as [lx ly]. cbn [fst snd] in *. assert (cx = -4) by lra. assert (cy = 6) by lra. assert (lx = 0) by lra. assert (ly = 0) by lra. subst.
  cbn [second_tct len_right slope_right]. unfold dist2, cross, vec, coupling_vector. cbn [fst snd first_tct end_x start_x end_y start_y].
  replace ((-4 + 4 - 0) ^ 2 + (6 + 4 * -1 - 0) ^ 2) with (2 * 2) by ring. rewrite sqrt_square by lra. rewrite (Rabs_pos_eq (22 / 10)) by lra.
  rewrite Rmin_left by lra. rewrite Rabs_pos_eq; lra.
Qed.

(** Stretched by 1/100 the coupling counts as zero, and the dots are exchanged. *)
Lemma electrons_stretch k t params lut rot v n : 0 < k -> electrons params lut rot v n ->
  electrons (map (stretch_tct k (tct_view rot t)) params) lut rot (stretch_point k t v) n.
Proof.
  intros Hk. assert (W : tct_view rot (stretch_point k t v) = stretch_point k (tct_view rot t) (tct_view rot v)) by apply view_stretch.
  assert (N : forall p m x y, tct_bezier_number p lut (Some m) x = Ok y ->
    tct_bezier_number (stretch_tct k (tct_view rot t) p) lut (Some m) (stretch k (fst (tct_view rot t)) x) = Ok (stretch k (snd (tct_view rot t)) y)).
  { intros p m x y. unfold tct_bezier_number. pose proof (tct_stretch k (tct_view rot t) Hk p lut m [x]) as T. cbn [map] in T. rewrite T.
    destruct (tct_bezier p lut (Some m) [x]) as [ys|e]; [|discriminate]. cbn [bind]. rewrite item_map. intros ->. reflexivity. }
  assert (L : forall e a b, stretch k e a <= stretch k e b <-> a <= b).
  { intros e a b. unfold stretch. split; intros H.
    - apply Rmult_le_reg_l with k; lra.
    - pose proof (Rmult_le_compat_l k a b ltac:(lra) H). lra. }
  assert (L' : forall e a b, a < b -> stretch k e a < stretch k e b) by (intros e a b H; unfold stretch; pose proof (Rmult_lt_compat_l k a b Hk H); lra).
  intros [A (p & y & H1 & H2 & H3 & H4)]. split.
  - intros j Hj. destruct (A j Hj) as (p' & y' & A1 & A2 & A3 & A4). eexists _, _. split; [exact A1|]. split; [rewrite nth_error_map, A2; reflexivity|]. rewrite W.
    split; [apply N; exact A3|]. apply L. exact A4.
  - eexists _, _. split; [exact H1|]. split; [rewrite nth_error_map, H2; reflexivity|]. rewrite W. split; [apply N; exact H3|]. apply L'. exact H4.
Qed.

Section Small.
Let e : R := 1 / 10000000.
Let k : R := 1 / 100.
Let small : list tct_params := [mk_tct (k * 4) (k * 4) 1 (-1) (- (k * e)) (- (k * e)) (k * e) (- (k * e)); mk_tct (k * 4) (k * 4) 1 (-1) (k * -4) (k * 6) (k * -4) (k * 6)].
Lemma small_stretch : map (stretch_tct k (tct_view 0 (0, 0))) (couple e) = small.
Proof.
  assert (W : tct_view 0 (0, 0) = (0, 0)) by (unfold tct_view, rotate_point; rewrite Ropp_0, cos_0, sin_0; cbn [fst snd]; f_equal; ring). rewrite W.
  unfold couple, small, stretch_tct, stretch, first_tct, second_tct. cbn [map fst snd len_left len_right slope_left slope_right start_x start_y end_x end_y].
  repeat (apply f_equal2 || reflexivity); f_equal; ring.
Qed.
Lemma small_admissible : Forall admissible small.
Proof.
  constructor; [|constructor; [|constructor]]; (split; [cbn; lra|]; split; [cbn; unfold k; lra|]).
  - exists (0, 0). unfold corner, k, e. cbn. lra.
  - exists (k * -4, k * 6). unfold corner, k. cbn. lra.
Qed.
Lemma small_proper : proper_tcts small None.
Proof.
  pose proof small_admissible as A. unfold proper_tcts. rewrite Forall_forall in *. intros p Hp. split; [auto|]. split; [discriminate|]. intros _. destruct Hp as [<-|[<-|[]]]; unfold peak; cbn; lra.
Qed.
Lemma small_line : interdot_line small 1 (0, k * 2) (0, 0).
Proof.
  exists (mk_tct (k * 4) (k * 4) 1 (-1) (k * -4) (k * 6) (k * -4) (k * 6)), (k * -4, k * 6), (mk_tct (k * 4) (k * 4) 1 (-1) (- (k * e)) (- (k * e)) (k * e) (- (k * e))).
  split; [reflexivity|]. split; [unfold corner; cbn; lra|]. split; [cbn; f_equal; ring|]. split; [reflexivity|]. unfold corner; cbn; lra.
Qed.
Lemma small_scan : exists l l',
  ideal_csd_geometric component_label small [k * (-3/4); k * (3/4)] [k * 1; k * 1] (ResInt 2) 0 None Sigmoid None = Ok (Csd1 [(1, 0); (0, 1)] [l; l']).
Proof.
  destruct (csd_1d component_label small (k * (-3/4)) (k * (3/4)) (k * 1) (k * 1) (ResInt 2) 2 0 None Sigmoid None (22/10) small_proper ltac:(discriminate) eq_refl eq_refl)
    as (occ & lead & E & Lo & Ll & _ & _ & Q).
  destruct occ as [|o [|o' [|]]]; try discriminate. destruct lead as [|l [|l' [|]]]; try discriminate. exists l, l'. rewrite E. do 2 f_equal.
  assert (K : forall i x z, (i < 2)%nat -> z = (-3/4 + INR i * (3/2)) -> nth_error [o; o'] i = Some x ->
    fst x = (if Rltb z 0 then 1 else 0) /\ fst x + snd x = 1).
  { intros i x z Hi Hz Ex. destruct (Q i x Ex) as (m & Hm & Po). cbv zeta in Hm, Po.
    assert (Ev : ((pixel_voltage (k * (-3/4), k * (3/4)) 2 i, pixel_voltage (k * 1, k * 1) 2 i) : point) = stretch_point k (0, 0) (z, 1)).
    { unfold pixel_voltage, stretch_point, stretch. cbn [fst snd Nat.sub]. rewrite Hz. f_equal; simpl; field. }
    rewrite Ev in Hm, Po. assert (B : -(3/4) <= z <= 3/4) by (rewrite Hz; destruct i as [|[|]]; simpl; lra || lia).
    assert (Nz : z = -3/4 \/ z = 3/4) by (rewrite Hz; destruct i as [|[|]]; simpl; [left|right|lia]; lra).
    assert (Eg : electrons small None 0 (stretch_point k (0, 0) (z, 1)) 1).
    { rewrite <- small_stretch. apply electrons_stretch; [unfold k; lra|]. apply couple_region; [unfold e; lra| |]; cbn [fst snd]; [split; [|lra]|]; apply Rabs_le; lra. }
    assert (m = 1%nat) by (destruct Hm as [Hm|[Hm _]]; [eapply electrons_unique; eauto|exfalso; eapply electrons_not_above_all; eauto]). subst m. split.
    - rewrite (region_occupation small 0 (22/10) 1 (0, k * 2) (0, 0) _ Sigmoid sigmoid_cdf _ x small_admissible (le_n 1) small_line eq_refl (or_introl (conj eq_refl eq_refl)) Po).
      assert (Vw : tct_view 0 (stretch_point k (0, 0) (z, 1)) = (k * z, k)) by (unfold tct_view, rotate_point, stretch_point, stretch; rewrite Ropp_0, cos_0, sin_0; cbn [fst snd]; f_equal; ring).
      rewrite Vw. unfold dot1_formula, line_distance, peak_point, cross, vec, coupling_vector. cbn [fst snd seq map start_x start_y end_x end_y len_left len_right slope_left slope_right Rsum fold_right INR].
      replace ((0 - 0) ^ 2 + (0 - k * 2) ^ 2) with ((k * 2) * (k * 2)) by ring. rewrite sqrt_square by (unfold k; lra). unfold Rsum. cbn [fold_right]. rewrite Rplus_0_r.
      unfold sigmoid_cdf.
      match goal with |- (if isclose0 ?w then _ else _) = _ => assert (W : isclose0 w = true) end.
      { destruct (isclose0_spec (- ((0 - 0) * (- (k * e) - - (k * e)) - (0 - k * 2) * (k * e - - (k * e))) / (k * 2) / (22 / 10))) as [|D]; [reflexivity|]. exfalso. apply D.
        replace (- ((0 - 0) * (- (k * e) - - (k * e)) - (0 - k * 2) * (k * e - - (k * e))) / (k * 2) / (22 / 10)) with (- (1 / 1100000000)) by (unfold k, e; field).
        rewrite Rabs_Ropp, Rabs_pos_eq; lra. }
      rewrite W. unfold step_cdf.
      match goal with |- (if Rltb 0 ?a then _ else _) = _ => replace a with (- (k * z)) by (unfold k; field) end.
      destruct Nz as [-> | ->]; unfold k.
      + destruct (Rltb_spec 0 (- (1 / 100 * (-3 / 4)))); [|lra]. destruct (Rltb_spec (-3/4) 0); [reflexivity|lra].
      + destruct (Rltb_spec 0 (- (1 / 100 * (3 / 4)))); [lra|]. destruct (Rltb_spec (- (1 / 100 * (3 / 4))) 0); [|lra]. destruct (Rltb_spec (3/4) 0); [lra|reflexivity].
    - destruct (pixel_occ_bounds _ _ _ _ _ _ _ Po) as (_ & Sm & _). exact Sm. }
  destruct (K 0%nat o (-3/4) ltac:(lia) ltac:(simpl; lra) eq_refl) as [K1 K2]. destruct (K 1%nat o' (3/4) ltac:(lia) ltac:(simpl; lra) eq_refl) as [K3 K4].
  destruct (Rltb_spec (-3/4) 0); [|lra]. destruct (Rltb_spec (3/4) 0); [lra|]. destruct o as [o1 o2], o' as [p1 p2]. cbn [fst snd] in *. subst. repeat f_equal; lra.
Qed.
End Small.

Lemma scale_exchanges : exists x k o o' p p' l l' m m',
  0 < k /\ bent x /\ csd_config component_label (g_tcts x) (g_lut x) (g_cdf x) (g_gamma x)
  /\ ideal_csd_geometric component_label (g_tcts x) [-3/4; 3/4] [1; 1] (ResInt 2) (g_rotation x) (g_lut x) (g_cdf x) (g_gamma x) = Ok (Csd1 [o; o'] [l; l'])
  /\ ideal_csd_geometric component_label (g_tcts (stretch_csd k (0, 0) x)) (map (stretch k 0) [-3/4; 3/4]) (map (stretch k 0) [1; 1]) (ResInt 2) (g_rotation x) (g_lut x) (g_cdf x) (g_gamma x)
     = Ok (Csd1 [p; p'] [m; m'])
  /\ fst o <= 1/10 /\ 9/10 <= fst o' /\ p = (1, 0) /\ p' = (0, 1).
Proof.
  destruct zero_coupling as [Z _]. destruct (Z (1 / 10000000) ltac:(lra)) as (o & o' & l & l' & E & B1 & B2). destruct small_scan as (m & m' & F).
  exists (couple_csd (1 / 10000000)), (1 / 100), o, o', (1, 0), (0, 1), l, l', m, m'. split; [lra|]. split; [apply couple_bent|].
  split; [apply couple_config; [lra|discriminate|cbn; lra]|]. split; [exact E|]. split; [|repeat split; auto].
  cbn [couple_csd stretch_csd g_tcts g_rotation g_lut g_cdf g_gamma]. rewrite small_stretch. rewrite <- F. unfold stretch. cbn [map]. rewrite !Rplus_0_r. reflexivity.
Qed.
