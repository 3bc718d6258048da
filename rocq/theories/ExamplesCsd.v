(** A concrete configuration: two TCTs with one interdot transition of half-width [e]. *)
From Verif Require Import RPrelude Arr ModelSupport SpecSupport ProofsSupport ModelTct SpecTct ProofsTct
  ModelCsd SpecCsd ProofsCsd ProofsOcc ProofsRegions ProofsMask ProofsDriver ProofsFine ProofsScan ProofsLabel.
Local Open Scope R_scope.

Definition first_tct (e : R) : tct_params := mk_tct 4 4 1 (-1) (- e) (- e) e (- e).
Definition second_tct : tct_params := mk_tct 4 4 1 (-1) (-4) 6 (-4) 6.
Definition couple (e : R) : list tct_params := [first_tct e; second_tct].

Section Couple.
Variable e : R.
Hypothesis He : 0 <= e <= 1/4.

Lemma first_admissible : admissible (first_tct e) /\ peak (first_tct e).
Proof.
  split; [|unfold peak; simpl; lra]. split; [simpl; lra|]. split; [simpl; lra|]. exists (0, 0). unfold corner; simpl. lra.
Qed.
Lemma second_admissible : admissible second_tct /\ peak second_tct.
Proof.
  split; [|unfold peak; simpl; lra]. split; [simpl; lra|]. split; [simpl; lra|]. exists (-4, 6). unfold corner; simpl. lra.
Qed.

Lemma couple_bounded : Forall (bounded_tct 1 0 None) (couple e).
Proof.
  assert (A1 : Rabs 1 <= 1) by (rewrite Rabs_R1; lra). assert (A2 : Rabs (-1) <= 1) by (apply Rabs_le; lra).
  destruct first_admissible, second_admissible. constructor; [|constructor; [|constructor]]; split; auto.
Qed.
Lemma couple_proper : proper_tcts (couple e) None.
Proof. eapply bounded_proper, couple_bounded. Qed.

Lemma couple_line : interdot_line (couple e) 1 (0, 2) (0, 0).
Proof.
  exists second_tct, (-4, 6), (first_tct e). simpl. repeat split; simpl; try lra. f_equal; lra.
Qed.
Lemma couple_line_only n u l : (1 <= n)%nat -> interdot_line (couple e) n u l -> u <> l.
Proof.
  intros Hn (pu & cu & po & Eu & Cu & -> & Eo & Co). destruct n as [|[|n]]; [lia| |destruct n; discriminate].
  simpl in Eu, Eo. inversion Eu; inversion Eo; subst. destruct Cu as [C1 C2], Co as [C3 C4]. simpl in *.
  intros X. subst l. simpl in *. lra.
Qed.

Lemma couple_config kind gf : kind <> UnknownCdf -> gamma_of kind gf <> 0 -> csd_config component_label (couple e) None kind gf.
Proof.
  intros K G. split; [apply couple_proper|]. split; [simpl; lia|]. split; auto. split; [apply component_labelling|].
  split; auto. apply couple_line_only.
Qed.

Lemma couple_values F : tct_funs None 0 (couple e) F ->
  (forall x, F 0%nat x <= Rabs x) /\ (forall x, -4 <= x <= 4 -> 2 <= F 1%nat x).
Proof.
  intros HF. destruct first_admissible as [A1 P1], second_admissible as [A2 P2].
  assert (G1 : good_mode (first_tct e) None) by (split; [discriminate|auto]).
  assert (G2 : good_mode second_tct None) by (split; [discriminate|auto]).
  destruct (HF 0%nat (first_tct e) eq_refl) as [_ N1]. destruct (HF 1%nat second_tct eq_refl) as [_ N2]. simpl in N1, N2.
  pose proof (explicit_steps _ _ _ _ A1 P1 (or_introl eq_refl) (le_n 1) N1) as S1.
  pose proof (explicit_steps _ _ 2%nat _ A2 P2 (or_introl eq_refl) ltac:(lia) N2) as S2.
  destruct (anchors_on_tct (first_tct e) None (Some 1%nat) 1 (F 0%nat) A1 G1 (or_intror eq_refl) N1) as [_ Q1].
  destruct (anchors_on_tct second_tct None (Some 2%nat) 2 (F 1%nat) A2 G2 (or_intror eq_refl) N2) as [_ Q2].
  specialize (Q1 0%nat _ eq_refl). specialize (Q2 0%nat _ eq_refl). simpl in Q1, Q2.
  destruct Q1 as [Q1 Q1']. destruct Q2 as [Q2 _].
  pose proof (tct_periodic_limited second_tct None 2 (F 1%nat) A2 G2 ltac:(lia) N2 (-4)) as Q3. simpl in Q3.
  specialize (Q3 ltac:(lra) ltac:(lra)).
  split.
  - intros x. unfold slopes_in in S1. simpl in S1. destruct (Rle_lt_dec (- e) x).
    + pose proof (S1 (- e) x ltac:(lra)). pose proof (Rle_abs x). pose proof (Rle_abs (- x)). rewrite Rabs_Ropp in *.
      destruct (Rle_lt_dec e x); [pose proof (S1 e x ltac:(lra)); lra|]. lra.
    + pose proof (S1 x (- e) ltac:(lra)). pose proof (Rle_abs (- x)). rewrite Rabs_Ropp in *. lra.
  - intros x Hx. unfold slopes_in in S2. simpl in S2.
    pose proof (S2 (-4) x ltac:(lra)). pose proof (S2 x (-4 + (4 + 4)) ltac:(lra)). lra.
Qed.

(** between the two TCTs *)
Lemma couple_region v : Rabs (fst v) <= snd v < 2 -> Rabs (fst v) <= 4 -> electrons (couple e) None 0 v 1.
Proof.
  intros H H4. destruct (tct_funs_exist None (couple e) couple_proper 0) as [F HF].
  destruct (couple_values F HF) as [V1 V2].
  assert (Vw : tct_view 0 v = v).
  { unfold tct_view, rotate_point. rewrite Ropp_0, cos_0, sin_0. destruct v; simpl. f_equal; ring. }
  split.
  - intros k Hk. assert (k = 1%nat) by lia. subst k. apply (above_F _ _ _ F HF); [simpl; lia|]. rewrite Vw. simpl.
    specialize (V1 (fst v)). lra.
  - apply (below_F _ _ _ F HF); [simpl; lia|]. rewrite Vw. simpl. apply Rabs_le_inv in H4.
    specialize (V2 (fst v) ltac:(lra)). lra.
Qed.

Lemma couple_dot1 f g q : g <> 0 -> dot1_formula f g (first_tct e) (0, 2) (0, 0) 1 q = f (- fst q) 0 (- (2 * e) / g).
Proof.
  intros Hg. unfold dot1_formula, line_distance, peak_point, cross, vec, coupling_vector. simpl.
  replace ((0 - 0) * ((0 - 0) * 1) + (0 - 2) * ((0 - 2) * 1)) with (2 * 2) by ring.
  rewrite sqrt_square by lra. rewrite Rplus_0_r. f_equal; [field|field|field; auto].
Qed.

(** a 1D scan over the interdot transition *)
Lemma couple_scan gf g :
  default_gamma_factor Sigmoid gf = Ok g -> g <> 0 ->
  exists o o' l l', ideal_csd_geometric component_label (couple e) [-3/4; 3/4] [1; 1] (ResInt 2) 0 None Sigmoid gf
     = Ok (Csd1 [o; o'] [l; l']) /\
  fst o = sigmoid_cdf (3/4) 0 (- (2 * e) / g) /\ fst o' = sigmoid_cdf (-3/4) 0 (- (2 * e) / g) /\
  fst o + snd o = 1 /\ fst o' + snd o' = 1.
Proof.
  intros G Hg.
  destruct (csd_1d component_label (couple e) (-3/4) (3/4) 1 1 (ResInt 2) 2 0 None Sigmoid gf g couple_proper ltac:(discriminate) G eq_refl)
    as (occ & lead & E & Lo & Ll & _ & _ & Q).
  destruct occ as [|o [|o' [|]]]; try discriminate. destruct lead as [|l [|l' [|]]]; try discriminate.
  exists o, o', l, l'. split; [exact E|].
  assert (K : forall i x, (i < 2)%nat -> nth_error [o; o'] i = Some x ->
    fst x = sigmoid_cdf (- (-3/4 + INR i * (3/2))) 0 (- (2 * e) / g) /\ fst x + snd x = 1).
  { intros i x Hi Ex. destruct (Q i x Ex) as (m & Hm & Po). simpl in Hm, Po.
    unfold pixel_voltage in Hm, Po. simpl in Hm, Po.
    set (v := (-3 / 4 + INR i * ((3 / 4 - -3 / 4) / 1), 1 + INR i * ((1 - 1) / 1))) in *.
    assert (Ev : v = (-3/4 + INR i * (3/2), 1)) by (unfold v; f_equal; field).
    assert (B : -(3/4) <= fst v <= 3/4). { rewrite Ev. destruct i as [|[|]]; simpl; lra || lia. }
    assert (Eg : electrons (couple e) None 0 v 1).
    { apply couple_region; rewrite Ev in *; simpl in *; [split; [|lra]|]; apply Rabs_le; lra. }
    assert (m = 1%nat).
    { destruct Hm as [Hm|[Hm _]]; [eapply electrons_unique; eauto|exfalso; eapply electrons_not_above_all; eauto]. }
    subst m. split.
    - rewrite (region_occupation (couple e) 0 g 1 (0, 2) (0, 0) (first_tct e) Sigmoid sigmoid_cdf v x); auto.
      + rewrite couple_dot1 by auto. f_equal. unfold tct_view, rotate_point. rewrite Ropp_0, cos_0, sin_0, Ev. simpl. ring.
      + constructor; [apply first_admissible; auto|constructor; [apply second_admissible|constructor]].
      + apply couple_line.
      + left; auto.
    - destruct (pixel_occ_bounds _ _ _ _ _ _ _ Po) as (_ & S & _). exact S. }
  destruct (K 0%nat o ltac:(lia) eq_refl) as [K1 K2]. destruct (K 1%nat o' ltac:(lia) eq_refl) as [K3 K4].
  simpl in K1, K3. repeat split; auto.
  - rewrite K1. f_equal. field.
  - rewrite K3. f_equal. field.
Qed.

(** a 2D scan between the TCTs *)
Lemma couple_scan_2d kind gf : kind <> UnknownCdf -> gamma_of kind gf <> 0 ->
  exists occ lead, ideal_csd_geometric component_label (couple e) [-1/4; 1/4] [9/10; 11/10] (ResArray [2%Z; 2%Z]) 0 None kind gf
    = Ok (Csd2 occ lead) /\ rows occ = 2%nat /\ cols occ = 2%nat /\
  forall i j, (i < 2)%nat -> (j < 2)%nat -> cell lead i j = 0%nat /\ fst (cell occ i j) + snd (cell occ i j) = 1.
Proof.
  intros K G0. destruct (couple_config kind gf K G0) as (P & Hl & _ & Lab & _).
  destruct (csd_2d component_label (couple e) (-1/4) (1/4) (9/10) (11/10) 2 2 0 None kind gf (gamma_of kind gf) P Hl K
              (gamma_of_ok kind gf K) ltac:(lra) ltac:(lra) ltac:(lia) ltac:(lia) Lab) as (lead & Rl & Cl & _ & SL & D).
  change (Z.of_nat 2) with 2%Z in D.
  destruct (tct_funs_exist None (couple e) P 0) as [F HF]. destruct (couple_values F HF) as [V1 V2].
  assert (ND : forall a k, ~ drawn (couple e) None 0 (-1/4, 1/4) (9/10, 11/10) 2 2 a k).
  { intros a k Dr. pose proof (drawn_range _ _ _ _ _ _ _ _ _ Dr) as Rk.
    apply (drawn_spec _ _ _ _ _ _ _ F a k HF Rk) in Dr. destruct Dr as (x & _ & W1 & W2 & _ & _).
    unfold in_window, spacing, rotate_point in W1, W2. rewrite cos_0, sin_0 in W1, W2. cbn [fst snd] in W1, W2.
    change (INR (2 - 1)) with 1 in W1, W2. simpl in Rk.
    assert (k = 1 \/ k = 2)%nat as [-> | ->] by lia; simpl in W1, W2.
    - specialize (V1 x). assert (Rabs x <= 1/2) by (apply Rabs_le; lra). lra.
    - specialize (V2 x ltac:(lra)). lra. }
  assert (Z : forall a, in_image lead a -> value_at lead a = 0%nat).
  { intros a Ha. destruct (SL a Ha) as [[Z _]|[Dr _]]; auto. exfalso.
    rewrite !np_sort_asc in Dr by (simpl; lra). eapply ND; eauto. }
  assert (El : forall a, in_image lead a -> electrons (couple e) None 0 (pixel_voltage (-1/4, 1/4) 2 (snd a), pixel_voltage (9/10, 11/10) 2 (fst a)) 1).
  { intros a [A1 A2]. rewrite Rl in A1. rewrite Cl in A2.
    pose proof (voltage_in (-1/4, 1/4) 2 ltac:(simpl; lra) ltac:(lia) (snd a) A2) as B1.
    pose proof (voltage_in (9/10, 11/10) 2 ltac:(simpl; lra) ltac:(lia) (fst a) A1) as B2. simpl fst in B1, B2; simpl snd in B1, B2.
    set (x := pixel_voltage (-1/4, 1/4) 2 (snd a)) in *. set (y := pixel_voltage (9/10, 11/10) 2 (fst a)) in *.
    assert (Rabs x <= 1/4) by (apply Rabs_le; lra).
    apply couple_region; simpl; lra. }
  destruct D as [(occ & E & Ro & Co & Q)|[_ (a & Ha & [W|[_ (b & Cb & Ab)]])]].
  - exists occ, lead. split; [exact E|]. split; auto. split; auto. intros i j Hi Hj.
    assert (Ia : in_image lead (i, j)) by (split; simpl; lia). split; [apply (Z (i, j) Ia)|].
    destruct (Q (i, j) Ia) as (m & _ & PN & PO). simpl in PO.
    assert (m = 1%nat).
    { destruct PN as [[N _]|[_ (b & Cb & Eb)]]; [exfalso; apply N; apply (Z (i, j) Ia)|].
      eapply electrons_unique; [exact Eb|]. apply El. apply (connected_unlabelled _ _ _ Cb). }
    subst m. destruct (pixel_occ_bounds _ _ _ _ _ _ _ PO) as (_ & S & _). exact S.
  - exfalso. rewrite (Z a Ha) in W. simpl in W. lia.
  - exfalso. eapply electrons_not_above_all; [|exact Ab]. apply El. apply (connected_unlabelled _ _ _ Cb).
Qed.
End Couple.

(** narrow and zero coupling *)
Lemma narrow_right e : 1/10000000 <= e <= 1/100 -> forall o o' l l',
  ideal_csd_geometric component_label (couple e) [-3/4; 3/4] [1; 1] (ResInt 2) 0 None Sigmoid None = Ok (Csd1 [o; o'] [l; l']) ->
  fst o <= 1/10 /\ 9/10 <= fst o'.
Proof.
  intros He o o' l l' H.
  destruct (couple_scan e ltac:(lra) None (22/10) eq_refl ltac:(lra)) as (p & p' & k & k' & E & E1 & E2 & _).
  rewrite H in E. inversion E; subst p p' k k'. rewrite E1, E2.
  set (w := - (2 * e) / (22/10)). assert (Hw : w = - (10/11) * e) by (unfold w; field).
  assert (Aw : 1 / 100000000 < Rabs w) by (rewrite Rabs_left; lra).
  set (t := 3/4 / w).
  assert (Ht : t <= -10).
  { unfold t. apply Rmult_le_reg_r with (- w); [lra|]. replace (3/4 / w * - w) with (- (3/4)) by (field; lra). lra. }
  destruct (cdf_tail Sigmoid sigmoid_cdf (3/4) 0 w t (or_introl (conj eq_refl eq_refl)) Aw) as [_ T1]; [unfold t; field; lra|].
  destruct (cdf_tail Sigmoid sigmoid_cdf (-3/4) 0 w (- t) (or_introl (conj eq_refl eq_refl)) Aw) as [T2 _]; [unfold t; field; lra|].
  specialize (T1 ltac:(lra)). specialize (T2 ltac:(lra)).
  assert (I : / - t <= 1/10). { replace (1/10) with (/ 10) by field. apply Rinv_le_contravar; lra. }
  lra.
Qed.

Lemma zero_swapped : exists l l',
  ideal_csd_geometric component_label (couple 0) [-3/4; 3/4] [1; 1] (ResInt 2) 0 None Sigmoid None = Ok (Csd1 [(1, 0); (0, 1)] [l; l']).
Proof.
  destruct (couple_scan 0 ltac:(lra) None (22/10) eq_refl ltac:(lra)) as (o & o' & l & l' & E & E1 & E2 & S1 & S2).
  exists l, l'. rewrite E. replace (- (2 * 0) / (22/10)) with 0 in * by field.
  unfold sigmoid_cdf in *.
  assert (C : isclose0 0 = true) by (destruct (isclose0_spec 0) as [|N]; auto; exfalso; rewrite Rabs_R0 in *; lra).
  rewrite C in *. unfold step_cdf in *.
  destruct (Rltb_spec 0 (3/4 - 0)); [|lra]. destruct (Rltb_spec 0 (-3/4 - 0)); [lra|]. destruct (Rltb_spec (-3/4 - 0) 0); [|lra].
  destruct o as [o1 o2], o' as [p1 p2]. simpl in *. subst. repeat f_equal; lra.
Qed.

Lemma zero_coupling :
  (forall e, 1/10000000 <= e <= 1/100 -> exists o o' l l',
     ideal_csd_geometric component_label (couple e) [-3/4; 3/4] [1; 1] (ResInt 2) 0 None Sigmoid None = Ok (Csd1 [o; o'] [l; l']) /\
     fst o <= 1/10 /\ 9/10 <= fst o') /\
  exists l l', ideal_csd_geometric component_label (couple 0) [-3/4; 3/4] [1; 1] (ResInt 2) 0 None Sigmoid None
     = Ok (Csd1 [(1, 0); (0, 1)] [l; l']).
Proof.
  split; [|exact zero_swapped]. intros e He.
  destruct (couple_scan e ltac:(lra) None (22/10) eq_refl ltac:(lra)) as (o & o' & l & l' & E & _).
  exists o, o', l, l'. split; [exact E|]. exact (narrow_right e He o o' l l' E).
Qed.

(** above all TCTs *)
Lemma above_all_1d :
  exists params v, proper_tcts params None /\ above_all params None 0 v /\
  ideal_csd_geometric component_label params [fst v; fst v] [snd v; snd v] (ResInt 1) 0 None Sigmoid None = Ok (Csd1 [(0, 0)] [0%nat]).
Proof.
  exists [first_tct 0], (0, 1). destruct (first_admissible 0 ltac:(lra)) as [A P].
  assert (Pr : proper_tcts [first_tct 0] None). { constructor; [|constructor]. split; auto. split; [discriminate|auto]. }
  assert (Ab : above_all [first_tct 0] None 0 (0, 1)).
  { intros k Hk. simpl in Hk. assert (k = 1%nat) by lia. subst k.
    destruct (tct_funs_exist None (couple 0) (couple_proper 0 ltac:(lra)) 0) as [F HF].
    destruct (couple_values 0 ltac:(lra) F HF) as [V _]. destruct (HF 0%nat _ eq_refl) as [_ N]. simpl in N.
    exists (first_tct 0), (F 0%nat 0). split; [lia|]. split; [reflexivity|].
    assert (Vw : tct_view 0 (0, 1) = (0, 1)).
    { unfold tct_view, rotate_point. rewrite Ropp_0, cos_0, sin_0. simpl. f_equal; ring. }
    rewrite Vw. simpl. split; [apply N|]. specialize (V 0). rewrite Rabs_R0 in V. lra. }
  split; auto. split; auto. simpl fst; simpl snd.
  destruct (csd_1d component_label [first_tct 0] 0 0 1 1 (ResInt 1) 1 0 None Sigmoid None _ Pr ltac:(discriminate) eq_refl eq_refl)
    as (occ & lead & E & Lo & Ll & M & _ & Q). rewrite E.
  destruct occ as [|o [|]]; try discriminate.
  destruct (Q 0%nat o eq_refl) as (m & Hm & Po).
  assert (Ev : ((pixel_voltage (0, 0) 1 0, pixel_voltage (1, 1) 1 0) : point) = (0, 1)).
  { unfold pixel_voltage; simpl. f_equal; ring. }
  rewrite Ev in Hm, Po.
  assert (m = 0%nat) by (destruct Hm as [Hm|[_ Hm]]; [exfalso; eapply electrons_not_above_all; eauto|auto]). subst m.
  destruct Po as [[_ ->]|[X _]]; [|congruence].
  unfold lead_mask_1d in M. simpl in M. inversion M. reflexivity.
Qed.

Lemma mask_1d_example : exists lead, lead_mask_1d [(0, 0); (1, 0); (1/2, 1/2); (1, 1)] = Ok lead /\
  nth_error lead 0 = Some 0%nat /\ nth_error lead 1 = Some 1%nat /\ nth_error lead 2 = Some 0%nat /\ nth_error lead 3 = Some 2%nat.
Proof.
  destruct (lead_mask_1d_labels [(0, 0); (1, 0); (1/2, 1/2); (1, 1)]) as (lead & E & L & Q).
  { repeat constructor; [exists 0%nat|exists 1%nat|exists 1%nat|exists 2%nat]; split; try lia; simpl; lra. }
  exists lead. split; auto. destruct lead as [|a [|b [|c [|d [|]]]]]; try discriminate.
  destruct (Q 0%nat _ a eq_refl eq_refl) as [Qa _]. destruct (Q 1%nat _ b eq_refl eq_refl) as [Qb Vb].
  destruct (Q 2%nat _ c eq_refl eq_refl) as [Qc _]. destruct (Q 3%nat _ d eq_refl eq_refl) as [Qd Vd]. simpl in *.
  assert (a = 0%nat).
  { destruct (Nat.eq_dec a 0) as [|N]; auto. apply Qa in N. destruct N as (j & o' & [J|J] & Eo & Lt); [lia|]. subst j.
    simpl in Eo. inversion Eo; subst o'. simpl in Lt. lra. }
  assert (c = 0%nat).
  { destruct (Nat.eq_dec c 0) as [|N]; auto. apply Qc in N. destruct N as (j & o' & [J|J] & Eo & Lt).
    - assert (j = 1%nat) by lia. subst j. simpl in Eo. inversion Eo; subst o'. simpl in Lt. lra.
    - subst j. simpl in Eo. inversion Eo; subst o'. simpl in Lt. lra. }
  assert (Nb : b <> 0%nat) by (apply Qb; exists 0%nat, (0, 0); simpl; repeat split; auto; lra).
  assert (Nd : d <> 0%nat) by (apply Qd; exists 2%nat, (1/2, 1/2); simpl; repeat split; auto; lra).
  specialize (Vb Nb). specialize (Vd Nd). subst a c.
  assert (b = 1%nat) by (apply INR_eq; rewrite Vb; simpl; lra). assert (d = 2%nat) by (apply INR_eq; rewrite Vd; simpl; lra).
  subst. auto.
Qed.
