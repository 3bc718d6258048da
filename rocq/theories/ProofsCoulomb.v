(** Proofs about the Coulomb peaks labelled in sensor scans. *)
From Verif Require Import RPrelude Arr ModelSupport ModelTct ModelCsd ModelDistortions ModelSensor ModelSimulation ModelInstance
  ModelScanInstance SpecSupport SpecTct SpecCsd SpecSensor SpecSimulation SpecInstance SpecScanInstance SpecCoulomb ProofsSupport ProofsCsd ProofsDriver ProofsScan ProofsSensor ProofsScanSensor
  ProofsLabelScan ProofsSensorMore ProofsSimulation ProofsInstance ProofsScanInstance.
Local Open Scope R_scope.

(** ** Rows in which the potential rises or falls evenly *)
Lemma even_nearest e d : Rabs e <= Rabs (e + d) -> Rabs e <= Rabs (e - d) -> d <> 0 -> Rabs e <= Rabs d / 2.
Proof.
  intros H1 H2 Hd. unfold Rabs in *. destruct (Rcase_abs e), (Rcase_abs (e + d)), (Rcase_abs (e - d)), (Rcase_abs d); lra.
Qed.
Lemma nth_sensor_row p i j : (j < ncols p)%nat -> nth j (sensor_row p i) 0 = sensor_at p i j.
Proof.
  intros H. unfold sensor_row. rewrite (nth_indep _ 0 (sensor_at p i 0%nat)) by (rewrite map_length, seq_length; exact H).
  rewrite map_nth, seq_nth by exact H. reflexivity.
Qed.
Lemma row_length p i : length (sensor_row p i) = ncols p.
Proof. unfold sensor_row. rewrite map_length, seq_length. reflexivity. Qed.

Lemma mean_even p d : (2 <= ncols p)%nat -> (0 < nrows p)%nat ->
  (forall i j, (i < nrows p)%nat -> (j < ncols p)%nat -> sensor_at p i j = sensor_at p i 0 + INR j * d) -> mean_step p = Some (Rabs d).
Proof.
  intros Hc Hr Ev. unfold mean_step. replace (ncols p <? 2)%nat with false by (symmetry; apply Nat.ltb_ge; lia). do 2 f_equal.
  assert (E : fold_right Rplus 0 (map (fun i => sensor_at p i (ncols p - 1) - sensor_at p i 0) (seq 0 (nrows p))) = INR (nrows p) * (INR (ncols p - 1) * d)).
  { assert (Q : forall l, (forall i, In i l -> (i < nrows p)%nat) ->
      fold_right Rplus 0 (map (fun i => sensor_at p i (ncols p - 1) - sensor_at p i 0) l) = INR (length l) * (INR (ncols p - 1) * d)).
    { induction l as [|i l IH]; intros In_; [cbn; ring|]. cbn [map fold_right]. rewrite IH by (intros k Hk; apply In_; right; exact Hk).
      rewrite (Ev i (ncols p - 1)%nat) by (try (apply In_; left; reflexivity); lia). cbn [length]. rewrite S_INR. ring. }
    rewrite Q by (intros i Hi; apply in_seq in Hi; lia). rewrite seq_length. reflexivity. }
  rewrite E. assert (INR (nrows p) <> 0) by (apply not_0_INR; lia). assert (INR (ncols p - 1) <> 0) by (apply not_0_INR; lia). field. auto.
Qed.

Lemma marks_near p d i m j : (0 < nrows p)%nat ->
  (forall i j, (i < nrows p)%nat -> (j < ncols p)%nat -> sensor_at p i j = sensor_at p i 0 + INR j * d) ->
  (i < nrows p)%nat -> marks (mean_step p) (sensor_row p i) m j -> Rabs (sensor_at p i j - m) < Rabs d.
Proof.
  intros Hr Ev Hi ((Hj & Near & First) & Cases). rewrite row_length in *.
  assert (At : forall k, (k < ncols p)%nat -> nth k (sensor_row p i) 0 = sensor_at p i 0 + INR k * d).
  { intros k Hk. rewrite nth_sensor_row by exact Hk. apply Ev; assumption. }
  destruct Cases as [[H0 H1]|(t & Et & Lt)].
  - assert (d <> 0).
    { intros ->. specialize (First 0%nat ltac:(lia)). rewrite !At in First by lia. rewrite !Rmult_0_r in First. lra. }
    pose proof (Near (j - 1)%nat ltac:(lia)) as N1. pose proof (Near (S j) ltac:(lia)) as N2. rewrite !At in N1, N2 by lia.
    rewrite minus_INR in N1 by lia. rewrite S_INR in N2. cbn [INR] in N1.
    rewrite Ev by assumption. set (x := sensor_at p i 0 + INR j * d) in *.
    assert (L : Rabs (x - m) <= Rabs d / 2).
    { apply even_nearest; [| |exact H].
      - replace (x - m + d) with (sensor_at p i 0 + (INR j + 1) * d - m) by (unfold x; ring). exact N2.
      - replace (x - m - d) with (sensor_at p i 0 + (INR j - 1) * d - m) by (unfold x; ring). exact N1. }
    pose proof (Rabs_pos_lt d H). lra.
  - destruct (le_lt_dec 2 (ncols p)) as [Hc|Hc].
    + rewrite (mean_even p d Hc Hr Ev) in Et. injection Et as <-. rewrite nth_sensor_row in Lt by exact Hj. exact Lt.
    + unfold mean_step in Et. replace (ncols p <? 2)%nat with true in Et by (symmetry; apply Nat.ltb_lt; lia). discriminate.
Qed.

(** Nearest to the peak, and first among equals *)
Definition nearer (e d : R) : Prop := Rabs e < Rabs d / 2 \/ (d <> 0 /\ e = - d / 2).
Lemma nearer_below e d : nearer e d -> Rabs e < Rabs d.
Proof.
  intros [H|[H ->]]; [pose proof (Rabs_pos e); lra|]. pose proof (Rabs_pos_lt d H). replace (- d / 2) with (- (1 / 2) * d) by lra.
  rewrite Rabs_mult, Rabs_Ropp, (Rabs_pos_eq (1 / 2)) by lra. lra.
Qed.
Lemma nearer_half e d : nearer e d -> Rabs e <= Rabs d / 2.
Proof.
  intros [H|[H ->]]; [lra|]. replace (- d / 2) with (- (1 / 2) * d) by lra.
  rewrite Rabs_mult, Rabs_Ropp, (Rabs_pos_eq (1 / 2)) by lra. lra.
Qed.
Lemma near_marks p d i m j : (2 <= ncols p)%nat -> (0 < nrows p)%nat ->
  (forall i j, (i < nrows p)%nat -> (j < ncols p)%nat -> sensor_at p i j = sensor_at p i 0 + INR j * d) ->
  (i < nrows p)%nat -> (j < ncols p)%nat -> nearer (sensor_at p i j - m) d -> marks (mean_step p) (sensor_row p i) m j.
Proof.
  intros Hc Hr Ev Hi Hj Lt.
  assert (Far : forall k, (k < ncols p)%nat -> k <> j ->
    Rabs (sensor_at p i j - m) <= Rabs (sensor_at p i k - m) /\ ((k < j)%nat -> Rabs (sensor_at p i j - m) < Rabs (sensor_at p i k - m))).
  { intros k Hk Nk. rewrite (Ev i k Hi Hk). rewrite (Ev i j Hi Hj) in *.
    destruct Lt as [Lt|[Nz Eq]].
    - assert (D : Rabs d <= Rabs ((INR k - INR j) * d)).
      { rewrite Rabs_mult. pose proof (Rabs_pos d). assert (1 <= Rabs (INR k - INR j)).
        { destruct (le_lt_dec k j) as [L|L].
          - rewrite <- Rabs_Ropp. assert (S k <= j)%nat as L' by lia. apply le_INR in L'. rewrite S_INR in L'. rewrite Rabs_pos_eq; lra.
          - apply le_INR in L. rewrite S_INR in L. rewrite Rabs_pos_eq; lra. }
        apply Rle_trans with (1 * Rabs d); [lra|]. apply Rmult_le_compat_r; lra. }
      replace ((INR k - INR j) * d) with ((sensor_at p i 0 + INR k * d - m) - (sensor_at p i 0 + INR j * d - m)) in D by ring.
      set (a := sensor_at p i 0 + INR k * d - m) in *. set (b := sensor_at p i 0 + INR j * d - m) in *.
      pose proof (Rabs_triang a (- b)) as T. rewrite Rabs_Ropp in T. change (a + - b) with (a - b) in T. split; [|intros _]; lra.
    - replace (sensor_at p i 0 + INR k * d - m) with ((INR k - INR j - 1 / 2) * d) by lra. rewrite Eq.
      replace (- d / 2) with (- (1 / 2) * d) by lra. rewrite !Rabs_mult, Rabs_Ropp. rewrite (Rabs_pos_eq (1 / 2)) by lra.
      pose proof (Rabs_pos_lt d Nz) as Pd. destruct (le_lt_dec k j) as [L|L].
      + assert (S k <= j)%nat as L' by lia. apply le_INR in L'. rewrite S_INR in L'. rewrite <- (Rabs_Ropp (INR k - INR j - 1 / 2)), (Rabs_pos_eq (- _)) by lra.
        assert (1 / 2 * Rabs d < - (INR k - INR j - 1 / 2) * Rabs d) by (apply Rmult_lt_compat_r; lra). split; [|intros _]; lra.
      + split; [|lia]. apply le_INR in L. rewrite S_INR in L. rewrite (Rabs_pos_eq (INR k - INR j - 1 / 2)) by lra. apply Rmult_le_compat_r; lra. }
  split.
  - split; [rewrite row_length; exact Hj|]. rewrite row_length. rewrite nth_sensor_row by exact Hj. split.
    + intros k Hk. rewrite nth_sensor_row by exact Hk. destruct (Nat.eq_dec k j) as [->|N]; [lra|]. apply Far; assumption.
    + intros k Hk. rewrite nth_sensor_row by lia. apply Far; lia.
  - right. exists (Rabs d). rewrite nth_sensor_row by exact Hj. split; [apply mean_even; assumption|]. apply nearer_below, Lt.
Qed.

Section Coulomb.
Variable label : arr2 nat -> arr2 nat.

(** A labelled pixel in terms of the potentials the labels were computed from *)
Lemma labelled_cell lim1 lim2 lims1 lims2 x s ps a1 b1 a2 b2 v1 v2 res st m st' :
  ss_deform s = [] -> ss_peaks s = Some ps ->
  measure_sensor_scan (scan_config label lim1 lim2 lims1 lims2 x s) [a1; b1] [a2; b2] v1 v2 res st = (Ok m, st') ->
  exists o p h h1, plunger_occupation label x v1 v2 o /\ pot_nonempty p /\
    get_sensor_scan_labels s h (volt_arg v1) (volt_arg v2) (VSweep a1 b1) (VSweep a2 b2) p = Ok (sc_labels m, h1) /\
    (forall i j, (i < nrows p)%nat -> (j < ncols p)%nat ->
       sensor_at p i j = sensor_at p i 0 + INR j * row_step s (sc_scan m) (a1, b1) (a2, b2)) /\
    ((ncols p < 2)%nat -> row_step s (sc_scan m) (a1, b1) (a2, b2) = 0) /\
    forall w y c k, labelled_value (sc_scan m) (sc_labels m) (a1, b1) (a2, b2) w y c k ->
      exists i j, (i < nrows p)%nat /\ (j < ncols p)%nat /\ pot_spec s o (plunger v1, plunger v2) w (pcell p i j) /\
        at_ 0%nat (conductive (sc_labels m)) i j = c /\ at_ 0%nat (coulomb (sc_labels m)) i j = k.
Proof.
  intros Hd Hp H. destruct (scan_inv _ _ _ _ _ _ _ _ _ _ _ _ _ _ _ H) as (l1 & l2 & o & occ & p & h & h1 & ps' & h2 & E1 & E2 & Ho & Hc & Ep & El & Er & _).
  injection E1 as -> ->. injection E2 as -> ->. rewrite <- !surjective_pairing in *.
  destruct (scan_potential_pot _ _ _ _ _ _ _ _ Ep) as (Eh & Hn & _).
  assert (Sh : same_shape_pot (sc_scan m) p) by (destruct (response_combined _ _ _ _ _ _ Er) as (dot & Q); apply Q).
  destruct (scan_cell s res o occ v1 v2 l1 l2 p h Hc Ep) as [_ Cell].
  exists o, p, h, h1. split; [exact Ho|]. split; [exact Hn|]. split; [exact El|]. split.
  - intros i j Hi Hj. unfold sensor_at. destruct (Cell i j Hi Hj) as (-> & _). destruct (Cell i 0%nat Hi ltac:(lia)) as (-> & _).
    unfold affine_scan, row_step. destruct (sc_scan m) as [a|a], p as [b|b]; try (destruct Sh; fail); cbn [same_shape_pot volt_pix ncols fst snd] in *.
    + rewrite <- Sh in *. unfold volt_at. destruct (len1 a =? 1)%nat eqn:N.
      * apply Nat.eqb_eq in N. assert (j = 0)%nat by lia. subst j. cbn. ring.
      * apply Nat.eqb_neq in N. assert (INR (len1 a - 1) <> 0) by (apply not_0_INR; lia). change (INR 0) with 0. field. assumption.
    + destruct Sh as [Sr Sc]. rewrite <- Sr, <- Sc in *. unfold volt_at. destruct (cols a =? 1)%nat eqn:N.
      * apply Nat.eqb_eq in N. assert (j = 0)%nat by lia. subst j. cbn. ring.
      * apply Nat.eqb_neq in N. assert (INR (cols a - 1) <> 0) by (apply not_0_INR; lia). change (INR 0) with 0. field. assumption.
  - split.
    { intros N. unfold row_step. destruct (sc_scan m) as [a|a], p as [b|b]; try (destruct Sh; fail); cbn [same_shape_pot ncols] in *.
      - replace (len1 a - 1)%nat with 0%nat by lia. cbn [INR]. unfold Rdiv. rewrite Rinv_0. ring.
      - destruct Sh as [_ Sc]. replace (cols a - 1)%nat with 0%nat by lia. cbn [INR]. unfold Rdiv. rewrite Rinv_0. ring. }
    intros w y c k Hl.
    assert (exists i j, (i < nrows p)%nat /\ (j < ncols p)%nat /\ w = volt_pix p l1 l2 i j /\ at_ 0%nat (conductive (sc_labels m)) i j = c /\ at_ 0%nat (coulomb (sc_labels m)) i j = k)
      as (i & j & Hi & Hj & Ew & Ec & Ek).
    { unfold labelled_value in Hl. destruct (sc_scan m) as [a|a], p as [b|b]; try (destruct Sh; fail); cbn [same_shape_pot nrows ncols volt_pix] in *.
      - destruct Hl as (i & Hi & Ew & _ & C1 & C2). exists 0%nat, i. rewrite <- Sh. split; [lia|]. split; [lia|]. split; [exact Ew|]. split; apply nth_error_at; assumption.
      - destruct Hl as (i & j & Hi & Hj & Ew & _ & C1 & C2). destruct Sh as [Sh1 Sh2]. exists i, j. rewrite <- Sh1, <- Sh2. split; [lia|]. split; [lia|]. split; [exact Ew|]. split; apply nth_error_at; assumption. }
    exists i, j. split; [exact Hi|]. split; [exact Hj|]. split; [rewrite Ew; apply Cell; assumption|]. split; assumption.
Qed.

Lemma label_near lim1 lim2 lims1 lims2 x s ps a1 b1 a2 b2 v1 v2 res st m st' w y c i :
  ss_deform s = [] -> ss_peaks s = Some ps ->
  measure_sensor_scan (scan_config label lim1 lim2 lims1 lims2 x s) [a1; b1] [a2; b2] v1 v2 res st = (Ok m, st') ->
  labelled_value (sc_scan m) (sc_labels m) (a1, b1) (a2, b2) w y c (S i) ->
  c = 1%nat /\ exists o q pk, plunger_occupation label x v1 v2 o /\ pot_spec s o (plunger v1, plunger v2) w q /\ nth_error ps i = Some pk /\
    Rabs (at_sensor q - mu0 pk) < Rabs (row_step s (sc_scan m) (a1, b1) (a2, b2)).
Proof.
  intros Hd Hp H Hl. destruct (labelled_cell _ _ _ _ _ _ _ _ _ _ _ _ _ _ _ _ _ Hd Hp H) as (o & p & h & h1 & Ho & Hn & El & Ev & Single & Cells).
  destruct (Cells _ _ _ _ Hl) as (r & j & Hr & Hj & Q & Ec & Ek).
  destruct (labels_masks _ _ _ _ _ _ _ _ _ Hn El) as (_ & _ & One & _). destruct (One r j Hr Hj) as [_ One'].
  split; [rewrite <- Ec; apply One'; lia|].
  destruct (labels_plain _ _ _ _ _ _ _ _ _ _ Hn Hd Hp El r j Hr Hj) as [Sound _].
  destruct (Sound i Ek) as (pk & Hk & Mk & _). exists o, (pcell p r j), pk. split; [exact Ho|]. split; [exact Q|]. split; [exact Hk|].
  change (at_sensor (pcell p r j)) with (sensor_at p r j). apply marks_near; auto. lia.
Qed.

Lemma label_shown_at lim1 lim2 lims1 lims2 x s ps a1 b1 a2 b2 v1 v2 res st m st' w y k i pk :
  ss_deform s = [] -> ss_peaks s = Some ps ->
  measure_sensor_scan (scan_config label lim1 lim2 lims1 lims2 x s) [a1; b1] [a2; b2] v1 v2 res st = (Ok m, st') ->
  labelled_value (sc_scan m) (sc_labels m) (a1, b1) (a2, b2) w y 1 k -> nth_error ps i = Some pk ->
  (forall o q, plunger_occupation label x v1 v2 o -> pot_spec s o (plunger v1, plunger v2) w q ->
     nearer (at_sensor q - mu0 pk) (row_step s (sc_scan m) (a1, b1) (a2, b2))) ->
  (forall i' pk', i' <> i -> nth_error ps i' = Some pk' -> 3 / 2 * Rabs (row_step s (sc_scan m) (a1, b1) (a2, b2)) <= Rabs (mu0 pk' - mu0 pk)) ->
  k = S i.
Proof.
  intros Hd Hp H Hl Hi Near Far. destruct (labelled_cell _ _ _ _ _ _ _ _ _ _ _ _ _ _ _ _ _ Hd Hp H) as (o & p & h & h1 & Ho & Hn & El & Ev & Single & Cells).
  destruct (Cells _ _ _ _ Hl) as (r & j & Hr & Hj & Q & Ec & Ek). specialize (Near o _ Ho Q).
  change (at_sensor (pcell p r j)) with (sensor_at p r j) in Near. set (d := row_step s (sc_scan m) (a1, b1) (a2, b2)) in *.
  destruct (labels_plain _ _ _ _ _ _ _ _ _ _ Hn Hd Hp El r j Hr Hj) as [Sound Complete].
  assert (Two : (2 <= ncols p)%nat).
  { destruct (le_lt_dec 2 (ncols p)) as [L|L]; [exact L|exfalso]. pose proof (Rabs_pos (sensor_at p r j - mu0 pk)) as Pos.
    apply nearer_below in Near. rewrite (Single L), Rabs_R0 in Near. lra. }
  destruct (Complete Ec i pk Hi) as [k' Hk'].
  { apply (near_marks p d); auto. lia. }
  rewrite <- Ek. unfold labelled in Hk'. rewrite Hk'. f_equal.
  destruct (Sound k' Hk') as (pk' & Ei' & Mk & _). apply (marks_near p d) in Mk; [|lia|exact Ev|exact Hr].
  destruct (Nat.eq_dec k' i) as [->|N]; [reflexivity|exfalso]. specialize (Far k' pk' N Ei'). apply nearer_half in Near.
  pose proof (Rabs_triang (sensor_at p r j - mu0 pk) (- (sensor_at p r j - mu0 pk'))) as T. rewrite Rabs_Ropp in T.
  replace (sensor_at p r j - mu0 pk + - (sensor_at p r j - mu0 pk')) with (mu0 pk' - mu0 pk) in T by ring. lra.
Qed.
Lemma label_shown lim1 lim2 lims1 lims2 x s ps a1 b1 a2 b2 v1 v2 res st m st' w y k i pk o q :
  ss_deform s = [] -> ss_peaks s = Some ps ->
  measure_sensor_scan (scan_config label lim1 lim2 lims1 lims2 x s) [a1; b1] [a2; b2] v1 v2 res st = (Ok m, st') ->
  labelled_value (sc_scan m) (sc_labels m) (a1, b1) (a2, b2) w y 1 k -> nth_error ps i = Some pk ->
  plunger_occupation label x v1 v2 o -> pot_spec s o (plunger v1, plunger v2) w q ->
  Rabs (at_sensor q - mu0 pk) < Rabs (row_step s (sc_scan m) (a1, b1) (a2, b2)) / 2 ->
  (forall i' pk', i' <> i -> nth_error ps i' = Some pk' -> 3 / 2 * Rabs (row_step s (sc_scan m) (a1, b1) (a2, b2)) <= Rabs (mu0 pk' - mu0 pk)) ->
  k = S i.
Proof.
  intros Hd Hp H Hl Hi Ho Hq Lt Far. apply (label_shown_at lim1 lim2 lims1 lims2 x s ps a1 b1 a2 b2 v1 v2 res st m st' w y k i pk); auto.
  intros o' q' Ho' (Q & _). left. destruct Hq as (Q' & _). assert (o' = o).
  { unfold plunger_occupation in Ho, Ho'. destruct x as [g|], v1 as [x1|], v2 as [x2|]; try congruence.
    destruct Ho as (occ & lead & E & N), Ho' as (occ' & lead' & E' & N'). congruence. }
  subst o'. rewrite Q, <- Q'. exact Lt.
Qed.
End Coulomb.
