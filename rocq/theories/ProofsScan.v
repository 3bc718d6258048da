(** Proofs about complete scans: 2D driver, reversal of sweeps, validation, monotonicity. *)
From Verif Require Import RPrelude Arr ModelSupport SpecSupport ProofsSupport ModelTct SpecTct ProofsTct
  ModelCsd SpecCsd ProofsCsd ProofsOcc ProofsRegions ProofsMask ProofsDriver ProofsFine.
Local Open Scope R_scope.

(** ** reversed sweeps *)
Definition swap (l : R * R) : R * R := (snd l, fst l).

Lemma pixel_voltage_swap l n i : (2 <= n)%nat -> (i < n)%nat ->
  pixel_voltage (swap l) n i = pixel_voltage l n (n - 1 - i).
Proof.
  intros Hn Hi. unfold pixel_voltage, swap; simpl.
  replace (INR (n - 1 - i)) with (INR (n - 1) - INR i).
  2: { rewrite <- minus_INR by lia. reflexivity. }
  assert (0 < INR (n - 1)) by (apply lt_0_INR; lia). field. lra.
Qed.

Lemma np_sort_asc l : fst l <= snd l -> np_sort l = l.
Proof. intros H. unfold np_sort. destruct (Rleb_spec (fst l) (snd l)); [auto|lra]. Qed.
Lemma np_sort_desc l : snd l < fst l -> np_sort l = swap l.
Proof. intros H. unfold np_sort. destruct (Rleb_spec (fst l) (snd l)); [lra|auto]. Qed.
Lemma np_sort_swap l : np_sort (swap l) = np_sort l.
Proof.
  destruct l as [a b]. unfold np_sort, swap; simpl. destruct (Rleb_spec b a), (Rleb_spec a b); auto; try lra.
  assert (a = b) by lra. subst. reflexivity.
Qed.

Lemma Reqb_neq a b : Reqb a b = false -> a <> b.
Proof. intros H ->. rewrite Reqb_true in H by reflexivity. discriminate. Qed.

Definition flip_index (n : nat) (b : bool) (i : nat) : nat := if b then (n - 1 - i)%nat else i.
Lemma flip_index_lt n b i : (i < n)%nat -> (flip_index n b i < n)%nat.
Proof. destruct b; simpl; lia. Qed.
Lemma flip_index_invol n b i : (i < n)%nat -> flip_index n b (flip_index n b i) = i.
Proof. destruct b; simpl; lia. Qed.

Definition flipped (l : R * R) : bool := Rltb (snd l) (fst l).
Lemma voltage_sorted l n i : (2 <= n)%nat -> (i < n)%nat ->
  pixel_voltage l n i = pixel_voltage (np_sort l) n (flip_index n (flipped l) i).
Proof.
  intros Hn Hi. unfold flipped. destruct (Rltb_spec (snd l) (fst l)) as [H|H].
  - rewrite np_sort_desc by auto. simpl. rewrite pixel_voltage_swap by lia. f_equal. lia.
  - rewrite np_sort_asc by lra. reflexivity.
Qed.
Lemma sorted_lt l : fst l <> snd l -> fst (np_sort l) < snd (np_sort l).
Proof. intros H. unfold np_sort. destruct (Rleb_spec (fst l) (snd l)); simpl; lra. Qed.

(** pixel of the sorted image shown at a pixel of the result *)
Definition flip_pixel (nr nc : nat) (fr fc : bool) (a : nat * nat) : nat * nat :=
  (flip_index nr fr (fst a), flip_index nc fc (snd a)).

Definition flip_image {A} (fr fc : bool) (m : arr2 A) : arr2 A :=
  let m := if fr then flip_rows m else m in if fc then flip_cols m else m.

Lemma flip_image_cell {A} fr fc (m : arr2 A) : rows (flip_image fr fc m) = rows m /\ cols (flip_image fr fc m) = cols m /\
  forall i j, cell (flip_image fr fc m) i j = cell m (flip_index (rows m) fr i) (flip_index (cols m) fc j).
Proof. unfold flip_image. destruct fr, fc; simpl; auto. Qed.

Lemma adjacent_flip nr nc fr fc a b : (fst a < nr)%nat -> (snd a < nc)%nat -> (fst b < nr)%nat -> (snd b < nc)%nat ->
  adjacent a b -> adjacent (flip_pixel nr nc fr fc a) (flip_pixel nr nc fr fc b).
Proof. unfold adjacent, flip_pixel. destruct fr, fc; simpl; intros; lia. Qed.

Lemma connected_unlabelled m a b : connected m a b -> unlabelled m a /\ unlabelled m b.
Proof. induction 1; tauto. Qed.

Lemma connected_flip fr fc m a b : connected m a b ->
  connected (flip_image fr fc m) (flip_pixel (rows m) (cols m) fr fc a) (flip_pixel (rows m) (cols m) fr fc b).
Proof.
  destruct (flip_image_cell fr fc m) as (R' & C' & Q).
  assert (U : forall a, unlabelled m a -> unlabelled (flip_image fr fc m) (flip_pixel (rows m) (cols m) fr fc a)).
  { intros x [[I J] V]. split.
    - split; simpl; rewrite ?R', ?C'; apply flip_index_lt; auto.
    - unfold value_at. rewrite Q. simpl. rewrite !flip_index_invol by auto. exact V. }
  induction 1 as [a Ha|a b c Hab IH Adj Hc]; [constructor; auto|].
  econstructor; [exact IH| |auto].
  destruct (connected_unlabelled _ _ _ Hab) as [_ [[B1 B2] _]]. destruct Hc as [[C1 C2] _].
  apply adjacent_flip; auto.
Qed.

(** ** 2D scans *)
Lemma csd_2d_unfold label params a1 b1 a2 b2 nx ny rot lut kind gf :
  a1 <> b1 -> a2 <> b2 -> (2 <= nx)%nat -> (2 <= ny)%nat ->
  let xl := (a1, b1) in let yl := (a2, b2) in
  ideal_csd_geometric label params [a1; b1] [a2; b2] (ResArray [Z.of_nat nx; Z.of_nat ny]) rot lut kind gf =
  (let? lead := lead_mask_2d ny nx (np_sort xl) (np_sort yl) (initialize_tct_functions params 1) rot lut in
   let? occ := occupation_2d label lead (np_sort xl) (np_sort yl) (calculate_all_bezier_anchors params 1 rot)
                 (initialize_tct_functions params 1) rot lut kind gf in
   Ok (Csd2 (flip_image (flipped yl) (flipped xl) occ) (flip_image (flipped yl) (flipped xl) lead))).
Proof.
  intros H1 H2 Hx Hy xl yl. unfold ideal_csd_geometric. cbn [res_list].
  rewrite check_request_ok.
  2: { simpl; lia. }
  2: { intros _. repeat split; auto. repeat constructor; lia. }
  cbn [bind]. rewrite !Nat2Z.id. fold xl yl.
  destruct (lead_mask_2d ny nx (np_sort xl) (np_sort yl) (initialize_tct_functions params 1) rot lut) as [lead|e]; cbn [bind]; [|reflexivity].
  destruct (occupation_2d label lead (np_sort xl) (np_sort yl) (calculate_all_bezier_anchors params 1 rot)
                 (initialize_tct_functions params 1) rot lut kind gf) as [occ|e]; cbn [bind]; [|reflexivity].
  unfold flip_image, flipped. destruct (Rltb (snd yl) (fst yl)), (Rltb (snd xl) (fst xl)); reflexivity.
Qed.

(** what the mask of a scan shows *)
Definition scan_label (params : list tct_params) (lut : option nat) (rot : R) (xl yl : R * R) (nx ny : nat)
  (a : nat * nat) (lab : nat) : Prop :=
  (lab = 0%nat /\ forall k, ~ drawn params lut rot (np_sort xl) (np_sort yl) nx ny
                               (flip_pixel ny nx (flipped yl) (flipped xl) a) k) \/
  (drawn params lut rot (np_sort xl) (np_sort yl) nx ny (flip_pixel ny nx (flipped yl) (flipped xl) a) lab /\
   forall k, drawn params lut rot (np_sort xl) (np_sort yl) nx ny (flip_pixel ny nx (flipped yl) (flipped xl) a) k -> (k <= lab)%nat).

Lemma csd_2d label params a1 b1 a2 b2 nx ny rot lut kind gf g :
  proper_tcts params lut -> (1 <= length params < 256)%nat -> kind <> UnknownCdf -> default_gamma_factor kind gf = Ok g ->
  a1 <> b1 -> a2 <> b2 -> (2 <= nx)%nat -> (2 <= ny)%nat -> (forall m, is_labelling m (label m)) ->
  let xl := (a1, b1) in let yl := (a2, b2) in
  let volt (a : nat * nat) : point := (pixel_voltage xl nx (snd a), pixel_voltage yl ny (fst a)) in
  exists lead, rows lead = ny /\ cols lead = nx /\
  (exists lead0, lead_mask_2d ny nx (np_sort xl) (np_sort yl) (initialize_tct_functions params 1) rot lut = Ok lead0 /\
     lead = flip_image (flipped yl) (flipped xl) lead0) /\
  (forall a, in_image lead a -> scan_label params lut rot xl yl nx ny a (value_at lead a)) /\
  ((exists occ, ideal_csd_geometric label params [a1; b1] [a2; b2] (ResArray [Z.of_nat nx; Z.of_nat ny]) rot lut kind gf
       = Ok (Csd2 occ lead) /\ rows occ = ny /\ cols occ = nx /\
     forall a, in_image lead a -> exists m, (m < length params)%nat /\ pixel_number params lut rot lead volt a m /\
       pixel_occ kind (calculate_all_bezier_anchors params 1 rot) g (volt a) m (cell occ (fst a) (snd a))) \/
   (ideal_csd_geometric label params [a1; b1] [a2; b2] (ResArray [Z.of_nat nx; Z.of_nat ny]) rot lut kind gf = Err IndexError /\
     exists a, in_image lead a /\
       ((length params <= value_at lead a)%nat \/
        (value_at lead a = 0%nat /\ exists b, connected lead a b /\ above_all params lut rot (volt b))))).
Proof.
  intros P Hl K G H1 H2 Hx Hy Lab xl yl volt.
  rewrite (csd_2d_unfold label params a1 b1 a2 b2 nx ny rot lut kind gf H1 H2 Hx Hy). fold xl yl. cbv zeta.
  pose proof (sorted_lt xl H1) as Sx. pose proof (sorted_lt yl H2) as Sy.
  destruct (lead_mask_2d_spec params lut rot (np_sort xl) (np_sort yl) nx ny P Sx Sy Hx Hy) as (lead0 & E0 & R0 & C0 & _).
  pose proof (fun a => mask_labels params lut rot (np_sort xl) (np_sort yl) nx ny lead0 a P ltac:(lia) Sx Sy Hx Hy E0) as ML.
  rewrite E0. cbn [bind]. set (fr := flipped yl). set (fc := flipped xl).
  destruct (flip_image_cell fr fc lead0) as (R1 & C1 & Q1).
  exists (flip_image fr fc lead0). rewrite R1, C1. split; auto. split; auto. split; [eauto|].
  set (phi := flip_pixel ny nx fr fc).
  assert (Im : forall a, in_image (flip_image fr fc lead0) a -> in_image lead0 (phi a)).
  { intros a [A B]. rewrite R1 in A. rewrite C1 in B. split; simpl; rewrite ?R0, ?C0 in *; apply flip_index_lt; auto. }
  assert (Im' : forall a, in_image lead0 a -> in_image (flip_image fr fc lead0) (phi a)).
  { intros a [A B]. split; simpl; rewrite ?R1, ?C1, ?R0, ?C0 in *; apply flip_index_lt; auto. }
  assert (Inv : forall a, in_image lead0 a -> phi (phi a) = a).
  { intros a [A B]. rewrite R0 in A. rewrite C0 in B. unfold phi, flip_pixel. simpl. rewrite !flip_index_invol by auto. destruct a; auto. }
  assert (Val : forall a, value_at (flip_image fr fc lead0) a = value_at lead0 (phi a)).
  { intros a. unfold value_at. rewrite Q1, R0, C0. reflexivity. }
  set (volt0 := fun a : nat * nat => (pixel_voltage (np_sort xl) nx (snd a), pixel_voltage (np_sort yl) ny (fst a)) : point).
  assert (Vol : forall a, in_image (flip_image fr fc lead0) a -> volt a = volt0 (phi a)).
  { intros a [A B]. rewrite R1, R0 in A. rewrite C1, C0 in B. unfold volt, volt0. simpl. f_equal; apply voltage_sorted; auto. }
  assert (Con : forall a b, in_image (flip_image fr fc lead0) a -> connected lead0 (phi a) b -> connected (flip_image fr fc lead0) a (phi b)).
  { intros a b Ha Hc. apply (connected_flip fr fc) in Hc. rewrite R0, C0 in Hc. fold phi in Hc.
    assert (E : phi (phi a) = a).
    { destruct Ha as [A B]. rewrite R1, R0 in A. rewrite C1, C0 in B. unfold phi, flip_pixel. simpl.
      rewrite !flip_index_invol by auto. destruct a; auto. }
    rewrite E in Hc. exact Hc. }
  assert (Vb : forall b, in_image lead0 b -> volt (phi b) = volt0 b).
  { intros b Hb. rewrite Vol by auto. rewrite Inv by auto. reflexivity. }
  split.
  { intros a Ha. rewrite Val. unfold scan_label. fold fr fc phi. destruct (ML (phi a) (Im a Ha)); [left|right]; auto. }
  destruct (occupation_2d_spec label lead0 (np_sort xl) (np_sort yl) params rot lut kind gf g P Hl K G (Lab lead0))
    as [(occ & E & Ro & Co & Q)|(E & a & Ha & W)]; rewrite E; cbn [bind]; rewrite R0, C0 in *; cbv zeta in *; fold volt0 in Q || fold volt0 in W.
  - left. destruct (flip_image_cell fr fc occ) as (R2 & C2 & Q2).
    eexists. split; [reflexivity|]. split; [congruence|]. split; [congruence|]. intros a Ha.
    destruct (Q (phi a) (Im a Ha)) as (m & Hm & PN & PO). exists m. split; auto. split.
    + destruct PN as [[N Em]|[Z (b & Cb & Eb)]].
      * left. rewrite Val. auto.
      * right. rewrite Val. split; auto. exists (phi b). split; [apply Con; auto|].
        rewrite Vb; auto. apply (connected_unlabelled _ _ _ Cb).
    + rewrite Vol by auto. rewrite Q2, Ro, Co. exact PO.
  - right. split; auto. exists (phi a). split; [auto|]. rewrite Val, Inv by auto.
    destruct W as [W|[Z (b & Cb & Ab)]]; [left; auto|right]. split; auto. exists (phi b).
    split; [apply Con; [auto|rewrite Inv by auto; auto]|]. rewrite Vb; auto. apply (connected_unlabelled _ _ _ Cb).
Qed.

(** ** C05 *)
Lemma check_swap1 a1 b1 l2 res : check_request [b1; a1] l2 res =
  match check_request [a1; b1] l2 res with Ok (x, y) => Ok (swap x, y) | Err e => Err e end.
Proof.
  unfold check_request, fixed_voltage. simpl.
  assert (E : Reqb b1 a1 = Reqb a1 b1).
  { destruct (Req_dec a1 b1) as [->|N]; auto. rewrite !Reqb_false by auto. reflexivity. }
  rewrite E. destruct (length res =? 2)%nat; simpl.
  - destruct (Reqb a1 b1); simpl; auto. destruct l2 as [|a2 [|b2 l2]]; simpl; auto.
    destruct (Reqb a2 b2); simpl; auto. destruct l2; simpl; auto.
    destruct (2 <? length res)%nat; simpl; auto. destruct (existsb _ res); reflexivity.
  - destruct l2 as [|a2 [|b2 [|c2 l2]]]; simpl; auto. destruct (2 <? length res)%nat; simpl; auto.
Qed.
Lemma check_swap2 l1 a2 b2 res : check_request l1 [b2; a2] res =
  match check_request l1 [a2; b2] res with Ok (x, y) => Ok (x, swap y) | Err e => Err e end.
Proof.
  unfold check_request, fixed_voltage. simpl.
  assert (E : Reqb b2 a2 = Reqb a2 b2).
  { destruct (Req_dec a2 b2) as [->|N]; auto. rewrite !Reqb_false by auto. reflexivity. }
  rewrite E. destruct (length res =? 2)%nat; simpl.
  - destruct l1 as [|a1 [|b1 l1]]; simpl; auto. destruct (Reqb a1 b1); simpl; auto.
    destruct (Reqb a2 b2); simpl; auto. destruct l1; simpl; auto.
    destruct (2 <? length res)%nat; simpl; auto. destruct (existsb _ res); reflexivity.
  - destruct l1 as [|a1 [|b1 [|c1 l1]]]; simpl; auto. destruct (2 <? length res)%nat; simpl; auto.
Qed.

Lemma check_distinct l1 l2 res xl yl : check_request l1 l2 res = Ok (xl, yl) -> length res = 2%nat ->
  fst xl <> snd xl /\ fst yl <> snd yl.
Proof.
  intros H L. unfold check_request in H. rewrite L in H. simpl in H. unfold fixed_voltage in H.
  destruct l1 as [|a1 [|b1 l1]]; simpl in H; try discriminate.
  destruct (Reqb a1 b1) eqn:E1; simpl in H; try discriminate.
  destruct l2 as [|a2 [|b2 l2]]; simpl in H; try discriminate.
  destruct (Reqb a2 b2) eqn:E2; simpl in H; try discriminate.
  destruct l1, l2; try discriminate. destruct (existsb _ res); try discriminate. simpl in H. inversion H; subst. simpl.
  split; apply Reqb_neq; auto.
Qed.

Lemma flipped_swap l : fst l <> snd l -> flipped (swap l) = negb (flipped l).
Proof.
  intros H. unfold flipped, swap; simpl. destruct (Rltb_spec (fst l) (snd l)), (Rltb_spec (snd l) (fst l)); simpl; auto; try lra.
Qed.

Lemma reverse_g1 label params a1 b1 l2 nx ny rot lut kind gf :
  eq_result (ideal_csd_geometric label params [b1; a1] l2 (ResArray [nx; ny]) rot lut kind gf)
            (mirror_g1 (ideal_csd_geometric label params [a1; b1] l2 (ResArray [nx; ny]) rot lut kind gf)).
Proof.
  unfold ideal_csd_geometric. cbn [res_list]. rewrite check_swap1.
  destruct (check_request [a1; b1] l2 [nx; ny]) as [[xl yl]|e] eqn:C; cbn [bind]; [|reflexivity].
  destruct (check_distinct _ _ _ _ _ C eq_refl) as [D _].
  rewrite np_sort_swap.
  destruct (lead_mask_2d _ _ _ _ _ _ _) as [lead|e]; cbn [bind]; [|reflexivity].
  destruct (occupation_2d _ _ _ _ _ _ _ _ _ _) as [occ|e]; cbn [bind]; [|reflexivity].
  fold (flipped yl). fold (flipped (swap xl)). fold (flipped xl). rewrite flipped_swap by auto.
  destruct (flipped yl), (flipped xl); cbn [negb mirror_g1 eq_result eq_csd];
    auto using eq2_refl, eq2_sym, flip_cols_invol.
Qed.

Lemma reverse_g2 label params l1 a2 b2 nx ny rot lut kind gf :
  eq_result (ideal_csd_geometric label params l1 [b2; a2] (ResArray [nx; ny]) rot lut kind gf)
            (mirror_g2 (ideal_csd_geometric label params l1 [a2; b2] (ResArray [nx; ny]) rot lut kind gf)).
Proof.
  unfold ideal_csd_geometric. cbn [res_list]. rewrite check_swap2.
  destruct (check_request l1 [a2; b2] [nx; ny]) as [[xl yl]|e] eqn:C; cbn [bind]; [|reflexivity].
  destruct (check_distinct _ _ _ _ _ C eq_refl) as [_ D].
  rewrite np_sort_swap.
  destruct (lead_mask_2d _ _ _ _ _ _ _) as [lead|e]; cbn [bind]; [|reflexivity].
  destruct (occupation_2d _ _ _ _ _ _ _ _ _ _) as [occ|e]; cbn [bind]; [|reflexivity].
  fold (flipped (swap yl)). fold (flipped yl). fold (flipped xl). rewrite flipped_swap by auto.
  assert (T : forall A (m : arr2 A), eq2 (flip_rows (flip_cols (flip_rows m))) (flip_cols m)).
  { intros A m. eapply eq2_trans; [apply flip_rows_cols|]. repeat split; auto. simpl. intros i j Hi Hj. f_equal. lia. }
  destruct (flipped yl), (flipped xl); cbn [negb mirror_g2 eq_result eq_csd];
    auto using eq2_refl, eq2_sym, flip_rows_invol, flip_rows_cols.
Qed.

Lemma occupation_1d_reverse n xl yl params rot lut kind gf : proper_tcts params lut -> kind <> UnknownCdf -> n <> 1%nat ->
  exists occ, occupation_1d n xl yl (calculate_all_bezier_anchors params 1 rot) (initialize_tct_functions params 1) rot lut kind gf = Ok occ /\
  occupation_1d n (swap xl) (swap yl) (calculate_all_bezier_anchors params 1 rot) (initialize_tct_functions params 1) rot lut kind gf = Ok (rev occ).
Proof.
  intros P K Hn. destruct (gamma_known kind gf K) as [g G].
  destruct (occupation_1d_spec n xl yl params rot lut kind gf g P K G) as (occ & E & L & Q).
  destruct (occupation_1d_spec n (swap xl) (swap yl) params rot lut kind gf g P K G) as (occ' & E' & L' & Q').
  exists occ. split; auto. rewrite E'. f_equal. apply nth_error_ext. intros i.
  destruct (Nat.lt_ge_cases i n) as [Hi|Hi].
  2: { transitivity (@None (R * R)); [|symmetry]; apply nth_error_None; rewrite ?rev_length; lia. }
  destruct (nth_error occ' i) as [o'|] eqn:Eo'; [|apply nth_error_None in Eo'; lia].
  destruct (nth_error (rev occ) i) as [o|] eqn:Eo; [|apply nth_error_None in Eo; rewrite rev_length in Eo; lia].
  f_equal. assert (Eo2 : nth_error occ (n - 1 - i) = Some o).
  { rewrite nth_error_rev in Eo. rewrite L in Eo. destruct (Nat.ltb_spec i n); [|lia]. rewrite <- Eo. f_equal. lia. }
  destruct (Q' i o' Eo') as (m' & Hm' & O'). destruct (Q _ o Eo2) as (m & Hm & O).
  rewrite !pixel_voltage_swap in * by lia.
  assert (m = m').
  { destruct Hm as [Hm|[Hm Z]], Hm' as [Hm'|[Hm' Z']]; try congruence.
    - eapply electrons_unique; eauto.
    - exfalso; eapply electrons_not_above_all; eauto.
    - exfalso; eapply electrons_not_above_all; eauto. }
  subst m'. eapply pixel_occ_fun; eauto.
Qed.

Lemma reverse_1d label params a1 b1 a2 b2 res n rot lut kind gf :
  proper_tcts params lut -> kind <> UnknownCdf -> res_list res = [n] -> n <> 1%Z ->
  eq_result (ideal_csd_geometric label params [b1; a1] [b2; a2] res rot lut kind gf)
            (mirror_1d (ideal_csd_geometric label params [a1; b1] [a2; b2] res rot lut kind gf)).
Proof.
  intros P K Hr Hn. unfold ideal_csd_geometric. rewrite Hr.
  rewrite !check_request_ok by (simpl; try lia; intros; lia). cbn [bind].
  destruct (Z.ltb_spec n 0) as [N|N]; simpl raise_if; [reflexivity|].
  destruct (occupation_1d_reverse (Z.to_nat n) (a1, b1) (a2, b2) params rot lut kind gf P K ltac:(lia)) as (occ & E & E').
  unfold swap in E'; simpl in E'. rewrite E, E'. cbn [bind].
  destruct (lead_mask_1d_spec occ) as (lead & El & _). rewrite El. cbn [bind].
  rewrite (lead_mask_1d_rev occ lead El). simpl. auto.
Qed.

(** ** C13 *)
Lemma check_request_iff l1 l2 res :
  (well_formed_request l1 l2 res <-> exists lims, check_request l1 l2 res = Ok lims).
Proof.
  split.
  - intros (a1 & b1 & a2 & b2 & -> & -> & H1 & H2). rewrite check_request_ok by auto. eauto.
  - intros [[xl yl] H]. unfold check_request in H.
    destruct (Nat.eqb_spec (length res) 2) as [L|L]; simpl in H.
    + unfold fixed_voltage in H.
      destruct l1 as [|a1 [|b1 l1]]; simpl in H; try discriminate.
      destruct (Reqb a1 b1) eqn:E1; simpl in H; try discriminate.
      destruct l2 as [|a2 [|b2 l2]]; simpl in H; try discriminate.
      destruct (Reqb a2 b2) eqn:E2; simpl in H; try discriminate.
      destruct l1, l2; try discriminate. rewrite L in H. simpl in H.
      destruct (existsb _ res) eqn:X; try discriminate.
      exists a1, b1, a2, b2. repeat split; auto; try lia; try (apply Reqb_neq; auto).
      apply Forall_forall. intros r Hr. destruct (Z.lt_ge_cases 1 r); auto. exfalso.
      assert (existsb (fun r : Z => (r <=? 1)%Z) res = true); [|congruence].
      apply existsb_exists. exists r. split; auto. apply Z.leb_le; auto.
    + destruct l1 as [|a1 [|b1 [|c1 l1]]]; try discriminate. destruct l2 as [|a2 [|b2 [|c2 l2]]]; try discriminate.
      destruct (Nat.ltb_spec 2 (length res)); try discriminate. exists a1, b1, a2, b2. repeat split; auto; lia.
Qed.

Lemma check_request_error l1 l2 res e : check_request l1 l2 res = Err e ->
  e = ValueError \/ (e = IndexError /\ length res = 2%nat /\ (length l1 < 2 \/ length l2 < 2)%nat).
Proof.
  unfold check_request. destruct (Nat.eqb_spec (length res) 2) as [L|L]; simpl.
  - unfold fixed_voltage. destruct l1 as [|a1 [|b1 l1]]; simpl; try (intros H; inversion H; right; repeat split; auto; left; lia).
    destruct (Reqb a1 b1); simpl; [intros H; inversion H; auto|].
    destruct l2 as [|a2 [|b2 l2]]; simpl; try (intros H; inversion H; right; repeat split; auto; right; lia).
    destruct (Reqb a2 b2); simpl; [intros H; inversion H; auto|].
    destruct l1; [|intros H; inversion H; auto]. destruct l2; [|intros H; inversion H; auto].
    rewrite L. simpl. destruct (existsb _ res); simpl; intros H; inversion H; auto.
  - destruct l1 as [|a1 [|b1 [|c1 l1]]]; try (intros H; inversion H; auto; fail).
    destruct l2 as [|a2 [|b2 [|c2 l2]]]; try (intros H; inversion H; auto; fail).
    destruct (2 <? length res)%nat; simpl; intros H; inversion H; auto.
Qed.

Lemma malformed_rejected label params l1 l2 res rot lut kind gf :
  ~ well_formed_request l1 l2 (res_list res) ->
  ideal_csd_geometric label params l1 l2 res rot lut kind gf = Err ValueError \/
  (ideal_csd_geometric label params l1 l2 res rot lut kind gf = Err IndexError /\
   length (res_list res) = 2%nat /\ (length l1 < 2 \/ length l2 < 2)%nat).
Proof.
  intros N. unfold ideal_csd_geometric.
  destruct (check_request l1 l2 (res_list res)) as [lims|e] eqn:C.
  - exfalso. apply N, check_request_iff. eauto.
  - cbn [bind]. destruct (check_request_error _ _ _ _ C) as [->|(-> & H)]; auto.
Qed.

(** ** C65 *)
Lemma view_quarter v : tct_view (- (PI / 4)) v = ((fst v - snd v) / sqrt 2, (fst v + snd v) / sqrt 2).
Proof.
  unfold tct_view, rotate_point. rewrite Ropp_involutive, cos_PI4, sin_PI4.
  assert (0 < sqrt 2) by (apply sqrt_lt_R0; lra). f_equal; field; lra.
Qed.

Lemma bounded_good L eps lut p : bounded_tct L eps lut p -> admissible p /\ good_mode p lut.
Proof.
  intros (A & Pk & _ & _ & M). split; auto. split; auto. intros ->. destruct M; lia.
Qed.
Lemma bounded_proper L eps lut params : Forall (bounded_tct L eps lut) params -> proper_tcts params lut.
Proof. intros H. eapply Forall_impl; [|exact H]. intros p. apply bounded_good. Qed.

Lemma explicit_steps p lut k F : admissible p -> peak p -> explicit lut -> (1 <= k)%nat ->
  (forall x, tct_bezier_number p lut (Some k) x = Ok (F x)) ->
  slopes_in (slope_right p) (slope_left p) F.
Proof.
  intros A Pk E Hk HF. destruct (tct_slopes p lut (Some k) A Pk E Hk) as (f & If & S).
  intros x y Hxy. specialize (If x) as I1. specialize (If y) as I2. rewrite HF in I1, I2. inversion I1 as [E1]; inversion I2 as [E2]. rewrite E1, E2. apply S; auto.
Qed.

Lemma raise_keeps params lut v v' k : Forall (bounded_tct 1 0 lut) params -> explicit lut ->
  fst v <= fst v' -> snd v <= snd v' ->
  on_or_above params lut (- (PI / 4)) v k -> on_or_above params lut (- (PI / 4)) v' k.
Proof.
  intros B E H1 H2 A. pose proof (on_or_above_range _ _ _ _ _ A) as Rk.
  destruct (tct_funs_exist lut params (bounded_proper _ _ _ _ B) 0) as [F HF].
  rewrite (above_F params lut _ F HF) in A |- * by auto. rewrite !view_quarter in *. simpl in *.
  destruct (nth_error params (k - 1)) as [p|] eqn:Ep; [|apply nth_error_None in Ep; lia].
  rewrite Forall_forall in B. destruct (B p (nth_error_In _ _ Ep)) as (Ad & Pk & S1 & S2 & _).
  destruct (HF (k - 1)%nat p Ep) as [_ N]. simpl in N. 
  pose proof (explicit_steps p lut (S (k - 1)) _ Ad Pk E ltac:(lia) N) as Sl.
  apply Rabs_le_inv in S1. apply Rabs_le_inv in S2.
  assert (S : 0 < / sqrt 2) by (apply Rinv_0_lt_compat, sqrt_lt_R0; lra). unfold Rdiv in *.
  set (h := / sqrt 2) in *. set (G := F (k - 1)%nat) in *.
  assert (St : G ((fst v' - snd v) * h) <= (fst v' + snd v) * h).
  { pose proof (Sl ((fst v - snd v) * h) ((fst v' - snd v) * h) ltac:(nra)) as [_ U]. 
    assert (0 <= (fst v' - fst v) * h) by nra.
    replace ((fst v' - snd v) * h - (fst v - snd v) * h) with ((fst v' - fst v) * h) in U by ring. nra. }
  pose proof (Sl ((fst v' - snd v') * h) ((fst v' - snd v) * h) ltac:(nra)) as [U _].
  assert (0 <= (snd v' - snd v) * h) by nra.
  replace ((fst v' - snd v) * h - (fst v' - snd v') * h) with ((snd v' - snd v) * h) in U by ring. nra.
Qed.

Lemma raise_electrons params lut v v' n n' : Forall (bounded_tct 1 0 lut) params -> explicit lut ->
  fst v <= fst v' -> snd v <= snd v' ->
  electrons params lut (- (PI / 4)) v n -> electrons params lut (- (PI / 4)) v' n' -> (n <= n')%nat.
Proof.
  intros B E H1 H2 [A _] [_ N]. destruct (Nat.le_gt_cases n n'); auto. exfalso.
  apply (above_below_excl _ _ _ _ _ (raise_keeps params lut v v' (S n') B E H1 H2 (A (S n') ltac:(lia))) N).
Qed.
Lemma raise_above_all params lut v v' : Forall (bounded_tct 1 0 lut) params -> explicit lut ->
  fst v <= fst v' -> snd v <= snd v' ->
  above_all params lut (- (PI / 4)) v -> above_all params lut (- (PI / 4)) v'.
Proof. intros B E H1 H2 A k Hk. eapply raise_keeps; eauto. Qed.

(** ** C66 *)
Lemma bounded_close L eps lut p k F : 0 <= eps -> bounded_tct L eps lut p -> (1 <= k)%nat ->
  (forall x, tct_bezier_number p lut (Some k) x = Ok (F x)) ->
  exists f, (forall x y, Rabs (f x - f y) <= L * Rabs (x - y)) /\ (forall x, Rabs (F x - f x) <= eps).
Proof.
  intros He (A & Pk & S1 & S2 & M) Hk HF.
  assert (HL : 0 <= L) by (pose proof (Rabs_pos (slope_left p)); lra).
  assert (Lp : forall f, slopes_in (slope_right p) (slope_left p) f -> forall x y, Rabs (f x - f y) <= L * Rabs (x - y)).
  { apply Rabs_le_inv in S1. apply Rabs_le_inv in S2. intros f S.
    assert (W : forall x y, x <= y -> Rabs (f x - f y) <= L * Rabs (x - y)).
    { intros x y H. specialize (S x y H). rewrite (Rabs_minus_sym x y), (Rabs_pos_eq (y - x)) by lra.
      apply Rabs_le. split; nra. }
    intros x y. destruct (Rle_lt_dec x y); [apply W; auto|]. rewrite (Rabs_minus_sym (f x)), (Rabs_minus_sym x). apply W; lra. }
  assert (Ex : explicit lut -> exists f, (forall x y, Rabs (f x - f y) <= L * Rabs (x - y)) /\ (forall x, Rabs (F x - f x) <= eps)).
  { intros E. exists F. split; [apply Lp; eapply explicit_steps; eauto|]. intros x. rewrite Rminus_diag_eq, Rabs_R0 by auto. auto. }
  destruct lut as [[|n]|]; [apply Ex; right; auto| |apply Ex; left; auto].
  destruct M as [Hn M]. destruct (tct_lut_error p (S n) (Some k) A Pk Hn Hk) as (f & g & If & Ig & C).
  exists f. split.
  - apply Lp. eapply explicit_steps; eauto. left; auto.
  - intros x. specialize (Ig x). rewrite HF in Ig. inversion Ig as [Eg]. rewrite Eg. specialize (C x).
    refine (Rle_trans _ _ _ C _). refine (Rle_trans _ _ _ _ M). apply Rmult_le_compat_r.
    + destruct A as (_ & _ & c & _ & [A1 A2] & _). apply Rmult_le_pos; [lra|]. left. apply Rinv_0_lt_compat, lt_0_INR. lia.
    + apply Rmax_lub; auto.
Qed.

Section Same.
Variables (params : list tct_params) (lut : option nat) (rot L eps : R) (xl yl : R * R) (nx ny : nat) (m : arr2 nat).
Hypothesis Hx : fst xl < snd xl.
Hypothesis Hy : fst yl < snd yl.
Hypothesis Hnx : (2 <= nx)%nat.
Hypothesis Hny : (2 <= ny)%nat.
Hypothesis Hl : (length params < 256)%nat.
Hypothesis Heps : 0 <= eps.
Hypothesis HB : Forall (bounded_tct L eps lut) params.
Hypothesis Fine : fine_sampling xl yl nx ny rot L eps.
Hypothesis Em : lead_mask_2d ny nx xl yl (initialize_tct_functions params 1) rot lut = Ok m.
Let volt (a : nat * nat) : point := (pixel_voltage xl nx (snd a), pixel_voltage yl ny (fst a)).

Lemma mask_shape : rows m = ny /\ cols m = nx.
Proof.
  destruct (lead_mask_2d_spec params lut rot xl yl nx ny (bounded_proper _ _ _ _ HB) Hx Hy Hnx Hny) as (m' & E & R' & C' & _).
  rewrite Em in E. inversion E; subst; auto.
Qed.

Lemma neighbours_same a b k : unlabelled m a -> unlabelled m b -> adjacent a b ->
  on_or_above params lut rot (volt a) k -> on_or_above params lut rot (volt b) k.
Proof.
  intros [Ia Va] [Ib Vb] Adj A. pose proof (on_or_above_range _ _ _ _ _ A) as Rk.
  pose proof (bounded_proper _ _ _ _ HB) as P. destruct mask_shape as [Rm Cm].
  destruct (tct_funs_exist lut params P 0) as [F HF].
  destruct (above_or_below params lut rot (volt b) k P Rk) as [|B]; auto. exfalso.
  destruct (nth_error params (k - 1)) as [p|] eqn:Ep; [|apply nth_error_None in Ep; lia].
  assert (Bp : bounded_tct L eps lut p) by (rewrite Forall_forall in HB; apply HB; eapply nth_error_In; eauto).
  destruct (HF (k - 1)%nat p Ep) as [_ N]. simpl in N.
  destruct (bounded_close L eps lut p (S (k - 1)) _ Heps Bp ltac:(lia) N) as (f & Lip & Close).
  assert (HL : 0 <= L) by (destruct Bp as (_ & _ & S1 & _); pose proof (Rabs_pos (slope_left p)); lra).
  assert (Nd : forall c, in_image m c -> value_at m c = 0%nat -> ~ hit xl yl nx ny rot (F (k - 1)%nat) c).
  { intros c Ic Vc D. destruct (mask_labels params lut rot xl yl nx ny m c P Hl Hx Hy Hnx Hny Em Ic) as [[_ ND]|[D' _]].
    - apply (ND k). apply (drawn_spec params lut rot xl yl nx ny F c k HF Rk). exact D.
    - rewrite Vc in D'. apply drawn_range in D'. lia. }
  rewrite (above_F params lut rot F HF) in A by auto. rewrite (below_F params lut rot F HF) in B by auto.
  pose proof Ia as [Ia1 Ia2]. pose proof Ib as [Ib1 Ib2]. rewrite Rm in Ia1, Ib1. rewrite Cm in Ia2, Ib2.
  destruct (adjacent_hit xl yl nx ny rot L eps (F (k - 1)%nat) f Hx Hy Hnx Hny HL Heps Lip Close Fine a b
              Ia1 Ia2 Ib1 Ib2 Adj A (Rlt_not_le _ _ B)) as [H|H].
  - apply (Nd a); auto.
  - apply (Nd b); auto.
Qed.

Lemma connected_same a b k : connected m a b ->
  (on_or_above params lut rot (volt a) k <-> on_or_above params lut rot (volt b) k).
Proof.
  assert (Sym : forall a b, adjacent a b -> adjacent b a) by (unfold adjacent; intros; lia).
  induction 1 as [a Ha|a b c Hab IH Adj Hc]; [tauto|].
  destruct (connected_unlabelled _ _ _ Hab) as [_ Hb].
  rewrite IH. split; apply neighbours_same; auto.
Qed.

Lemma connected_electrons a b n : connected m a b -> electrons params lut rot (volt b) n -> electrons params lut rot (volt a) n.
Proof.
  intros C [A B]. split.
  - intros k Hk. apply (connected_same a b k C). auto.
  - pose proof (strictly_below_range _ _ _ _ _ B) as Rk.
    destruct (above_or_below params lut rot (volt a) (S n) (bounded_proper _ _ _ _ HB) Rk) as [A'|]; auto.
    exfalso. apply (connected_same a b (S n) C) in A'. eapply above_below_excl; eauto.
Qed.
Lemma connected_above_all a b : connected m a b -> above_all params lut rot (volt b) -> above_all params lut rot (volt a).
Proof. intros C A k Hk. apply (connected_same a b k C). auto. Qed.
End Same.

(** the default rotation with moderately anisotropic pixels *)
Lemma fine_default xl yl nx ny : fst xl < snd xl -> fst yl < snd yl -> (2 <= nx)%nat -> (2 <= ny)%nat ->
  spacing xl nx <= 3 * spacing yl ny -> spacing yl ny <= 3 * spacing xl nx ->
  fine_sampling xl yl nx ny (- (PI / 4)) 1 0.
Proof.
  intros Hx Hy Hnx Hny A1 A2. unfold fine_sampling, sample_distance, rotated_extent.
  rewrite cos_neg, sin_neg, Rabs_Ropp, cos_PI4, sin_PI4.
  pose proof (spacing_pos xl nx Hx Hnx) as Sx. pose proof (spacing_pos yl ny Hy Hny) as Sy.
  rewrite (spacing_span xl nx Hnx), (spacing_span yl ny Hny).
  set (dx := spacing xl nx) in *. set (dy := spacing yl ny) in *.
  rewrite minus_INR, mult_INR, plus_INR by lia. change (INR 1) with 1. change (INR 4) with (1+1+1+1).
  assert (Nx : 2 <= INR nx) by (apply (le_INR 2 nx) in Hnx; simpl in Hnx; lra).
  assert (Ny : 2 <= INR ny) by (apply (le_INR 2 ny) in Hny; simpl in Hny; lra).
  set (a := INR nx) in *. set (b := INR ny) in *.
  assert (Q : sqrt 2 * sqrt 2 = 2) by (apply sqrt_sqrt; lra).
  assert (S2 : 0 < sqrt 2) by (apply sqrt_lt_R0; lra).
  assert (Hh : 0 < 1 / sqrt 2) by (apply Rdiv_lt_0_compat; lra).
  set (h := 1 / sqrt 2) in *.
  assert (Hq : h * h = 1/2). { unfold h. replace (1 / sqrt 2 * (1 / sqrt 2)) with (1 / (sqrt 2 * sqrt 2)) by (field; lra). rewrite Q. reflexivity. }
  rewrite (Rabs_pos_eq h) by lra.
  assert (H1 : h < 7072/10000). { nra. }
  assert (D : 0 < (a + b) * (1+1+1+1) - 1) by lra.
  set (N := (a + b) * (1+1+1+1) - 1) in *.
  set (T := h * ((a - 1) * dx) + h * ((b - 1) * dy) + 2 * dx).
  assert (E : h * (T / N / 2) + h * (1 * (T / N / 2) + 2 * 0) = (h * T) / N) by (field; lra).
  rewrite E.
  assert (HT : h * T = 1/2 * ((a - 1) * dx) + 1/2 * ((b - 1) * dy) + 2 * h * dx).
  { unfold T. replace (h * (h * ((a - 1) * dx) + h * ((b - 1) * dy) + 2 * dx)) with
      (h * h * ((a - 1) * dx) + h * h * ((b - 1) * dy) + 2 * h * dx) by ring. rewrite Hq. ring. }
  assert (Gd : forall d, 0 < d -> dx <= 3 * d -> dy <= 3 * d -> h * T / N < d / 2).
  { intros d Hd G1 G2. apply Rmult_lt_reg_r with N; [lra|]. unfold Rdiv at 1. rewrite Rmult_assoc, Rinv_l, Rmult_1_r by lra.
    rewrite HT. unfold N.
    assert ((a - 1) * dx <= (a - 1) * (3 * d)) by (apply Rmult_le_compat_l; lra).
    assert ((b - 1) * dy <= (b - 1) * (3 * d)) by (apply Rmult_le_compat_l; lra).
    assert (2 * h * dx <= 2 * (7072/10000) * (3 * d)). { apply Rle_trans with (2 * (7072/10000) * dx); [apply Rmult_le_compat_r; lra|lra]. }
    assert (0 <= (a - 2) * d) by (apply Rmult_le_pos; lra). assert (0 <= (b - 2) * d) by (apply Rmult_le_pos; lra). lra. }
  split; apply Gd; lra.
Qed.

(** ** every pixel of every scan *)
Lemma gamma_of_ok kind gf : kind <> UnknownCdf -> default_gamma_factor kind gf = Ok (gamma_of kind gf).
Proof. intros K. destruct gf, kind; simpl; auto; congruence. Qed.

Lemma request_shape label params l1 l2 res rot lut kind gf d :
  ideal_csd_geometric label params l1 l2 res rot lut kind gf = Ok d ->
  exists a1 b1 a2 b2, l1 = [a1; b1] /\ l2 = [a2; b2] /\
  ((exists n, res_list res = [Z.of_nat n]) \/
   (exists nx ny, (2 <= nx)%nat /\ (2 <= ny)%nat /\ res_list res = [Z.of_nat nx; Z.of_nat ny] /\
      res = ResArray [Z.of_nat nx; Z.of_nat ny] /\ a1 <> b1 /\ a2 <> b2)).
Proof.
  intros H. unfold ideal_csd_geometric in H.
  destruct (check_request l1 l2 (res_list res)) as [lims|e] eqn:C; cbn [bind] in H; [|discriminate].
  assert (W : well_formed_request l1 l2 (res_list res)) by (apply check_request_iff; eauto).
  destruct W as (a1 & b1 & a2 & b2 & -> & -> & L & Q). exists a1, b1, a2, b2. split; auto. split; auto.
  destruct lims as [xl yl]. destruct (res_list res) as [|n [|ny [|z t]]] eqn:Er.
  - discriminate.
  - left. destruct (Z.ltb_spec n 0); simpl in H; [discriminate|]. exists (Z.to_nat n). rewrite Z2Nat.id by lia. auto.
  - right. destruct (Q eq_refl) as (N1 & N2 & F). inversion F as [|? ? F1 F']; subst. inversion F' as [|? ? F2 _]; subst.
    exists (Z.to_nat n), (Z.to_nat ny). rewrite !Z2Nat.id by lia. repeat split; auto; try lia.
    destruct res; simpl in Er; [discriminate|]. congruence.
  - simpl in L; lia.
Qed.

Lemma scan_occ label params l1 l2 res rot lut kind gf d a1 b1 a2 b2 v o lab :
  csd_config label params lut kind gf -> l1 = [a1; b1] -> l2 = [a2; b2] ->
  ideal_csd_geometric label params l1 l2 res rot lut kind gf = Ok d ->
  scan_pixel d (a1, b1) (a2, b2) v o lab ->
  exists n, assigned params lut rot d (a1, b1) (a2, b2) v lab n /\
    pixel_occ kind (calculate_all_bezier_anchors params 1 rot) (gamma_of kind gf) v n o.
Proof.
  intros (P & Hl & K & Lab & _) E1 E2 H Px.
  destruct (request_shape _ _ _ _ _ _ _ _ _ _ H) as (a1' & b1' & a2' & b2' & X1 & X2 & S).
  rewrite E1 in X1. rewrite E2 in X2. inversion X1; inversion X2; subst a1' b1' a2' b2' l1 l2. clear X1 X2.
  pose proof (gamma_of_ok kind gf K) as G.
  destruct S as [[n Er]|(nx & ny & Hx & Hy & _ & -> & N1 & N2)].
  - destruct (csd_1d label params a1 b1 a2 b2 res n rot lut kind gf _ P K G Er) as (occ & lead & E & Lo & Ll & _ & _ & Q).
    rewrite H in E. inversion E; subst d. destruct Px as (i & Eo & El & ->). rewrite Lo.
    destruct (Q i o Eo) as (m & Hm & Po). exists m. split; auto.
  - destruct (csd_2d label params a1 b1 a2 b2 nx ny rot lut kind gf _ P Hl K G N1 N2 Hx Hy Lab)
      as (lead & Rl & Cl & _ & _ & [(occ & E & Ro & Co & Q)|[E _]]); [|congruence].
    rewrite H in E. inversion E; subst d. destruct Px as (i & j & Hi & Hj & -> & -> & ->).
    rewrite Ro in *. rewrite Co in *.
    assert (Ia : in_image lead (i, j)) by (split; simpl; lia).
    destruct (Q (i, j) Ia) as (m & Hm & PN & PO). exists m. split; [|exact PO].
    unfold assigned. rewrite Ro, Co. destruct PN as [[N Em]|[Z (b & Cb & Eb)]]; [left; auto|right].
    split; auto. exists (i, j), b. auto.
Qed.

Lemma scan_total label params l1 l2 res rot lut kind gf d a1 b1 a2 b2 v o lab :
  csd_config label params lut kind gf -> l1 = [a1; b1] -> l2 = [a2; b2] ->
  ideal_csd_geometric label params l1 l2 res rot lut kind gf = Ok d ->
  scan_pixel d (a1, b1) (a2, b2) v o lab ->
  exists n, (n < length params)%nat /\ assigned params lut rot d (a1, b1) (a2, b2) v lab n /\ fst o + snd o = INR n.
Proof.
  intros C E1 E2 H Px. destruct (scan_occ _ _ _ _ _ _ _ _ _ _ _ _ _ _ _ _ _ C E1 E2 H Px) as (n & A & Po).
  exists n. destruct (pixel_occ_bounds _ _ _ _ _ _ _ Po) as (B & S & _). destruct C as (_ & Hl & _).
  split; [lia|]. auto.
Qed.

Lemma scan_bounds label params l1 l2 res rot lut kind gf d a1 b1 a2 b2 v o lab :
  csd_config label params lut kind gf -> l1 = [a1; b1] -> l2 = [a2; b2] ->
  ideal_csd_geometric label params l1 l2 res rot lut kind gf = Ok d ->
  scan_pixel d (a1, b1) (a2, b2) v o lab ->
  0 <= fst o <= fst o + snd o /\ 0 <= snd o <= fst o + snd o.
Proof.
  intros C E1 E2 H Px. destruct (scan_occ _ _ _ _ _ _ _ _ _ _ _ _ _ _ _ _ _ C E1 E2 H Px) as (n & A & Po).
  destruct (pixel_occ_bounds _ _ _ _ _ _ _ Po) as (B & S & B1 & B2). rewrite S. auto.
Qed.

(** two pixels (of any two scans) with the same electron number *)
Lemma scan_dot1 label params l1 l2 res rot lut kind gf d a1 b1 a2 b2 v o lab n u l po f :
  csd_config label params lut kind gf -> l1 = [a1; b1] -> l2 = [a2; b2] ->
  ideal_csd_geometric label params l1 l2 res rot lut kind gf = Ok d ->
  scan_pixel d (a1, b1) (a2, b2) v o lab -> fst o + snd o = INR n -> (1 <= n)%nat ->
  interdot_line params n u l -> nth_error params (n - 1) = Some po -> cdf_of kind f ->
  fst o = dot1_formula f (gamma_of kind gf) po u l n (tct_view rot v).
Proof.
  intros C E1 E2 H Px S Hn I Ep Cf. destruct (scan_occ _ _ _ _ _ _ _ _ _ _ _ _ _ _ _ _ _ C E1 E2 H Px) as (m & A & Po).
  destruct (pixel_occ_bounds _ _ _ _ _ _ _ Po) as (_ & S' & _). rewrite S in S'. apply INR_eq in S'. subst m.
  destruct C as (P & _).
  assert (Fa : Forall admissible params) by (eapply Forall_impl; [|exact P]; simpl; tauto).
  exact (region_occupation params rot _ n u l po kind f v o Fa Hn I Ep Cf Po).
Qed.

(** ** agreement of 1D and 2D scans *)
Lemma scan_2d_unlabelled label params a1 b1 a2 b2 nx ny rot lut kind gf occ lead L eps :
  csd_config label params lut kind gf -> 0 <= eps -> Forall (bounded_tct L eps lut) params ->
  fine_sampling (np_sort (a1, b1)) (np_sort (a2, b2)) (Z.to_nat nx) (Z.to_nat ny) rot L eps ->
  ideal_csd_geometric label params [a1; b1] [a2; b2] (ResArray [nx; ny]) rot lut kind gf = Ok (Csd2 occ lead) ->
  forall v o, scan_pixel (Csd2 occ lead) (a1, b1) (a2, b2) v o 0%nat ->
  exists n, electrons params lut rot v n /\ pixel_occ kind (calculate_all_bezier_anchors params 1 rot) (gamma_of kind gf) v n o.
Proof.
  intros (P & Hl & K & Lab & _) He HB Fine H v o Px.
  destruct (request_shape _ _ _ _ _ _ _ _ _ _ H) as (a1' & b1' & a2' & b2' & X1 & X2 & S).
  inversion X1; inversion X2; subst a1' b1' a2' b2'. clear X1 X2.
  destruct S as [[n Er]|(nx' & ny' & Hx & Hy & Er & _ & N1 & N2)]; [discriminate|].
  simpl in Er. inversion Er; subst nx ny. rewrite !Nat2Z.id in Fine.
  pose proof (gamma_of_ok kind gf K) as G.
  destruct (csd_2d label params a1 b1 a2 b2 nx' ny' rot lut kind gf _ P Hl K G N1 N2 Hx Hy Lab)
    as (lead' & Rl & Cl & (lead0 & E0 & El) & _ & [(occ' & E & Ro & Co & Q)|[E _]]); [|congruence].
  rewrite H in E. inversion E; subst occ' lead'. destruct Px as (i & j & Hi & Hj & -> & Z0 & ->).
  rewrite Ro in *. rewrite Co in *.
  assert (Ia : in_image (flip_image (flipped (a2, b2)) (flipped (a1, b1)) lead0) (i, j)) by (split; simpl; rewrite ?Rl, ?Cl; lia).
  destruct (Q (i, j) Ia) as (m & Hm & PN & PO). exists m. split; [|exact PO].
  destruct PN as [[N Em]|[_ (b & Cb & Eb)]]; [unfold value_at in N; simpl in N; congruence|].
  (* connected in the sorted image *)
  set (xl := (a1, b1)) in *. set (yl := (a2, b2)) in *. set (fr := flipped yl) in *. set (fc := flipped xl) in *.
  destruct (flip_image_cell fr fc lead0) as (R1 & C1 & Q1).
  assert (R0 : rows lead0 = ny') by congruence. assert (C0 : cols lead0 = nx') by congruence.
  assert (Inv : eq2 (flip_image fr fc (flip_image fr fc lead0)) lead0).
  { destruct (flip_image_cell fr fc (flip_image fr fc lead0)) as (R2 & C2 & Q2). split; [congruence|]. split; [congruence|].
    rewrite R2, C2, R1, C1. intros i' j' Hi' Hj'. rewrite Q2, Q1, R1, C1, !flip_index_invol by auto. reflexivity. }
  assert (Ceq : forall m1 m2 a b, eq2 m1 m2 -> connected m1 a b -> connected m2 a b).
  { intros m1 m2 a b0 (Er1 & Er2 & Er3) Hc.
    assert (U : forall a, unlabelled m1 a -> unlabelled m2 a).
    { intros x [[I J] V]. split; [split; lia|]. unfold value_at in *. rewrite <- Er3 by auto. auto. }
    induction Hc; [constructor; auto|econstructor; eauto]. }
  pose proof (connected_flip fr fc _ _ _ Cb) as Cb'. rewrite R1, C1 in Cb'. apply (Ceq _ _ _ _ Inv) in Cb'.
  rewrite R0, C0 in Cb'.
  pose proof (sorted_lt xl N1) as Sx. pose proof (sorted_lt yl N2) as Sy.
  destruct (connected_unlabelled _ _ _ Cb) as [_ [[B1 B2] _]].
  rewrite R1, R0 in B1. rewrite C1, C0 in B2.
  pose proof (connected_electrons params lut rot L eps (np_sort xl) (np_sort yl) nx' ny' lead0 Sx Sy Hx Hy ltac:(lia) He HB Fine E0
                _ _ m Cb') as CE. simpl in CE.
  unfold fr, fc in CE. rewrite <- !voltage_sorted in CE by lia. apply CE. exact Eb.
Qed.

Lemma scans_agree label params a1 b1 a2 b2 nx ny rot lut kind gf occ lead L eps c1 e1 c2 e2 res d v o o' lab :
  csd_config label params lut kind gf -> 0 <= eps -> Forall (bounded_tct L eps lut) params ->
  fine_sampling (np_sort (a1, b1)) (np_sort (a2, b2)) (Z.to_nat nx) (Z.to_nat ny) rot L eps ->
  ideal_csd_geometric label params [a1; b1] [a2; b2] (ResArray [nx; ny]) rot lut kind gf = Ok (Csd2 occ lead) ->
  scan_pixel (Csd2 occ lead) (a1, b1) (a2, b2) v o 0%nat ->
  ideal_csd_geometric label params [c1; e1] [c2; e2] res rot lut kind gf = Ok d ->
  length (res_list res) = 1%nat -> scan_pixel d (c1, e1) (c2, e2) v o' lab -> o = o'.
Proof.
  intros C He HB Fine H Px H' Lr Px'.
  destruct (scan_2d_unlabelled _ _ _ _ _ _ _ _ _ _ _ _ _ _ _ _ C He HB Fine H v o Px) as (n & En & Po).
  destruct (scan_occ _ _ _ _ _ _ _ _ _ _ _ _ _ _ _ _ _ C eq_refl eq_refl H' Px') as (m & A & Po').
  destruct (request_shape _ _ _ _ _ _ _ _ _ _ H') as (a1' & b1' & a2' & b2' & _ & _ & [[k Er]|(nx' & ny' & _ & _ & Er & _)]);
    [|rewrite Er in Lr; discriminate].
  destruct C as (P & Hl & K & Lab & _).
  destruct (csd_1d label params c1 e1 c2 e2 res k rot lut kind gf _ P K (gamma_of_ok kind gf K) Er) as (occ1 & lead1 & E & _).
  rewrite H' in E. inversion E; subst d. simpl in A.
  assert (m = n).
  { destruct A as [A|[A _]]; [eapply electrons_unique; eauto|exfalso; eapply electrons_not_above_all; eauto]. }
  subst m. eapply pixel_occ_fun; eauto.
Qed.

(** when a 2D scan fails *)
Lemma scan_2d_fails label params xl yl nx ny rot lut kind gf L eps lead :
  csd_config label params lut kind gf -> 0 <= eps -> Forall (bounded_tct L eps lut) params ->
  fst xl < snd xl -> fst yl < snd yl -> (2 <= nx)%nat -> (2 <= ny)%nat ->
  fine_sampling xl yl nx ny rot L eps ->
  lead_mask_2d ny nx xl yl (initialize_tct_functions params 1) rot lut = Ok lead ->
  let r := ideal_csd_geometric label params [fst xl; snd xl] [fst yl; snd yl] (ResArray [Z.of_nat nx; Z.of_nat ny]) rot lut kind gf in
  let volt (a : nat * nat) : point := (pixel_voltage xl nx (snd a), pixel_voltage yl ny (fst a)) in
  ((exists occ, r = Ok (Csd2 occ lead)) \/ r = Err IndexError) /\
  (r = Err IndexError <-> exists a, in_image lead a /\
     (value_at lead a = length params \/ (value_at lead a = 0%nat /\ above_all params lut rot (volt a)))).
Proof.
  intros (P & Hl & K & Lab & _) He HB Sx Sy Hx Hy Fine El r volt.
  pose proof (gamma_of_ok kind gf K) as G.
  destruct xl as [a1 b1], yl as [a2 b2]. cbn [fst snd] in *.
  assert (Fx : flipped (a1, b1) = false) by (unfold flipped; simpl; destruct (Rltb_spec b1 a1); auto; lra).
  assert (Fy : flipped (a2, b2) = false) by (unfold flipped; simpl; destruct (Rltb_spec b2 a2); auto; lra).
  assert (Nx : np_sort (a1, b1) = (a1, b1)) by (apply np_sort_asc; simpl; lra).
  assert (Ny : np_sort (a2, b2) = (a2, b2)) by (apply np_sort_asc; simpl; lra).
  destruct (csd_2d label params a1 b1 a2 b2 nx ny rot lut kind gf _ P Hl K G ltac:(lra) ltac:(lra) Hx Hy Lab)
    as (lead' & Rl & Cl & (lead0 & E0 & Ef) & SL & D).
  rewrite Nx, Ny in E0. rewrite El in E0. inversion E0; subst lead0. rewrite Fx, Fy in Ef. unfold flip_image in Ef. subst lead'.
  fold r volt in D.
  assert (Top : forall a, in_image lead a -> (value_at lead a <= length params)%nat).
  { intros a Ha. destruct (mask_labels params lut rot (a1, b1) (a2, b2) nx ny lead a P ltac:(lia) Sx Sy Hx Hy El Ha) as [[-> _]|[Dr _]]; [lia|].
    apply drawn_range in Dr. lia. }
  split; [destruct D as [(occ & E & _)|[E _]]; [left; eauto|right; auto]|].
  split.
  - intros Er. destruct D as [(occ & E & _)|[_ (a & Ha & W)]]; [congruence|].
    exists a. split; auto. destruct W as [W|[Z (b & Cb & Ab)]]; [left; specialize (Top a Ha); lia|right].
    split; auto. eapply (connected_above_all params lut rot L eps (a1, b1) (a2, b2) nx ny lead); eauto. lia.
  - intros (a & Ha & W). destruct D as [(occ & E & _ & _ & Q)|[E _]]; [exfalso|exact E].
    destruct (Q a Ha) as (m & Hm & PN & _). destruct W as [W|[Z Ab]].
    + destruct PN as [[_ ->]|[Z _]]; lia.
    + destruct PN as [[N _]|[_ (b & Cb & Eb)]]; [congruence|].
      eapply electrons_not_above_all; [|exact Ab].
      eapply (connected_electrons params lut rot L eps (a1, b1) (a2, b2) nx ny lead); eauto. lia.
Qed.

(** ** monotone occupations *)
Lemma dot1_mono_signed kind f g po u l n q q' : cdf_of kind f ->
  0 <= - cross (vec u l) (coupling_vector po) / sqrt (fst (vec u l) ^ 2 + snd (vec u l) ^ 2) / g ->
  line_distance u l q <= line_distance u l q' -> dot1_formula f g po u l n q <= dot1_formula f g po u l n q'.
Proof. intros C W D. apply Rsum_le. intros k _. eapply cdf_up; eauto. Qed.

Lemma scan_mono label params rot lut kind gf res d a1 b1 a2 b2 v o lab res' d' a1' b1' a2' b2' v' o' lab' n u l po :
  csd_config label params lut kind gf ->
  ideal_csd_geometric label params [a1; b1] [a2; b2] res rot lut kind gf = Ok d ->
  scan_pixel d (a1, b1) (a2, b2) v o lab -> fst o + snd o = INR n ->
  ideal_csd_geometric label params [a1'; b1'] [a2'; b2'] res' rot lut kind gf = Ok d' ->
  scan_pixel d' (a1', b1') (a2', b2') v' o' lab' -> fst o' + snd o' = INR n ->
  (1 <= n)%nat -> interdot_line params n u l -> nth_error params (n - 1) = Some po ->
  0 < gamma_of kind gf ->
  1 / 100000000 * gamma_of kind gf * dist2 u l < Rabs (cross (vec u l) (coupling_vector po)) ->
  0 <= cross (vec u l) (vec (tct_view rot v) (tct_view rot v')) * cross (vec u l) (coupling_vector po) ->
  fst o <= fst o' /\ snd o' <= snd o.
Proof.
  intros C H Px S H' Px' S' Hn I Ep G W D.
  assert (Cf : exists f, cdf_of kind f).
  { destruct C as (_ & _ & K & _). destruct kind; [exists sigmoid_cdf; left|exists cauchy_cdf; right|congruence]; auto. }
  destruct Cf as [f Cf].
  rewrite (scan_dot1 _ _ _ _ _ _ _ _ _ _ _ _ _ _ _ _ _ n u l po f C eq_refl eq_refl H Px S Hn I Ep Cf) in S |- *.
  rewrite (scan_dot1 _ _ _ _ _ _ _ _ _ _ _ _ _ _ _ _ _ n u l po f C eq_refl eq_refl H' Px' S' Hn I Ep Cf) in S' |- *.
  assert (Hul : u <> l) by (destruct C as (_ & _ & _ & _ & _ & X); eapply X; eauto).
  pose proof (dot1_mono kind f (gamma_of kind gf) po u l n (tct_view rot v) (tct_view rot v') Cf G Hul W D). lra.
Qed.

Lemma scan_mono_signed label params rot lut kind gf res d a1 b1 a2 b2 v o lab res' d' a1' b1' a2' b2' v' o' lab' n u l po :
  csd_config label params lut kind gf ->
  ideal_csd_geometric label params [a1; b1] [a2; b2] res rot lut kind gf = Ok d ->
  scan_pixel d (a1, b1) (a2, b2) v o lab -> fst o + snd o = INR n ->
  ideal_csd_geometric label params [a1'; b1'] [a2'; b2'] res' rot lut kind gf = Ok d' ->
  scan_pixel d' (a1', b1') (a2', b2') v' o' lab' -> fst o' + snd o' = INR n ->
  (1 <= n)%nat -> interdot_line params n u l -> nth_error params (n - 1) = Some po ->
  0 <= - cross (vec u l) (coupling_vector po) / gamma_of kind gf ->
  line_distance u l (tct_view rot v) <= line_distance u l (tct_view rot v') ->
  fst o <= fst o' /\ snd o' <= snd o.
Proof.
  intros C H Px S H' Px' S' Hn I Ep W D.
  assert (Cf : exists f, cdf_of kind f).
  { destruct C as (_ & _ & K & _). destruct kind; [exists sigmoid_cdf; left|exists cauchy_cdf; right|congruence]; auto. }
  destruct Cf as [f Cf].
  rewrite (scan_dot1 _ _ _ _ _ _ _ _ _ _ _ _ _ _ _ _ _ n u l po f C eq_refl eq_refl H Px S Hn I Ep Cf) in S |- *.
  rewrite (scan_dot1 _ _ _ _ _ _ _ _ _ _ _ _ _ _ _ _ _ n u l po f C eq_refl eq_refl H' Px' S' Hn I Ep Cf) in S' |- *.
  assert (Hul : u <> l) by (destruct C as (_ & _ & _ & _ & _ & X); eapply X; eauto).
  assert (W' : 0 <= - cross (vec u l) (coupling_vector po) / sqrt (fst (vec u l) ^ 2 + snd (vec u l) ^ 2) / gamma_of kind gf).
  { pose proof (vec_norm_pos u l Hul) as N. unfold Rdiv in *.
    replace (- cross (vec u l) (coupling_vector po) * / sqrt (fst (vec u l) ^ 2 + snd (vec u l) ^ 2) * / gamma_of kind gf)
      with (- cross (vec u l) (coupling_vector po) * / gamma_of kind gf * / sqrt (fst (vec u l) ^ 2 + snd (vec u l) ^ 2)) by ring.
    apply Rmult_le_pos; auto. left. apply Rinv_0_lt_compat; auto. }
  pose proof (dot1_mono_signed kind f (gamma_of kind gf) po u l n (tct_view rot v) (tct_view rot v') Cf W' D). lra.
Qed.

Lemma scan_limits label params rot lut kind gf n u l po :
  csd_config label params lut kind gf -> (1 <= n)%nat -> interdot_line params n u l -> nth_error params (n - 1) = Some po ->
  0 < gamma_of kind gf ->
  1 / 100000000 * gamma_of kind gf * dist2 u l < Rabs (cross (vec u l) (coupling_vector po)) ->
  forall eps, 0 < eps -> exists D, forall res d a1 b1 a2 b2 v o lab,
  ideal_csd_geometric label params [a1; b1] [a2; b2] res rot lut kind gf = Ok d ->
  scan_pixel d (a1, b1) (a2, b2) v o lab -> fst o + snd o = INR n ->
  let s := cross (vec u l) (vec l (tct_view rot v)) * cross (vec u l) (coupling_vector po) in
  (D <= s -> INR n - eps <= fst o) /\ (s <= - D -> fst o <= eps).
Proof.
  intros C Hn I Ep G W eps He.
  assert (Cf : exists f, cdf_of kind f).
  { destruct C as (_ & _ & K & _). destruct kind; [exists sigmoid_cdf; left|exists cauchy_cdf; right|congruence]; auto. }
  destruct Cf as [f Cf].
  assert (Hul : u <> l) by (destruct C as (_ & _ & _ & _ & _ & X); eapply X; eauto).
  destruct (dot1_limits kind f (gamma_of kind gf) po u l n Cf G Hul W eps He) as [D Q].
  exists D. intros res d a1 b1 a2 b2 v o lab H Px S s.
  rewrite (scan_dot1 _ _ _ _ _ _ _ _ _ _ _ _ _ _ _ _ _ n u l po f C eq_refl eq_refl H Px S Hn I Ep Cf).
  apply (Q (tct_view rot v)).
Qed.

(** ** 1D masks *)
Lemma scan_1d_mask label params a1 b1 a2 b2 res rot lut kind gf occ lead :
  csd_config label params lut kind gf ->
  ideal_csd_geometric label params [a1; b1] [a2; b2] res rot lut kind gf = Ok (Csd1 occ lead) ->
  length lead = length occ /\
  forall i o l, nth_error occ i = Some o -> nth_error lead i = Some l ->
    (l <> 0%nat <-> exists j o', (S j = i \/ S i = j) /\ nth_error occ j = Some o' /\ fst o' + snd o' < fst o + snd o) /\
    (l <> 0%nat -> INR l = fst o + snd o).
Proof.
  intros C H. pose proof (request_shape _ _ _ _ _ _ _ _ _ _ H) as (x1 & y1 & x2 & y2 & _ & _ & [[n Er]|(nx & ny & Hx & Hy & _ & -> & N1 & N2)]).
  - pose proof C as (P & Hl & K & Lab & _).
    destruct (csd_1d label params a1 b1 a2 b2 res n rot lut kind gf _ P K (gamma_of_ok kind gf K) Er) as (occ' & lead' & E & Lo & Ll & M & _ & Q).
    rewrite H in E. inversion E; subst occ' lead'.
    destruct (lead_mask_1d_labels occ) as (lead' & M' & L' & Q').
    { apply Forall_forall. intros o Io. apply In_nth_error in Io. destruct Io as [i Eo].
      destruct (Q i o Eo) as (m & _ & Po). destruct (pixel_occ_bounds _ _ _ _ _ _ _ Po) as (B & S & _).
      exists m. split; auto. lia. }
    rewrite M in M'. inversion M'; subst lead'. split; auto.
  - exfalso. destruct C as (P & Hl & K & Lab & _).
    unfold ideal_csd_geometric in H. cbn [res_list] in H. destruct (check_request _ _ _) as [[xl yl]|]; cbn [bind] in H; [|discriminate].
    destruct (lead_mask_2d _ _ _ _ _ _ _); cbn [bind] in H; [|discriminate].
    destruct (occupation_2d _ _ _ _ _ _ _ _ _ _); cbn [bind] in H; [|discriminate].
    destruct (Rltb (snd yl) (fst yl)), (Rltb (snd xl) (fst xl)); discriminate.
Qed.

(** ** 2D labels with the default rotation *)
Lemma default_neighbours params lut xl yl nx ny m a b k :
  Forall (bounded_tct 1 0 lut) params -> (length params < 256)%nat ->
  fst xl < snd xl -> fst yl < snd yl -> (2 <= nx)%nat -> (2 <= ny)%nat ->
  spacing xl nx <= 3 * spacing yl ny -> spacing yl ny <= 3 * spacing xl nx ->
  lead_mask_2d ny nx xl yl (initialize_tct_functions params 1) (- (PI / 4)) lut = Ok m ->
  unlabelled m a -> unlabelled m b -> adjacent a b ->
  let volt (c : nat * nat) : point := (pixel_voltage xl nx (snd c), pixel_voltage yl ny (fst c)) in
  (on_or_above params lut (- (PI / 4)) (volt a) k <-> on_or_above params lut (- (PI / 4)) (volt b) k).
Proof.
  intros HB Hl Hx Hy Hnx Hny A1 A2 Em Ha Hb Adj volt.
  apply (connected_same params lut (- (PI / 4)) 1 0 xl yl nx ny m Hx Hy Hnx Hny Hl ltac:(lra) HB
           (fine_default xl yl nx ny Hx Hy Hnx Hny A1 A2) Em a b k).
  econstructor; [constructor; auto|auto|auto].
Qed.

Lemma scan_1d_numbers label params a1 b1 a2 b2 res n rot lut kind gf g :
  proper_tcts params lut -> kind <> UnknownCdf -> default_gamma_factor kind gf = Ok g -> res_list res = [Z.of_nat n] ->
  exists occ lead, ideal_csd_geometric label params [a1; b1] [a2; b2] res rot lut kind gf = Ok (Csd1 occ lead) /\
  length occ = n /\
  forall i o, nth_error occ i = Some o ->
    let v := (pixel_voltage (a1, b1) n i, pixel_voltage (a2, b2) n i) in
    exists m, (electrons params lut rot v m \/ (above_all params lut rot v /\ m = 0%nat)) /\ fst o + snd o = INR m.
Proof.
  intros P K G Er.
  destruct (csd_1d label params a1 b1 a2 b2 res n rot lut kind gf g P K G Er) as (occ & lead & E & Lo & _ & _ & _ & Q).
  exists occ, lead. split; auto. split; auto. intros i o Eo v. destruct (Q i o Eo) as (m & Hm & Po). exists m.
  split; auto. apply (pixel_occ_bounds _ _ _ _ _ _ _ Po).
Qed.

Lemma pixel_index lims n v :
  fst lims < snd lims -> (2 <= n)%nat ->
  fst lims - spacing lims n / 2 < v < snd lims + spacing lims n / 2 ->
  exists i, (i < n)%nat /\ - (spacing lims n / 2) <= v - pixel_voltage lims n i < spacing lims n / 2 /\
    pixel_id lims (pixel_step lims n) v = Z.of_nat i.
Proof. intros H Hn W. destruct (pixel_id_nearest lims n v H Hn W) as (i & [Hi Hv] & E). eauto. Qed.

Lemma mask_exists params lut rot xl yl nx ny :
  proper_tcts params lut -> (length params < 256)%nat ->
  fst xl < snd xl -> fst yl < snd yl -> (2 <= nx)%nat -> (2 <= ny)%nat ->
  exists m, lead_mask_2d ny nx xl yl (initialize_tct_functions params 1) rot lut = Ok m /\ rows m = ny /\ cols m = nx /\
  forall a, in_image m a ->
  (value_at m a = 0%nat /\ forall k, ~ drawn params lut rot xl yl nx ny a k) \/
  (drawn params lut rot xl yl nx ny a (value_at m a) /\
   forall k, drawn params lut rot xl yl nx ny a k -> (k <= value_at m a)%nat).
Proof.
  intros P Hl Hx Hy Hnx Hny. destruct (lead_mask_2d_spec params lut rot xl yl nx ny P Hx Hy Hnx Hny) as (m & E & R' & C' & _).
  exists m. split; auto. split; auto. split; auto. intros a Ha. eapply mask_labels; eauto.
Qed.

Lemma well_formed_accepted label params l1 l2 res rot lut kind gf :
  csd_config label params lut kind gf ->
  well_formed_request l1 l2 (res_list res) -> res_list res <> [] -> Forall (fun r => (0 <= r)%Z) (res_list res) ->
  (exists d, ideal_csd_geometric label params l1 l2 res rot lut kind gf = Ok d) \/
  (length (res_list res) = 2%nat /\ ideal_csd_geometric label params l1 l2 res rot lut kind gf = Err IndexError).
Proof.
  intros (P & Hl & K & Lab & _) (a1 & b1 & a2 & b2 & -> & -> & L & W) N F.
  destruct (res_list res) as [|n [|ny [|z t]]] eqn:Er; [congruence| | |simpl in L; lia].
  - inversion F; subst. left. rewrite <- (Z2Nat.id n) in Er by auto.
    destruct (csd_1d label params a1 b1 a2 b2 res (Z.to_nat n) rot lut kind gf _ P K (gamma_of_ok kind gf K) Er) as (occ & lead & E & _).
    eauto.
  - destruct (W eq_refl) as (N1 & N2 & F'). inversion F' as [|? ? F1 F'']; subst. inversion F'' as [|? ? F2 _]; subst.
    destruct res as [|r]; simpl in Er; [discriminate|]. subst r.
    destruct (csd_2d label params a1 b1 a2 b2 (Z.to_nat n) (Z.to_nat ny) rot lut kind gf _ P Hl K (gamma_of_ok kind gf K) N1 N2
                ltac:(lia) ltac:(lia) Lab) as (lead & _ & _ & _ & _ & D). rewrite !Z2Nat.id in D by lia.
    destruct D as [(occ & E & _)|[E _]]; [left; eauto|right; auto].
Qed.

(** ** labels of a scan *)
Lemma scan_labels label params a1 b1 a2 b2 nx ny rot lut kind gf occ lead :
  csd_config label params lut kind gf -> a1 < b1 -> a2 < b2 -> (2 <= nx)%nat -> (2 <= ny)%nat ->
  ideal_csd_geometric label params [a1; b1] [a2; b2] (ResArray [Z.of_nat nx; Z.of_nat ny]) rot lut kind gf = Ok (Csd2 occ lead) ->
  rows lead = ny /\ cols lead = nx /\ forall a, in_image lead a ->
  (value_at lead a = 0%nat /\ forall k, ~ drawn params lut rot (a1, b1) (a2, b2) nx ny a k) \/
  (drawn params lut rot (a1, b1) (a2, b2) nx ny a (value_at lead a) /\
   forall k, drawn params lut rot (a1, b1) (a2, b2) nx ny a k -> (k <= value_at lead a)%nat).
Proof.
  intros (P & Hl & K & Lab & _) N1 N2 Hx Hy E.
  destruct (csd_2d label params a1 b1 a2 b2 nx ny rot lut kind gf _ P Hl K (gamma_of_ok kind gf K) ltac:(lra) ltac:(lra) Hx Hy Lab)
    as (lead' & Rl & Cl & _ & SL & D).
  destruct D as [(occ' & E' & _)|[E' _]]; rewrite E in E'; [|discriminate]. injection E' as _ <-.
  split; [auto|]. split; [auto|]. intros a Ha. pose proof (SL a Ha) as S. unfold scan_label in S.
  assert (Fx : flipped (a1, b1) = false) by (unfold flipped; simpl; destruct (Rltb_spec b1 a1); auto; lra).
  assert (Fy : flipped (a2, b2) = false) by (unfold flipped; simpl; destruct (Rltb_spec b2 a2); auto; lra).
  rewrite !np_sort_asc, Fx, Fy in S by (simpl; lra). unfold flip_pixel, flip_index in S. cbn [fst snd] in S.
  rewrite <- surjective_pairing in S. exact S.
Qed.
