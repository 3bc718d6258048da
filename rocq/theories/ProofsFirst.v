(** The first pixel of a connected region decides about its number of electrons. *)
From Verif Require Import RPrelude Arr ModelSupport SpecSupport ProofsSupport ModelTct SpecTct ProofsTct
  ModelCsd SpecCsd ProofsCsd ProofsOcc ProofsRegions ProofsMask ProofsDriver ProofsScan SpecFirst.
From Coq Require Import Sorted.
Local Open Scope R_scope.

Definition before (a b : nat * nat) : Prop := (fst a < fst b \/ (fst a = fst b /\ snd a < snd b))%nat.

Lemma seq_sorted n s : StronglySorted lt (seq s n).
Proof.
  revert s. induction n as [|n IH]; intros s; simpl; constructor; auto.
  apply Forall_forall. intros x Hx. apply in_seq in Hx. lia.
Qed.

Lemma sorted_app {A} (Q : A -> A -> Prop) l1 l2 : StronglySorted Q l1 -> StronglySorted Q l2 ->
  (forall x y, In x l1 -> In y l2 -> Q x y) -> StronglySorted Q (l1 ++ l2).
Proof.
  induction 1 as [|a l1 S1 IH F]; intros S2 H; simpl; auto.
  constructor; [apply IH; auto; intros; apply H; [right|]; auto|].
  apply Forall_app. split; auto. apply Forall_forall. intros y Hy. apply H; [left|]; auto.
Qed.

Lemma pixels_sorted nr nc : StronglySorted before (pixels_of nr nc).
Proof.
  unfold pixels_of.
  enough (G : forall s, StronglySorted before (flat_map (fun i => map (fun j => (i, j)) (seq 0 nc)) (seq s nr))) by apply G.
  induction nr as [|nr IH]; intros s; simpl; [constructor|].
  apply sorted_app; auto.
  - clear IH. pose proof (seq_sorted nc 0) as S. induction S as [|j l S IHS F]; simpl; constructor; auto.
    apply Forall_forall. intros x Hx. apply in_map_iff in Hx. destruct Hx as (k & <- & Hk).
    rewrite Forall_forall in F. right. simpl. split; auto.
  - intros x y Hx Hy. apply in_map_iff in Hx. destruct Hx as (j & <- & _).
    apply in_flat_map in Hy. destruct Hy as (i & Hi & Hy). apply in_map_iff in Hy. destruct Hy as (k & <- & _).
    apply in_seq in Hi. left. simpl. lia.
Qed.

Lemma filter_first {A} (Q : A -> A -> Prop) f (l : list A) x t : StronglySorted Q l -> filter f l = x :: t ->
  forall y, In y l -> f y = true -> y = x \/ Q x y.
Proof.
  induction 1 as [|a l S IH F]; simpl; [discriminate|]. destruct (f a) eqn:Fa; intros E y [->|Hy] Fy; try congruence.
  - left. congruence.
  - right. inversion E; subst. rewrite Forall_forall in F. auto.
  - auto.
Qed.

Section Regions2d.
Variables (mask labels : arr2 nat) (xv yv : nat -> R) (params : list tct_params) (rot : R) (lut : option nat).
Hypothesis P : proper_tcts params lut.
Let all := pixels_of (rows mask) (cols mask).
Let body := region_body mask labels xv yv params rot lut.

Lemma region_loop_first regs : forall m m', foldM body regs m = Ok m' ->
  forall a, (~ In (value_at labels a) regs -> value_at m' a = value_at m a) /\
            (In (value_at labels a) regs -> exists b n, In b all /\ value_at labels b = value_at labels a /\
                (forall c, In c all -> value_at labels c = value_at labels a -> c = b \/ before b c) /\
                found xv yv params rot lut b n /\ value_at m' a = to_uint8 (Z.of_nat n)).
Proof.
  induction regs as [|reg regs IH]; intros m m' H a; simpl in H.
  - inversion H; subst. split; auto. intros [].
  - unfold body at 1, region_body in H. fold all in H.
    destruct (filter (fun ij => (cell labels (fst ij) (snd ij) =? reg)%nat) all) as [|[i j] rest] eqn:Ef; [discriminate|].
    assert (I : In (i, j) (filter (fun ij => (cell labels (fst ij) (snd ij) =? reg)%nat) all)) by (rewrite Ef; left; auto).
    apply filter_In in I. destruct I as [I1 I2]. apply Nat.eqb_eq in I2. simpl in I2.
    destruct (passed_spec params lut rot (xv j, yv i) P) as (n & Ep & En).
    unfold tct_view in Ep. rewrite Ep in H. cbn [bind] in H.
    destruct (IH _ _ H a) as [Q1 Q2]. split.
    + intros Hn. rewrite Q1 by (intros X; apply Hn; right; auto). unfold value_at at 1. simpl.
      destruct (Nat.eqb_spec (cell labels (fst a) (snd a)) reg) as [X|X]; auto. exfalso. apply Hn. left. auto.
    + intros [X|X]; [|apply Q2; auto].
      destruct (in_dec Nat.eq_dec (value_at labels a) regs) as [Y|Y]; [apply Q2; auto|].
      exists (i, j), n. split; auto. split; [unfold value_at at 1; simpl; congruence|]. split; [|split; [exact En|]].
      * intros c Hc Ec. apply (filter_first before _ all (i, j) rest (pixels_sorted _ _) Ef c Hc).
        apply Nat.eqb_eq. unfold value_at in Ec, X. congruence.
      * rewrite Q1 by auto. unfold value_at at 1. simpl. unfold value_at in X. rewrite <- X, Nat.eqb_refl. reflexivity.
Qed.

Lemma regions_2d_first regs : is_labelling mask labels ->
  regions_2d mask labels xv yv (initialize_tct_functions params 1) rot lut = Ok regs ->
  forall a, unlabelled mask a ->
    exists b n, connected mask a b /\ (forall c, connected mask a c -> c = b \/ before b c) /\
      found xv yv params rot lut b n /\ value_at regs a = to_uint8 (Z.of_nat n).
Proof.
  intros [L0 L1] H a [Ha Ua]. unfold regions_2d in H. fold all in H. fold (region_body mask labels xv yv params rot lut) in H. fold body in H.
  set (rs := filter (fun r => negb (r =? 0)%nat) (unique (map (fun ij => cell labels (fst ij) (snd ij)) all))) in *.
  assert (Hin : In (value_at labels a) rs).
  { unfold rs. rewrite filter_In, in_unique, in_map_iff. split.
    - exists a. split; auto. apply in_pixels. exact Ha.
    - destruct (Nat.eqb_spec (value_at labels a) 0) as [Z|Z]; auto. apply L0 in Z; auto. }
  destruct (region_loop_first rs mask regs H a) as [_ Q]. destruct (Q Hin) as (b & n & Hb & Eb & Fb & Nb & V).
  assert (Ib : in_image mask b) by (apply in_pixels; exact Hb).
  assert (Ub : unlabelled mask b).
  { split; auto. destruct (Nat.eq_dec (value_at mask b) 0) as [|N]; auto. exfalso.
    assert (Z : value_at labels b = 0%nat) by (apply L0; auto).
    assert (Z' : value_at labels a = 0%nat) by congruence. apply L0 in Z'; auto. }
  exists b, n. split; [apply L1; auto; split; auto|]. split; [|split; auto].
  intros c Hc. destruct (connected_unlabelled _ _ _ Hc) as [_ Uc]. apply Fb; [apply in_pixels; apply Uc|].
  symmetry. apply L1; auto. split; auto.
Qed.
End Regions2d.

Lemma occupation_2d_first label mask xl yl params rot lut kind gf g occ :
  proper_tcts params lut -> (1 <= length params < 256)%nat -> kind <> UnknownCdf -> default_gamma_factor kind gf = Ok g ->
  is_labelling mask (label mask) ->
  occupation_2d label mask xl yl (calculate_all_bezier_anchors params 1 rot) (initialize_tct_functions params 1) rot lut kind gf = Ok occ ->
  forall a, unlabelled mask a -> exists b m, connected mask a b /\ (forall c, connected mask a c -> c = b \/ before b c) /\
     electrons params lut rot (pixel_point xl yl (cols mask) (rows mask) b) m /\
     pixel_occ kind (calculate_all_bezier_anchors params 1 rot) g (pixel_point xl yl (cols mask) (rows mask) a) m (cell occ (fst a) (snd a)).
Proof.
  intros P Hl K G Lab H a Ua. unfold occupation_2d in H. rewrite G in H. cbn [bind] in H.
  destruct (regions_2d mask (label mask) (grid xl (cols mask)) (grid yl (rows mask)) (initialize_tct_functions params 1) rot lut)
    as [regs|e] eqn:Er; [|discriminate].
  cbn [bind] in H.
  set (pix := map (fun ij : nat * nat => ((grid xl (cols mask) (snd ij), grid yl (rows mask) (fst ij)), cell regs (fst ij) (snd ij)))
           (pixels_of (rows mask) (cols mask))) in *.
  assert (Np : nth_error pix (fst a * cols mask + snd a) = Some (pixel_point xl yl (cols mask) (rows mask) a, value_at regs a)).
  { destruct a as [i j]. destruct Ua as [[Hi Hj] _]. unfold pix. rewrite (map_nth_error _ _ _ (nth_pixels _ _ i j Hi Hj)). reflexivity. }
  destruct (regions_2d_first _ _ _ _ _ _ _ P regs Lab Er a Ua) as (b & n & Cb & Fb & Nb & V).
  destruct (fill_cases kind params rot g pix K) as [[[oc E] A]|[E _]]; rewrite E in H; cbn [bind] in H; [|discriminate].
  inversion H; subst occ. clear H.
  destruct (fill_spec _ _ _ _ _ E) as [L S]. destruct (S _ _ _ Np) as (o & Eo & Po).
  assert (Bn : (value_at regs a < length params \/ value_at regs a = 0)%nat).
  { apply (A (pixel_point xl yl (cols mask) (rows mask) a)). eapply nth_error_In. exact Np. }
  exists b, n. split; auto. split; auto. cbn [cell].
  rewrite (nth_error_nth _ _ (0, 0) Eo).
  destruct Nb as [Nb|[Nb En]].
  - pose proof (electrons_range _ _ _ _ _ Nb) as Rm. rewrite to_uint8_id in V by lia. rewrite V in Po. split; auto.
  - exfalso. rewrite to_uint8_id in V by lia. rewrite V, En in Bn. lia.
Qed.

Lemma voltage_order xl n i j : fst xl < snd xl -> (2 <= n)%nat -> (i < j)%nat -> pixel_voltage xl n i < pixel_voltage xl n j.
Proof.
  intros H Hn Hij. unfold pixel_voltage. apply Rplus_lt_compat_l. apply Rmult_lt_compat_r.
  - apply Rdiv_lt_0_compat; [lra|]. apply lt_0_INR. lia.
  - apply lt_INR. auto.
Qed.

Lemma scan_first label params a1 b1 a2 b2 nx ny rot lut kind gf occ lead :
  csd_config label params lut kind gf ->
  ideal_csd_geometric label params [a1; b1] [a2; b2] (ResArray [nx; ny]) rot lut kind gf = Ok (Csd2 occ lead) ->
  forall a, unlabelled lead a -> exists b n, first_of_region (a1, b1) (a2, b2) lead a b /\
    electrons params lut rot (pixel_point (a1, b1) (a2, b2) (cols lead) (rows lead) b) n /\
    fst (cell occ (fst a) (snd a)) + snd (cell occ (fst a) (snd a)) = INR n /\
    pixel_occ kind (calculate_all_bezier_anchors params 1 rot) (gamma_of kind gf)
      (pixel_point (a1, b1) (a2, b2) (cols lead) (rows lead) a) n (cell occ (fst a) (snd a)).
Proof.
  intros (P & Hl & K & Lab & _) H a Ua.
  destruct (request_shape _ _ _ _ _ _ _ _ _ _ H) as (a1' & b1' & a2' & b2' & X1 & X2 & S).
  inversion X1; inversion X2; subst a1' b1' a2' b2'. clear X1 X2.
  destruct S as [[n Er]|(nx' & ny' & Hx & Hy & Er & _ & N1 & N2)]; [discriminate|].
  simpl in Er. inversion Er; subst nx ny. clear Er.
  pose proof (gamma_of_ok kind gf K) as G.
  rewrite (csd_2d_unfold label params a1 b1 a2 b2 nx' ny' rot lut kind gf N1 N2 Hx Hy) in H. cbv zeta in H.
  set (xl := (a1, b1)) in *. set (yl := (a2, b2)) in *.
  pose proof (sorted_lt xl N1) as Sx. pose proof (sorted_lt yl N2) as Sy.
  destruct (lead_mask_2d_spec params lut rot (np_sort xl) (np_sort yl) nx' ny' P Sx Sy Hx Hy) as (lead0 & E0 & R0 & C0 & _).
  rewrite E0 in H. cbn [bind] in H. set (fr := flipped yl) in *. set (fc := flipped xl) in *.
  destruct (flip_image_cell fr fc lead0) as (R1 & C1 & Q1).
  destruct (occupation_2d label lead0 (np_sort xl) (np_sort yl) (calculate_all_bezier_anchors params 1 rot)
              (initialize_tct_functions params 1) rot lut kind gf) as [occ0|e] eqn:Eo; [|discriminate].
  cbn [bind] in H. inversion H; subst occ lead. clear H. destruct (flip_image_cell fr fc occ0) as (R2 & C2 & Q2).
  assert (D0 : rows occ0 = ny' /\ cols occ0 = nx').
  { unfold occupation_2d in Eo. rewrite G in Eo. cbn [bind] in Eo.
    destruct (regions_2d lead0 (label lead0) (grid (np_sort xl) (cols lead0)) (grid (np_sort yl) (rows lead0))
      (initialize_tct_functions params 1) rot lut) as [regs|e]; [|discriminate]. cbn [bind] in Eo.
    match type of Eo with (bind ?f _ = _) => destruct f as [oc|e]; [|discriminate] end.
    cbn [bind] in Eo. inversion Eo; subst. simpl. auto. }
  destruct D0 as [Ro Co].
  set (phi := flip_pixel ny' nx' fr fc).
  assert (Iphi : forall c, (fst c < ny' /\ snd c < nx')%nat -> (fst (phi c) < ny' /\ snd (phi c) < nx')%nat /\ phi (phi c) = c).
  { intros c [A B]. unfold phi, flip_pixel. simpl. rewrite !flip_index_invol by auto.
    split; [split; apply flip_index_lt; auto|destruct c; auto]. }
  assert (Vol : forall c, (fst c < ny' /\ snd c < nx')%nat ->
    pixel_point xl yl nx' ny' c = pixel_point (np_sort xl) (np_sort yl) nx' ny' (phi c)).
  { intros c [A B]. unfold pixel_point. f_equal; simpl; apply voltage_sorted; auto. }
  assert (Val : forall c, value_at (flip_image fr fc lead0) c = value_at lead0 (phi c)).
  { intros c. unfold value_at. rewrite Q1, R0, C0. reflexivity. }
  assert (Con0 : forall c d, connected lead0 c d -> connected (flip_image fr fc lead0) (phi c) (phi d)).
  { intros c d Hc. apply (connected_flip fr fc) in Hc. rewrite R0, C0 in Hc. exact Hc. }
  assert (Inv : eq2 (flip_image fr fc (flip_image fr fc lead0)) lead0).
  { destruct (flip_image_cell fr fc (flip_image fr fc lead0)) as (R3 & C3 & Q3). split; [congruence|]. split; [congruence|].
    rewrite R3, C3, R1, C1. intros i' j' Hi' Hj'. rewrite Q3, Q1, R1, C1, !flip_index_invol by auto. reflexivity. }
  assert (Ceq : forall m1 m2 c d, eq2 m1 m2 -> connected m1 c d -> connected m2 c d).
  { intros m1 m2 c d (Er1 & Er2 & Er3) Hc.
    assert (U : forall x, unlabelled m1 x -> unlabelled m2 x).
    { intros x [[I J] V]. split; [split; lia|]. unfold value_at in *. rewrite <- Er3 by auto. auto. }
    induction Hc; [constructor; auto|econstructor; eauto]. }
  assert (Con1 : forall c d, connected (flip_image fr fc lead0) c d -> connected lead0 (phi c) (phi d)).
  { intros c d Hc. apply (connected_flip fr fc) in Hc. rewrite R1, C1, R0, C0 in Hc. exact (Ceq _ _ _ _ Inv Hc). }
  assert (Dim : forall c, in_image (flip_image fr fc lead0) c -> (fst c < ny' /\ snd c < nx')%nat).
  { intros c [A B]. rewrite R1, R0 in A. rewrite C1, C0 in B. auto. }
  assert (Ua0 : unlabelled lead0 (phi a)).
  { destruct Ua as [Ia Va]. destruct (Iphi a (Dim a Ia)) as [[A B] _]. split; [split; lia|]. rewrite <- Val. exact Va. }
  destruct (occupation_2d_first label lead0 (np_sort xl) (np_sort yl) params rot lut kind gf _ occ0 P Hl K G (Lab lead0) Eo (phi a) Ua0)
    as (b & n & Cb & Fb & Nb & Po).
  rewrite R0, C0 in Nb, Po. rewrite R1, C1, R0, C0.
  assert (Ib : (fst b < ny' /\ snd b < nx')%nat).
  { destruct (connected_unlabelled _ _ _ Cb) as [_ [[A B] _]]. lia. }
  destruct (Iphi b Ib) as [Ib' Eb]. destruct (Iphi a (Dim a (proj1 Ua))) as [_ Ea].
  exists (phi b), n.
  assert (Cell : cell (flip_image fr fc occ0) (fst a) (snd a) = cell occ0 (fst (phi a)) (snd (phi a))).
  { rewrite Q2, Ro, Co. reflexivity. }
  rewrite Cell. rewrite (Vol (phi b) Ib'), Eb. rewrite (Vol a (Dim a (proj1 Ua))).
  split; [|split; [exact Nb|split; [|exact Po]]].
  - split; [rewrite <- Ea; apply Con0; exact Cb|]. rewrite R1, C1, R0, C0.
    intros c Hc. destruct (connected_unlabelled _ _ _ Hc) as [_ [Ic _]]. apply Dim in Ic.
    rewrite (Vol (phi b) Ib'), Eb, (Vol c Ic). destruct (Fb (phi c) (Con1 _ _ Hc)) as [->|[B|[B1 B2]]].
    + right. split; lra.
    + left. simpl. apply voltage_order; auto.
    + right. simpl. rewrite B1. split; [reflexivity|]. left. apply voltage_order; auto.
  - pose proof (pixel_occ_bounds _ _ _ _ _ _ _ Po) as (_ & S1 & _). exact S1.
Qed.
