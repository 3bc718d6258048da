(** Proofs about the ideal CSD driver. *)
From Verif Require Import RPrelude Arr ModelSupport SpecSupport ProofsSupport ModelTct SpecTct ProofsTct
  ModelCsd SpecCsd ProofsCsd ProofsOcc ProofsRegions ProofsMask.
Local Open Scope R_scope.

(** ** errors of the occupation loop *)
Lemma fill_cases kind params rot g pixels : kind <> UnknownCdf ->
  let coords := calculate_all_bezier_anchors params 1 rot in
  ((exists occ, fill_occupations kind coords g pixels = Ok occ) /\
   forall v n, In (v, n) pixels -> (n < length params \/ n = 0)%nat) \/
  (fill_occupations kind coords g pixels = Err IndexError /\
   exists v n, In (v, n) pixels /\ n <> 0%nat /\ (length params <= n)%nat).
Proof.
  intros K coords.
  assert (D : (forall v n, In (v, n) pixels -> (n < length params \/ n = 0)%nat) \/
              (exists v n, In (v, n) pixels /\ n <> 0%nat /\ (length params <= n)%nat)).
  { induction pixels as [|[v n] t IH]; [left; intros v n []|].
    destruct (Nat.eq_dec n 0) as [E|E]; [|destruct (Nat.lt_ge_cases n (length params)) as [L|L]].
    - destruct IH as [A|(v' & n' & I & R')]; [left|right; exists v', n'; split; [right; auto|auto]].
      intros v' n' [X|X]; [inversion X; subst; auto|apply (A v' n' X)].
    - destruct IH as [A|(v' & n' & I & R')]; [left|right; exists v', n'; split; [right; auto|auto]].
      intros v' n' [X|X]; [inversion X; subst; auto|apply (A v' n' X)].
    - right. exists v, n. split; [left; auto|auto]. }
  assert (S : forall reg, reg <> 0%nat -> (reg < length params)%nat ->
    exists l0 l1 ps, region_setup coords g reg = Ok (l0, l1, ps) /\ forall pt, exists o, occupation_func kind ps l0 l1 pt = Ok o).
  { intros reg H0 H1.
    destruct (nth_error params reg) as [pu|] eqn:Hu; [|apply nth_error_None in Hu; lia].
    destruct (nth_error params (reg - 1)) as [po|] eqn:Ho; [|apply nth_error_None in Ho; lia].
    destruct (region_ok params rot g reg pu po ltac:(lia) Hu Ho) as (a & b & _ & _ & E). cbv zeta in E. fold coords in E.
    do 3 eexists. split; [exact E|]. intros pt. eapply occupation_total; auto.
    eapply region_setup_inv; [|exact E]. lia. }
  destruct D as [A|B].
  - left. split; auto. apply fill_total. intros reg Hr H0. apply in_map_iff in Hr. destruct Hr as ([v n] & <- & I).
    apply S; auto. destruct (A v n I) as [X|X]; auto. simpl in H0. congruence.
  - right. split; auto. destruct B as (v & n & I & H0 & HL).
    assert (Hin : In n (unique (map snd pixels))) by (apply in_unique, in_map_iff; exists (v, n); auto).
    unfold fill_occupations. fold (fill_body kind coords g pixels).
    revert Hin. generalize (unique (map snd pixels)) as regs.
    generalize (map (fun _ : point * nat => (0, 0)) pixels) as occ.
    intros occ regs; revert occ. induction regs as [|r regs IH]; intros occ Hin; [destruct Hin|]. simpl.
    unfold fill_body at 1. destruct (Nat.eqb_spec r 0) as [Z|Z].
    + apply IH. destruct Hin; [subst; congruence|auto].
    + destruct (Nat.lt_ge_cases r (length params)) as [L|L].
      * destruct (S r Z L) as (l0 & l1 & ps & Es & Eo). rewrite Es. simpl.
        assert (M : exists o, mapM (fun po : (point * nat) * (R * R) =>
            let '((pt, r0), o) := po in
            if (r0 =? r)%nat then occupation_func kind ps l0 l1 pt else Ok o)
         (combine pixels occ) = Ok o).
        { induction (combine pixels occ) as [|[[pt r0] o] t IHt]; simpl; [eauto|].
          destruct (r0 =? r)%nat.
          - destruct (Eo pt) as [o1 ->]. destruct IHt as [o2 ->]. eauto.
          - destruct IHt as [o2 ->]. eauto. }
        destruct M as [o1 ->]. apply IH. destruct Hin; [subst; lia|auto].
      * unfold coords. rewrite region_missing by auto. reflexivity.
Qed.

(** occupations are a function of voltage and region *)
Lemma pixel_occ_fun kind coords g v n o o' : pixel_occ kind coords g v n o -> pixel_occ kind coords g v n o' -> o = o'.
Proof.
  intros [[H ->]|[H (l0 & l1 & ps & E1 & E2)]] [[H' ->]|[H' (m0 & m1 & qs & E1' & E2')]]; auto; try congruence.
Qed.

Lemma gamma_known kind gf : kind <> UnknownCdf -> exists g, default_gamma_factor kind gf = Ok g.
Proof. intros K. destruct gf, kind; simpl; eauto; congruence. Qed.

(** ** 1D *)
Lemma grid_voltage lims n i : grid lims n i = pixel_voltage lims n i.
Proof. reflexivity. Qed.

Lemma occupation_1d_spec n xl yl params rot lut kind gf g : proper_tcts params lut -> kind <> UnknownCdf ->
  default_gamma_factor kind gf = Ok g ->
  exists occ, occupation_1d n xl yl (calculate_all_bezier_anchors params 1 rot) (initialize_tct_functions params 1) rot lut kind gf = Ok occ /\
  length occ = n /\ forall i o, nth_error occ i = Some o ->
    let v := (pixel_voltage xl n i, pixel_voltage yl n i) in
    exists m, (electrons params lut rot v m \/ (above_all params lut rot v /\ m = 0%nat)) /\
      pixel_occ kind (calculate_all_bezier_anchors params 1 rot) g v m o.
Proof.
  intros P K G. unfold occupation_1d. rewrite G. cbn [bind].
  set (points := map (fun i => (grid xl n i, grid yl n i) : point) (seq 0 n)).
  assert (Lp : length points = n) by (unfold points; rewrite map_length, seq_length; auto).
  destruct (regions_1d_spec points params lut rot P) as (regs & Er & Lr & Q). rewrite Er. cbn [bind].
  assert (Hn : forall i v, nth_error points i = Some v -> (i < n)%nat /\ v = (pixel_voltage xl n i, pixel_voltage yl n i)).
  { intros i v H. unfold points in H. rewrite nth_error_map_seq in H. destruct (Nat.ltb_spec i n); [|discriminate].
    inversion H. auto. }
  destruct (fill_cases kind params rot g (combine points regs) K) as [[[occ E] _]|[_ (v & m & I & H0 & HL)]].
  - exists occ. split; [exact E|]. destruct (fill_spec _ _ _ _ _ E) as [L S].
    assert (Lc : length (combine points regs) = n) by (rewrite combine_length, Lr; transitivity (length points); [apply Nat.min_id|exact Lp]).
    split; [exact (eq_trans L Lc)|]. intros i o Ho. set (v := (pixel_voltage xl n i, pixel_voltage yl n i)).
    assert (Hi : (i < n)%nat) by (rewrite <- (eq_trans L Lc); apply nth_error_Some; congruence).
    destruct (nth_error points i) as [v'|] eqn:Ev; [|apply nth_error_None in Ev; lia].
    destruct (Hn i v' Ev) as [_ Ev']. fold v in Ev'. subst v'.
    destruct (Q i v Ev) as (m & Em & Hm). exists m. split; auto.
    destruct (S i v m (combine_nth_error _ _ _ _ _ Ev Em)) as (o' & Eo & Po). congruence.
  - exfalso. apply In_nth_error in I. destruct I as [i Hi].
    assert (Lc : length (combine points regs) = n) by (rewrite combine_length, Lr; transitivity (length points); [apply Nat.min_id|exact Lp]).
    assert (Hlt : (i < n)%nat) by (rewrite <- Lc; apply nth_error_Some; congruence).
    destruct (nth_error points i) as [v'|] eqn:Ev; [|apply nth_error_None in Ev; lia].
    destruct (Q i v' Ev) as (m' & Em & Hm). rewrite (combine_nth_error _ _ _ _ _ Ev Em) in Hi. inversion Hi; subst v' m'.
    destruct Hm as [Hm|[_ Hm]]; [apply electrons_range in Hm; lia|lia].
Qed.

Lemma check_request_ok a1 b1 a2 b2 res : (length res <= 2)%nat ->
  (length res = 2%nat -> a1 <> b1 /\ a2 <> b2 /\ Forall (fun r => (1 < r)%Z) res) ->
  check_request [a1; b1] [a2; b2] res = Ok ((a1, b1), (a2, b2)).
Proof.
  intros H1 H2. unfold check_request. destruct (Nat.eqb_spec (length res) 2) as [E|E].
  - destruct (H2 E) as (N1 & N2 & F). unfold fixed_voltage. simpl. rewrite !Reqb_false by auto. simpl.
    rewrite E. simpl. destruct (existsb (fun r : Z => (r <=? 1)%Z) res) eqn:X; [|reflexivity].
    apply existsb_exists in X. destruct X as (r & I & L). apply Z.leb_le in L. rewrite Forall_forall in F.
    specialize (F r I). lia.
  - simpl. rewrite (proj2 (Nat.ltb_ge 2 (length res))) by lia. reflexivity.
Qed.

Lemma csd_1d label params a1 b1 a2 b2 res n rot lut kind gf g :
  proper_tcts params lut -> kind <> UnknownCdf -> default_gamma_factor kind gf = Ok g -> res_list res = [Z.of_nat n] ->
  exists occ lead, ideal_csd_geometric label params [a1; b1] [a2; b2] res rot lut kind gf = Ok (Csd1 occ lead) /\
  length occ = n /\ length lead = n /\ lead_mask_1d occ = Ok lead /\
  occupation_1d n (a1, b1) (a2, b2) (calculate_all_bezier_anchors params 1 rot) (initialize_tct_functions params 1) rot lut kind gf = Ok occ /\
  forall i o, nth_error occ i = Some o ->
    let v := (pixel_voltage (a1, b1) n i, pixel_voltage (a2, b2) n i) in
    exists m, (electrons params lut rot v m \/ (above_all params lut rot v /\ m = 0%nat)) /\
      pixel_occ kind (calculate_all_bezier_anchors params 1 rot) g v m o.
Proof.
  intros P K G Hr. unfold ideal_csd_geometric. rewrite Hr.
  rewrite check_request_ok by (simpl; try lia; intros; lia). cbn [bind].
  rewrite (proj2 (Z.ltb_ge (Z.of_nat n) 0)) by lia. simpl raise_if. rewrite Nat2Z.id.
  destruct (occupation_1d_spec n (a1, b1) (a2, b2) params rot lut kind gf g P K G) as (occ & E & L & Q).
  rewrite E. cbn [bind]. destruct (lead_mask_1d_spec occ) as (lead & El & Ll & _). rewrite El. cbn [bind].
  exists occ, lead. repeat split; auto. congruence.
Qed.

(** ** 2D *)
Lemma seq_nth_error n s i : (i < n)%nat -> nth_error (seq s n) i = Some (s + i)%nat.
Proof. intros H. rewrite (nth_error_nth' _ 0%nat) by (rewrite seq_length; auto). rewrite seq_nth; auto. Qed.

Lemma nth_pixels nr nc i j : (i < nr)%nat -> (j < nc)%nat -> nth_error (pixels_of nr nc) (i * nc + j) = Some (i, j).
Proof.
  unfold pixels_of. intros Hi Hj.
  assert (G : forall nr s i, (i < nr)%nat ->
    nth_error (flat_map (fun i => map (fun j => (i, j)) (seq 0 nc)) (seq s nr)) (i * nc + j) = Some ((s + i)%nat, j)).
  { clear Hi i nr. induction nr as [|nr IH]; intros s i Hi; [lia|]. simpl.
    destruct i as [|i].
    - simpl. rewrite nth_error_app1 by (rewrite map_length, seq_length; auto).
      rewrite (map_nth_error _ j _ (seq_nth_error nc 0 j Hj)). rewrite Nat.add_0_r. reflexivity.
    - rewrite nth_error_app2 by (rewrite map_length, seq_length; simpl; lia).
      rewrite map_length, seq_length. replace (S i * nc + j - nc)%nat with (i * nc + j)%nat by (simpl; lia).
      rewrite IH by lia. f_equal. f_equal. lia. }
  rewrite (G nr 0%nat i Hi). reflexivity.
Qed.

(** what a 2D scan tells about a pixel *)
Definition pixel_number (params : list tct_params) (lut : option nat) (rot : R) (mask : arr2 nat)
  (volt : nat * nat -> point) (a : nat * nat) (m : nat) : Prop :=
  (value_at mask a <> 0%nat /\ m = value_at mask a) \/
  (value_at mask a = 0%nat /\ exists b, connected mask a b /\ electrons params lut rot (volt b) m).

Lemma occupation_2d_spec label mask xl yl params rot lut kind gf g :
  proper_tcts params lut -> (1 <= length params < 256)%nat -> kind <> UnknownCdf -> default_gamma_factor kind gf = Ok g ->
  is_labelling mask (label mask) ->
  let volt (a : nat * nat) : point := (pixel_voltage xl (cols mask) (snd a), pixel_voltage yl (rows mask) (fst a)) in
  (exists occ, occupation_2d label mask xl yl (calculate_all_bezier_anchors params 1 rot) (initialize_tct_functions params 1) rot lut kind gf = Ok occ /\
   rows occ = rows mask /\ cols occ = cols mask /\
   forall a, in_image mask a -> exists m, (m < length params)%nat /\ pixel_number params lut rot mask volt a m /\
     pixel_occ kind (calculate_all_bezier_anchors params 1 rot) g (volt a) m (cell occ (fst a) (snd a))) \/
  (occupation_2d label mask xl yl (calculate_all_bezier_anchors params 1 rot) (initialize_tct_functions params 1) rot lut kind gf = Err IndexError /\
   exists a, in_image mask a /\
    ((length params <= value_at mask a)%nat \/
     (value_at mask a = 0%nat /\ exists b, connected mask a b /\ above_all params lut rot (volt b)))).
Proof.
  intros P Hl K G Lab volt. unfold occupation_2d. rewrite G. cbn [bind].
  destruct (regions_2d_spec mask (label mask) (grid xl (cols mask)) (grid yl (rows mask)) params rot lut P Lab)
    as (regs & Er & _ & _ & Q). rewrite Er. cbn [bind].
  set (pix := map (fun ij : nat * nat => ((grid xl (cols mask) (snd ij), grid yl (rows mask) (fst ij)), cell regs (fst ij) (snd ij)))
           (pixels_of (rows mask) (cols mask))).
  assert (Np : forall a, in_image mask a -> nth_error pix (fst a * cols mask + snd a) = Some (volt a, value_at regs a)).
  { intros [i j] [Hi Hj]. unfold pix. rewrite (map_nth_error _ _ _ (nth_pixels _ _ i j Hi Hj)). reflexivity. }
  destruct (fill_cases kind params rot g pix K) as [[[occ E] A]|[E (v & n & I & H0 & HL)]]; rewrite E; cbn [bind].
  - left. eexists. split; [reflexivity|]. split; [reflexivity|]. split; [reflexivity|].
    destruct (fill_spec _ _ _ _ _ E) as [L S]. intros a Ha.
    destruct (S _ _ _ (Np a Ha)) as (o & Eo & Po). exists (value_at regs a).
    assert (Bn : (value_at regs a < length params \/ value_at regs a = 0)%nat).
    { apply (A (volt a)). eapply nth_error_In. apply Np; auto. }
    destruct (Q a Ha) as [Q1 Q2].
    assert (Eo' : cell (mk_arr2 (rows mask) (cols mask) (fun i j => nth (i * cols mask + j) occ (0, 0))) (fst a) (snd a) = o).
    { simpl. apply nth_error_nth. auto. }
    assert (PN : (value_at regs a < length params)%nat /\ pixel_number params lut rot mask volt a (value_at regs a)).
    { destruct (Nat.eq_dec (value_at mask a) 0) as [Z|Z].
      - destruct (Q2 Z) as (b & m & Cb & Fb & V).
        destruct Fb as [Fb|[Fb Em]].
        + pose proof (electrons_range _ _ _ _ _ Fb) as Rm. rewrite to_uint8_id in V by lia. rewrite V.
          split; auto. right. split; auto. exists b. auto.
        + rewrite to_uint8_id in V by lia. rewrite V, Em in *.
          lia.
      - rewrite (Q1 Z) in *. split; [destruct Bn; [auto|congruence]|]. left. auto. }
    destruct PN as [PN1 PN2]. split; auto. split; auto. rewrite Eo'. exact Po.
  - right. split; [reflexivity|]. unfold pix in I. apply in_map_iff in I. destruct I as (a & Ea & Ia).
    apply in_pixels in Ia. exists a. split; [exact Ia|]. inversion Ea; subst.
    destruct (Q a Ia) as [Q1 Q2]. destruct (Nat.eq_dec (value_at mask a) 0) as [Z|Z].
    + right. split; auto. destruct (Q2 Z) as (b & m & Cb & Fb & V). exists b. split; auto.
      destruct Fb as [Fb|[Fb _]]; [|exact Fb]. pose proof (electrons_range _ _ _ _ _ Fb) as Rm.
      rewrite to_uint8_id in V by lia. unfold value_at at 1 in V. lia.
    + left. rewrite <- (Q1 Z). exact HL.
Qed.
