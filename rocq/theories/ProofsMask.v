(** Proofs about the lead transition masks of 2D scans. *)
From Verif Require Import RPrelude Arr ModelSupport SpecSupport ProofsSupport ModelTct SpecTct ProofsTct
  ModelCsd SpecCsd ProofsCsd ProofsOcc ProofsRegions.
Local Open Scope R_scope.

Lemma pixel_step_spacing lims n : (1 <= n)%nat -> pixel_step lims n = spacing lims n.
Proof. intros H. unfold pixel_step, spacing. rewrite minus_INR by auto. reflexivity. Qed.

Lemma spacing_pos lims n : fst lims < snd lims -> (2 <= n)%nat -> 0 < spacing lims n.
Proof.
  intros H Hn. unfold spacing. apply Rdiv_lt_0_compat; [lra|]. apply lt_0_INR. lia.
Qed.

Lemma spacing_span lims n : (2 <= n)%nat -> snd lims - fst lims = (INR n - 1) * spacing lims n.
Proof.
  intros Hn. unfold spacing. assert (0 < INR (n - 1)) by (apply lt_0_INR; lia).
  rewrite minus_INR in * by lia. change (INR 1) with 1 in *. field. lra.
Qed.

Lemma pixel_voltage_spacing lims n i : pixel_voltage lims n i = fst lims + INR i * spacing lims n.
Proof. reflexivity. Qed.

Lemma pixel_id_nearest lims n v : fst lims < snd lims -> (2 <= n)%nat -> in_window lims n v ->
  exists i, nearest_pixel lims n i v /\ pixel_id lims (pixel_step lims n) v = Z.of_nat i.
Proof.
  intros H Hn [L U]. rewrite pixel_step_spacing by lia. pose proof (spacing_pos lims n H Hn) as S.
  pose proof (spacing_span lims n Hn) as Sp. set (s := spacing lims n) in *.
  unfold pixel_id. pose proof (div_bounds (v + 1/2 * s - fst lims) s S) as D.
  set (z := Int_part ((v + 1/2 * s - fst lims) / s)) in *.
  assert (Z0 : (-1 < z)%Z). { apply lt_IZR. nra. }
  assert (Zn : (z < Z.of_nat n)%Z). { apply lt_IZR. rewrite <- INR_IZR_INZ. nra. }
  exists (Z.to_nat z). rewrite Z2Nat.id by lia. split; auto. split; [lia|].
  rewrite pixel_voltage_spacing. fold s. rewrite INR_IZR_INZ, Z2Nat.id by lia. lra.
Qed.

Lemma nearest_unique lims n i i' v : fst lims < snd lims -> (2 <= n)%nat ->
  nearest_pixel lims n i v -> nearest_pixel lims n i' v -> i = i'.
Proof.
  intros H Hn [_ A] [_ B]. pose proof (spacing_pos lims n H Hn) as S. rewrite !pixel_voltage_spacing in *.
  set (s := spacing lims n) in *.
  assert (K : forall a b : nat, fst lims + INR a * s - s / 2 <= v -> v < fst lims + INR b * s + s / 2 -> (a <= b)%nat).
  { intros a b L1 L2. apply Nat.lt_succ_r. apply INR_lt. rewrite S_INR. nra. }
  apply Nat.le_antisymm; apply K; lra.
Qed.

Lemma np_index_nat n i : (i < n)%nat -> np_index n (Z.of_nat i) = Ok i.
Proof.
  intros H. unfold np_index. rewrite (proj2 (Z.leb_le 0 (Z.of_nat i))) by lia.
  rewrite (proj2 (Z.ltb_lt (Z.of_nat i) (Z.of_nat n))) by lia. simpl. rewrite Nat2Z.id. reflexivity.
Qed.

Section Draw.
Variables (xl yl : R * R) (nx ny : nat).
Hypothesis Hx : fst xl < snd xl.
Hypothesis Hy : fst yl < snd yl.
Hypothesis Hnx : (2 <= nx)%nat.
Hypothesis Hny : (2 <= ny)%nat.

Definition lands (a : nat * nat) (q : point) : Prop :=
  in_window xl nx (fst q) /\ in_window yl ny (snd q) /\
  nearest_pixel xl nx (snd a) (fst q) /\ nearest_pixel yl ny (fst a) (snd q).

Lemma valid_window q : mask_valid xl yl (pixel_step xl nx) (pixel_step yl ny) q = true <->
  in_window xl nx (fst q) /\ in_window yl ny (snd q).
Proof.
  unfold mask_valid, in_window. rewrite !pixel_step_spacing by lia. rewrite !andb_true_iff.
  split.
  - intros [[[A B] C] D].
    destruct (Rltb_spec (fst xl - 1/2 * spacing xl nx) (fst q)); [|discriminate].
    destruct (Rltb_spec (fst q) (snd xl + 1/2 * spacing xl nx)); [|discriminate].
    destruct (Rltb_spec (fst yl - 1/2 * spacing yl ny) (snd q)); [|discriminate].
    destruct (Rltb_spec (snd q) (snd yl + 1/2 * spacing yl ny)); [|discriminate]. lra.
  - intros [[A B] [C D]]. rewrite !Rltb_true by lra. auto.
Qed.

Definition draw_body (k : nat) (m : arr2 nat) (q : point) : result (arr2 nat) :=
  set_pixel m (pixel_id yl (pixel_step yl ny) (snd q)) (pixel_id xl (pixel_step xl nx) (fst q)) (to_uint8 (Z.of_nat k)).

Lemma draw_loop k points : forall m, rows m = ny -> cols m = nx ->
  Forall (fun q => in_window xl nx (fst q) /\ in_window yl ny (snd q)) points ->
  exists m', foldM (draw_body k) points m = Ok m' /\ rows m' = ny /\ cols m' = nx /\
  forall a, (fst a < ny)%nat -> (snd a < nx)%nat ->
    ((exists q, In q points /\ lands a q) -> value_at m' a = to_uint8 (Z.of_nat k)) /\
    (~ (exists q, In q points /\ lands a q) -> value_at m' a = value_at m a).
Proof.
  induction points as [|q points IH]; intros m Hr Hc Hf; simpl.
  - exists m. repeat split; auto. intros (q & [] & _).
  - inversion Hf as [|? ? [Wx Wy] Hf']; subst.
    destruct (pixel_id_nearest xl nx (fst q) Hx Hnx Wx) as (j & Nj & Ej).
    destruct (pixel_id_nearest yl ny (snd q) Hy Hny Wy) as (i & Ni & Ei).
    unfold draw_body at 1. unfold set_pixel. rewrite Ei, Ej.
    rewrite np_index_nat by (rewrite Hr; apply Ni). rewrite np_index_nat by (rewrite Hc; apply Nj). simpl.
    rewrite set2_ok by (rewrite ?Hr, ?Hc; apply Ni || apply Nj).
    destruct (IH (mk_arr2 (rows m) (cols m) (fun i' j' => if ((i' =? i) && (j' =? j))%nat then to_uint8 (Z.of_nat k) else cell m i' j')))
      as (m' & E & R' & C' & Q); auto.
    exists m'. split; [exact E|]. split; auto. split; auto. intros a Ha Hb. destruct (Q a Ha Hb) as [Q1 Q2].
    assert (LQ : lands a q <-> a = (i, j)).
    { split.
      - intros (_ & _ & X & Y). destruct a as [a1 a2]. simpl in *. f_equal.
        + eapply (nearest_unique yl ny); eauto.
        + eapply (nearest_unique xl nx); eauto.
      - intros ->. repeat split; auto; try apply Wx; try apply Wy; try apply Nj; try apply Ni. }
    assert (D : (exists q, In q points /\ lands a q) \/ ~ (exists q, In q points /\ lands a q)).
    { clear - nx ny. induction points as [|q0 t IHt]; [right; intros (q & [] & _)|].
      assert (Dec : forall P Q : Prop, (P \/ ~ P) -> (Q \/ ~ Q) -> (P /\ Q) \/ ~ (P /\ Q)) by tauto.
      assert (Dl : forall x y : R, (x < y) \/ ~ (x < y)) by (intros; destruct (Rlt_dec x y); auto).
      assert (Dle : forall x y : R, (x <= y) \/ ~ (x <= y)) by (intros; destruct (Rle_dec x y); auto).
      assert (Dn : forall x y : nat, (x < y)%nat \/ ~ (x < y)%nat) by (intros; lia).
      assert (L0 : lands a q0 \/ ~ lands a q0).
      { unfold lands, in_window, nearest_pixel. repeat apply Dec; auto. }
      destruct L0 as [L0|L0]; [left; exists q0; split; [left; auto|auto]|].
      destruct IHt as [(q & I & L)|N]; [left; exists q; split; [right; auto|auto]|].
      right. intros (q & [->|I] & L); [contradiction|]. apply N. eauto. }
    split.
    + intros (q' & [<-|I] & L).
      * destruct D as [D|D]; [apply Q1; auto|]. rewrite Q2 by auto. apply LQ in L. subst a. unfold value_at. simpl.
        rewrite !Nat.eqb_refl. reflexivity.
      * apply Q1. eauto.
    + intros N. rewrite Q2 by (intros (q' & I & L); apply N; exists q'; split; [right; auto|auto]).
      unfold value_at. simpl.
      destruct (Nat.eqb_spec (fst a) i) as [X|X]; auto. destruct (Nat.eqb_spec (snd a) j) as [Y|Y]; auto.
      exfalso. apply N. exists q. split; [left; auto|]. apply LQ. destruct a; simpl in *; subst; auto.
Qed.

Variables (params : list tct_params) (lut : option nat) (rot : R) (F : nat -> R -> R).
Let samples := mask_samples xl yl nx ny rot.

Lemma mask_tct_step k f (G : R -> R) m : rows m = ny -> cols m = nx -> f lut samples = Ok (map G samples) ->
  exists m', mask_add_tct xl yl samples rot lut m (k, f) = Ok m' /\ rows m' = ny /\ cols m' = nx /\
  forall a, (fst a < ny)%nat -> (snd a < nx)%nat ->
    ((exists x, In x samples /\ lands a (rotate_point rot (x, G x))) -> value_at m' a = to_uint8 (Z.of_nat k)) /\
    (~ (exists x, In x samples /\ lands a (rotate_point rot (x, G x))) -> value_at m' a = value_at m a).
Proof.
  intros Hr Hc Hf. unfold mask_add_tct. cbn [snd fst]. rewrite Hf. cbn [bind]. rewrite Hr, Hc.
  destruct (draw_loop k (filter (mask_valid xl yl (pixel_step xl nx) (pixel_step yl ny))
                          (rotate_points rot (combine samples (map G samples)))) m Hr Hc) as (m' & E & R' & C' & Q).
  { apply Forall_forall. intros q Hq. apply filter_In in Hq. apply valid_window. apply Hq. }
  exists m'. split; [exact E|]. split; auto. split; auto. intros a Ha Hb. destruct (Q a Ha Hb) as [Q1 Q2].
  assert (I : (exists q, In q (filter (mask_valid xl yl (pixel_step xl nx) (pixel_step yl ny))
                          (rotate_points rot (combine samples (map G samples)))) /\ lands a q) <->
              (exists x, In x samples /\ lands a (rotate_point rot (x, G x)))).
  { rewrite combine_map_l. unfold rotate_points. rewrite map_map. split.
    - intros (q & Hq & L). apply filter_In in Hq. destruct Hq as [Hq _]. apply in_map_iff in Hq.
      destruct Hq as (x & <- & Hx'). eauto.
    - intros (x & Hx' & L). exists (rotate_point rot (x, G x)). split; auto. apply filter_In. split.
      + apply in_map_iff. eauto.
      + apply valid_window. destruct L as (A & B & _). auto. }
  rewrite <- I. split; auto.
Qed.

Definition drawn_F (a : nat * nat) (i : nat) : Prop :=
  exists x, In x samples /\ lands a (rotate_point rot (x, F i x)).

Lemma drawn_F_dec a i : drawn_F a i \/ ~ drawn_F a i.
Proof.
  clear Hx Hy Hnx Hny. unfold drawn_F. induction samples as [|x0 t IHt]; [right; intros (q & [] & _)|].
  assert (Dec : forall P Q : Prop, (P \/ ~ P) -> (Q \/ ~ Q) -> (P /\ Q) \/ ~ (P /\ Q)) by tauto.
  assert (Dl : forall x y : R, (x < y) \/ ~ (x < y)) by (intros; destruct (Rlt_dec x y); auto).
  assert (Dle : forall x y : R, (x <= y) \/ ~ (x <= y)) by (intros; destruct (Rle_dec x y); auto).
  assert (Dn : forall x y : nat, (x < y)%nat \/ ~ (x < y)%nat) by (intros; lia).
  assert (L0 : lands a (rotate_point rot (x0, F i x0)) \/ ~ lands a (rotate_point rot (x0, F i x0))).
  { unfold lands, in_window, nearest_pixel. repeat apply Dec; auto. }
  destruct L0 as [L0|L0]; [left; exists x0; split; [left; auto|auto]|].
  destruct IHt as [(q & I & L)|N]; [left; exists q; split; [right; auto|auto]|].
  right. intros (q & [->|I] & L); [contradiction|]. apply N. eauto.
Qed.

Lemma mask_loop_2d : forall t s m, tct_funs lut s t F -> rows m = ny -> cols m = nx ->
  exists m', foldM (mask_add_tct xl yl samples rot lut) (tct_items s t) m = Ok m' /\ rows m' = ny /\ cols m' = nx /\
  forall a, (fst a < ny)%nat -> (snd a < nx)%nat ->
    ((forall i, (s <= i < s + length t)%nat -> ~ drawn_F a i) -> value_at m' a = value_at m a) /\
    (forall i, (s <= i < s + length t)%nat -> drawn_F a i ->
       (forall i', (i < i' < s + length t)%nat -> ~ drawn_F a i') -> value_at m' a = to_uint8 (Z.of_nat (1 + i))).
Proof.
  induction t as [|p t IH]; intros s m HF Hr Hc.
  - exists m. repeat split; auto. simpl. intros i Hi. lia.
  - rewrite tct_items_cons. cbn [foldM].
    destruct (HF 0%nat p eq_refl) as [Fa _]. rewrite Nat.add_0_r in Fa.
    destruct (mask_tct_step (1 + s)%nat (fun lut xs => tct_bezier p lut (Some (1 + s)%nat) xs) (F s) m Hr Hc (Fa samples))
      as (m1 & E1 & R1 & C1 & Q1).
    rewrite E1. destruct (IH (S s) m1 (tct_funs_tail lut s p t F HF) R1 C1) as (m' & E & R' & C' & Q).
    exists m'. split; [exact E|]. split; auto. split; auto. intros a Ha Hb.
    destruct (Q a Ha Hb) as [Q2 Q3]. destruct (Q1 a Ha Hb) as [Q4 Q5]. fold (drawn_F a s) in Q4, Q5. cbn [length]. split.
    + intros N. rewrite Q2 by (intros i Hi; apply N; lia). apply Q5. apply N. lia.
    + intros i Hi D M. destruct (Nat.eq_dec i s) as [->|Ne].
      * rewrite Q2 by (intros i Hi'; apply M; lia). apply Q4; auto.
      * apply (Q3 i); auto; [lia|]. intros i' Hi'. apply M. lia.
Qed.
End Draw.

Lemma drawn_spec params lut rot xl yl nx ny F a k : tct_funs lut 0 params F -> (1 <= k <= length params)%nat ->
  (drawn params lut rot xl yl nx ny a k <-> drawn_F xl yl nx ny rot F a (k - 1)).
Proof.
  intros HF Hk. unfold drawn, drawn_F, lands.
  destruct (nth_error params (k - 1)) as [p|] eqn:E; [|apply nth_error_None in E; lia].
  destruct (HF (k - 1)%nat p E) as [_ N]. simpl in N. replace (S (k - 1)) with k in N by lia. split.
  - intros (x & p' & y & I & _ & E' & Ey & L). inversion E'; subst p'. rewrite N in Ey. inversion Ey; subst y. eauto.
  - intros (x & I & L). exists x, p, (F (k - 1)%nat x). repeat split; auto; try lia; apply L.
Qed.

Lemma drawn_range params lut rot xl yl nx ny a k : drawn params lut rot xl yl nx ny a k -> (1 <= k <= length params)%nat.
Proof. intros (x & p & y & _ & H1 & H2 & _). split; auto. assert (k - 1 < length params)%nat by (apply nth_error_Some; congruence). lia. Qed.

Lemma to_uint8_id n : (n < 256)%nat -> to_uint8 (Z.of_nat n) = n.
Proof. intros H. unfold to_uint8. rewrite Z.mod_small by lia. apply Nat2Z.id. Qed.

Lemma lead_mask_2d_spec params lut rot xl yl nx ny :
  proper_tcts params lut -> fst xl < snd xl -> fst yl < snd yl -> (2 <= nx)%nat -> (2 <= ny)%nat ->
  exists m, lead_mask_2d ny nx xl yl (initialize_tct_functions params 1) rot lut = Ok m /\
  rows m = ny /\ cols m = nx /\
  forall a, in_image m a ->
    ((forall k, ~ drawn params lut rot xl yl nx ny a k) -> value_at m a = 0%nat) /\
    (forall k, drawn params lut rot xl yl nx ny a k -> (forall k', drawn params lut rot xl yl nx ny a k' -> (k' <= k)%nat) ->
               value_at m a = to_uint8 (Z.of_nat k)).
Proof.
  intros P Hx Hy Hnx Hny. destruct (tct_funs_exist lut params P 0) as [F HF].
  unfold lead_mask_2d. rewrite init_items.
  destruct (mask_loop_2d xl yl nx ny Hx Hy Hnx Hny lut rot F params 0 (mk_arr2 ny nx (fun _ _ => 0%nat)) HF eq_refl eq_refl)
    as (m & E & R' & C' & Q).
  exists m. split; [exact E|]. split; auto. split; auto. intros a [Ha Hb]. rewrite R' in Ha. rewrite C' in Hb.
  destruct (Q a Ha Hb) as [Q1 Q2]. split.
  - intros N. rewrite Q1; [reflexivity|]. intros i Hi D. apply (N (S i)).
    apply (drawn_spec params lut rot xl yl nx ny F a (S i) HF); [lia|]. simpl. rewrite Nat.sub_0_r. auto.
  - intros k D M. pose proof (drawn_range _ _ _ _ _ _ _ _ _ D) as Rk.
    rewrite (Q2 (k - 1)%nat); [f_equal; lia|lia| |].
    + apply (drawn_spec params lut rot xl yl nx ny F a k HF); auto.
    + intros i' Hi' D'. assert (S i' <= k)%nat; [|lia]. apply M.
      apply (drawn_spec params lut rot xl yl nx ny F a (S i') HF); [lia|]. simpl. rewrite Nat.sub_0_r. auto.
Qed.

Lemma drawn_dec params lut rot xl yl nx ny a k : proper_tcts params lut ->
  drawn params lut rot xl yl nx ny a k \/ ~ drawn params lut rot xl yl nx ny a k.
Proof.
  intros P. destruct (tct_funs_exist lut params P 0) as [F HF].
  destruct (Nat.le_gt_cases 1 k); [|right; intros D; apply drawn_range in D; lia].
  destruct (Nat.le_gt_cases k (length params)); [|right; intros D; apply drawn_range in D; lia].
  rewrite (drawn_spec params lut rot xl yl nx ny F a k HF) by lia. apply drawn_F_dec.
Qed.

(** labelled exactly where a TCT is drawn, with the number of the last one *)
Lemma mask_labels params lut rot xl yl nx ny m a :
  proper_tcts params lut -> (length params < 256)%nat ->
  fst xl < snd xl -> fst yl < snd yl -> (2 <= nx)%nat -> (2 <= ny)%nat ->
  lead_mask_2d ny nx xl yl (initialize_tct_functions params 1) rot lut = Ok m -> in_image m a ->
  (value_at m a = 0%nat /\ forall k, ~ drawn params lut rot xl yl nx ny a k) \/
  (drawn params lut rot xl yl nx ny a (value_at m a) /\
   forall k, drawn params lut rot xl yl nx ny a k -> (k <= value_at m a)%nat).
Proof.
  intros P Hl Hx Hy Hnx Hny E Ha.
  destruct (lead_mask_2d_spec params lut rot xl yl nx ny P Hx Hy Hnx Hny) as (m' & E' & _ & _ & Q).
  rewrite E in E'. inversion E'; subst m'. destruct (Q a Ha) as [Q1 Q2].
  assert (G : forall b, (forall k, (b < k)%nat -> ~ drawn params lut rot xl yl nx ny a k) ->
     (forall k, ~ drawn params lut rot xl yl nx ny a k) \/
     exists k, drawn params lut rot xl yl nx ny a k /\ forall k', drawn params lut rot xl yl nx ny a k' -> (k' <= k)%nat).
  { induction b as [|b IH]; intros H.
    - left. intros k D. destruct (Nat.eq_dec k 0) as [->|]; [apply drawn_range in D; lia|]. apply (H k); [lia|auto].
    - destruct (drawn_dec params lut rot xl yl nx ny a (S b) P) as [D|D].
      + right. exists (S b). split; auto. intros k' D'. destruct (Nat.le_gt_cases k' (S b)); auto. exfalso. apply (H k'); auto.
      + apply IH. intros k Hk. destruct (Nat.eq_dec k (S b)) as [->|]; auto. apply H. lia. }
  destruct (G (length params)) as [N|(k & D & M)].
  - intros k Hk D. apply drawn_range in D. lia.
  - left. split; auto.
  - right. pose proof (drawn_range _ _ _ _ _ _ _ _ _ D) as Rk. rewrite (Q2 k D M), to_uint8_id by lia. auto.
Qed.
