(** Proofs about the ideal CSD model. *)
From Verif Require Import RPrelude Arr ModelSupport SpecSupport ProofsSupport ModelTct SpecTct ProofsTct ModelCsd SpecCsd.
Local Open Scope R_scope.

(** ** 1D lead transition mask *)
Section Mask1d.
Variable total : list R.
Let n := length total.
Let t (i : nat) := nth i total 0.

(** what iteration id writes to pixel j *)
Definition writes (i j : nat) : bool :=
  negb (Reqb (t i) (t (S i))) && (if Rltb (t i) (t (S i)) then (j =? S i)%nat else (j =? i)%nat).

Definition mask_body (res : list nat) (i : nat) : result (list nat) :=
  let? a := get_item total i in
  let? b := get_item total (S i) in
  if Rltb a b then set_item res (S i) (to_uint8 (Int_part b))
  else set_item res i (to_uint8 (Int_part a)).

Lemma get_item_nth i : (i < n)%nat -> get_item total i = Ok (t i).
Proof. intros H. unfold get_item. rewrite (nth_error_nth' total 0 H). reflexivity. Qed.

Lemma mask_loop ids : forall res, length res = n ->
  Forall (fun i => (S i < n)%nat /\ t i <> t (S i)) ids ->
  exists res', foldM mask_body ids res = Ok res' /\ length res' = n /\
  forall j, (j < n)%nat -> nth_error res' j =
    if existsb (fun i => writes i j) ids then Some (to_uint8 (Int_part (t j))) else nth_error res j.
Proof.
  induction ids as [|i ids IH]; intros res Hl Hf; simpl.
  - exists res; auto.
  - inversion Hf as [|? ? [Hi Hne] Hf']; subst.
    unfold mask_body at 1. rewrite !get_item_nth by lia. simpl.
    assert (W : forall j, writes i j = if Rltb (t i) (t (S i)) then (j =? S i)%nat else (j =? i)%nat).
    { intros j. unfold writes. rewrite Reqb_false by auto. reflexivity. }
    destruct (Rltb (t i) (t (S i))) eqn:C; unfold set_item.
    + rewrite (proj2 (Nat.ltb_lt (S i) (length res))) by lia.
      destruct (IH (upd res (S i) (to_uint8 (Int_part (t (S i))))) ltac:(rewrite length_upd; auto) Hf') as (r' & E & L & Q).
      exists r'. split; [exact E|]. split; auto. intros j Hj. rewrite Q by auto.
      rewrite W. destruct (existsb (fun i0 => writes i0 j) ids) eqn:X; [rewrite orb_true_r; auto|].
      rewrite orb_false_r. rewrite nth_error_upd. rewrite (proj2 (Nat.ltb_lt (S i) (length res))) by lia.
      rewrite andb_true_r. rewrite Nat.eqb_sym. destruct (Nat.eqb_spec j (S i)); subst; auto.
    + rewrite (proj2 (Nat.ltb_lt i (length res))) by lia.
      destruct (IH (upd res i (to_uint8 (Int_part (t i)))) ltac:(rewrite length_upd; auto) Hf') as (r' & E & L & Q).
      exists r'. split; [exact E|]. split; auto. intros j Hj. rewrite Q by auto.
      rewrite W. destruct (existsb (fun i0 => writes i0 j) ids) eqn:X; [rewrite orb_true_r; auto|].
      rewrite orb_false_r. rewrite nth_error_upd. rewrite (proj2 (Nat.ltb_lt i (length res))) by lia.
      rewrite andb_true_r. rewrite Nat.eqb_sym. destruct (Nat.eqb_spec j i); subst; auto.
Qed.
End Mask1d.

(** total of pixel i *)
Definition total_at (occ : list (R * R)) (i : nat) : R := fst (nth i occ (0, 0)) + snd (nth i occ (0, 0)).

Definition lower_neighbour (occ : list (R * R)) (i : nat) : bool :=
  ((1 <=? i)%nat && Rltb (total_at occ (i - 1)) (total_at occ i)) ||
  ((S i <? length occ)%nat && Rltb (total_at occ (S i)) (total_at occ i)).

Lemma nth_total occ i : nth i (map (fun o : R * R => fst o + snd o) occ) 0 = total_at occ i.
Proof.
  unfold total_at. rewrite <- (map_nth (fun o : R * R => fst o + snd o) occ (0, 0) i).
  destruct (Nat.lt_ge_cases i (length occ)).
  - apply nth_indep. rewrite map_length. auto.
  - rewrite !nth_overflow by (rewrite map_length; auto). simpl. lra.
Qed.

Lemma lead_mask_1d_spec occ : exists lead, lead_mask_1d occ = Ok lead /\ length lead = length occ /\
  forall i, (i < length occ)%nat -> nth_error lead i =
    Some (if lower_neighbour occ i then to_uint8 (Int_part (total_at occ i)) else 0%nat).
Proof.
  unfold lead_mask_1d. set (total := map (fun o : R * R => fst o + snd o) occ).
  assert (Ln : length total = length occ) by (apply map_length).
  destruct (mask_loop total
    (filter (fun i => negb (Reqb (nth i total 0) (nth (S i) total 0))) (seq 0 (length total - 1)))
    (repeat 0%nat (length total))) as (res & E & L & Q).
  - apply repeat_length.
  - apply Forall_forall. intros i Hi. apply filter_In in Hi. destruct Hi as [H1 H2]. apply in_seq in H1.
    split; [lia|]. destruct (Reqb_spec (nth i total 0) (nth (S i) total 0)); [discriminate|auto].
  - exists res. split; [exact E|]. split; [congruence|]. intros i Hi. rewrite Q by lia.
    replace (nth i total 0) with (total_at occ i) by (symmetry; apply nth_total).
    assert (X : existsb (fun i0 => writes total i0 i)
       (filter (fun i => negb (Reqb (nth i total 0) (nth (S i) total 0))) (seq 0 (length total - 1)))
       = lower_neighbour occ i).
    { apply Bool.eq_true_iff_eq. rewrite existsb_exists. unfold lower_neighbour. rewrite orb_true_iff, !andb_true_iff.
      rewrite Nat.leb_le, Nat.ltb_lt. split.
      - intros (i0 & H1 & H2). apply filter_In in H1. destruct H1 as [H1 H3]. apply in_seq in H1.
        unfold writes in H2. apply andb_prop in H2. destruct H2 as [_ H2].
        unfold total in H2, H3. rewrite !nth_total in H2, H3.
        destruct (Rltb (total_at occ i0) (total_at occ (S i0))) eqn:C; apply Nat.eqb_eq in H2; subst i.
        + left. replace (S i0 - 1)%nat with i0 by lia. split; [lia|auto].
        + right. split; [lia|]. destruct (Reqb_spec (total_at occ i0) (total_at occ (S i0))) as [|N]; [discriminate|].
          destruct (Rltb_spec (total_at occ i0) (total_at occ (S i0))) as [|N2]; [discriminate|]. apply Rltb_true. lra.
      - intros [[H1 H2]|[H1 H2]].
        + exists (i - 1)%nat. destruct (Rltb_spec (total_at occ (i - 1)) (total_at occ i)) as [L1|]; [|discriminate].
          split.
          * apply filter_In. split; [apply in_seq; lia|]. unfold total. rewrite !nth_total.
            replace (S (i - 1)) with i by lia. rewrite Reqb_false by lra. reflexivity.
          * unfold writes, total. rewrite !nth_total. replace (S (i - 1)) with i by lia.
            rewrite Reqb_false by lra. rewrite Rltb_true by lra. simpl. apply Nat.eqb_refl.
        + exists i. destruct (Rltb_spec (total_at occ (S i)) (total_at occ i)) as [L1|]; [|discriminate].
          split.
          * apply filter_In. split; [apply in_seq; lia|]. unfold total. rewrite !nth_total.
            rewrite Reqb_false by lra. reflexivity.
          * unfold writes, total. rewrite !nth_total.
            rewrite Reqb_false by lra. rewrite Rltb_false by lra. simpl. apply Nat.eqb_refl. }
    rewrite X. destruct (lower_neighbour occ i); auto. apply nth_error_repeat. lia.
Qed.

Lemma to_uint8_small n : (n < 256)%nat -> to_uint8 (Int_part (INR n)) = n.
Proof.
  intros H. unfold to_uint8. rewrite INR_IZR_INZ. rewrite (Int_part_unique _ (Z.of_nat n)) by lra.
  rewrite Z.mod_small by lia. apply Nat2Z.id.
Qed.

Lemma lead_mask_1d_labels occ : Forall (fun o : R * R => exists n, (n < 256)%nat /\ fst o + snd o = INR n) occ ->
  exists lead, lead_mask_1d occ = Ok lead /\ length lead = length occ /\
  forall i o l, nth_error occ i = Some o -> nth_error lead i = Some l ->
    (l <> 0%nat <-> exists j o', (S j = i \/ S i = j) /\ nth_error occ j = Some o' /\ fst o' + snd o' < fst o + snd o) /\
    (l <> 0%nat -> INR l = fst o + snd o).
Proof.
  intros Hf. destruct (lead_mask_1d_spec occ) as (lead & E & L & Q). exists lead. split; auto. split; auto.
  intros i o l Ho Hl.
  assert (Hi : (i < length occ)%nat) by (apply nth_error_Some; congruence).
  rewrite Q in Hl by auto.
  assert (T : forall j o', nth_error occ j = Some o' -> total_at occ j = fst o' + snd o').
  { intros j o' Hj. unfold total_at. rewrite (nth_error_nth occ j (0,0) Hj). reflexivity. }
  rewrite Forall_forall in Hf.
  destruct (Hf o (nth_error_In occ i Ho)) as (m & Hm & Em).
  rewrite (T i o Ho) in Hl.
  assert (N : lower_neighbour occ i = true <->
    exists j o', (S j = i \/ S i = j) /\ nth_error occ j = Some o' /\ fst o' + snd o' < fst o + snd o).
  { unfold lower_neighbour. rewrite orb_true_iff, !andb_true_iff, Nat.leb_le, Nat.ltb_lt. rewrite (T i o Ho). split.
    - intros [[H1 H2]|[H1 H2]].
      + destruct (nth_error occ (i - 1)) as [o'|] eqn:E1; [|apply nth_error_None in E1; lia].
        rewrite (T _ o' E1) in H2. destruct (Rltb_spec (fst o' + snd o') (fst o + snd o)); [|discriminate].
        exists (i - 1)%nat, o'. repeat split; auto. lia.
      + destruct (nth_error occ (S i)) as [o'|] eqn:E1; [|apply nth_error_None in E1; lia].
        rewrite (T _ o' E1) in H2. destruct (Rltb_spec (fst o' + snd o') (fst o + snd o)); [|discriminate].
        exists (S i), o'. repeat split; auto.
    - intros (j & o' & [H1|H1] & H2 & H3).
      + left. split; [lia|]. replace (i - 1)%nat with j by lia. rewrite (T j o' H2). apply Rltb_true; auto.
      + right. subst j. split; [apply nth_error_Some; congruence|]. rewrite (T _ o' H2). apply Rltb_true; auto. }
  rewrite Em in *. rewrite to_uint8_small in Hl by auto.
  destruct (lower_neighbour occ i) eqn:LN.
  - inversion Hl; subst l; clear Hl. split; [|auto]. split; [intros _; apply N; auto|].
    intros _. destruct (proj1 N eq_refl) as (j & o' & _ & H2 & H3).
    destruct (Hf o' (nth_error_In occ j H2)) as (m' & _ & Em'). rewrite Em' in H3.
    apply INR_lt in H3. lia.
  - inversion Hl; subst l; clear Hl. split; [|congruence]. split; [congruence|].
    intros H. apply N in H. discriminate.
Qed.

Lemma total_at_rev occ i : (i < length occ)%nat -> total_at (rev occ) i = total_at occ (length occ - 1 - i).
Proof.
  intros H. unfold total_at. rewrite rev_nth by auto. replace (length occ - S i)%nat with (length occ - 1 - i)%nat by lia.
  reflexivity.
Qed.

Lemma lead_mask_1d_rev occ lead : lead_mask_1d occ = Ok lead -> lead_mask_1d (rev occ) = Ok (rev lead).
Proof.
  intros H. destruct (lead_mask_1d_spec occ) as (l1 & E1 & L1 & Q1). rewrite E1 in H. inversion H; subst l1.
  destruct (lead_mask_1d_spec (rev occ)) as (l2 & E2 & L2 & Q2). rewrite E2. f_equal.
  rewrite rev_length in *. apply nth_error_ext. intros i.
  destruct (Nat.lt_ge_cases i (length occ)) as [Hi|Hi].
  - rewrite Q2 by auto. rewrite nth_error_rev by lia. rewrite L1. rewrite Q1 by lia. f_equal.
    assert (X : lower_neighbour (rev occ) i = lower_neighbour occ (length occ - 1 - i)).
    { unfold lower_neighbour. rewrite rev_length. rewrite (total_at_rev occ i) by auto.
      rewrite orb_comm. f_equal.
      - destruct (Nat.ltb_spec (S i) (length occ)) as [A|A].
        + rewrite (proj2 (Nat.leb_le 1 (length occ - 1 - i))) by lia. rewrite total_at_rev by auto.
          replace (length occ - 1 - S i)%nat with (length occ - 1 - i - 1)%nat by lia. reflexivity.
        + rewrite (proj2 (Nat.leb_gt 1 (length occ - 1 - i))) by lia. reflexivity.
      - destruct (Nat.leb_spec 1 i) as [A|A].
        + rewrite (proj2 (Nat.ltb_lt (S (length occ - 1 - i)) (length occ))) by lia.
          rewrite total_at_rev by lia.
          replace (length occ - 1 - (i - 1))%nat with (S (length occ - 1 - i)) by lia. reflexivity.
        + rewrite (proj2 (Nat.ltb_ge (S (length occ - 1 - i)) (length occ))) by lia. reflexivity. }
    rewrite X. rewrite (total_at_rev occ i) by auto. reflexivity.
  - rewrite (proj2 (nth_error_None l2 i)) by lia.
    symmetry. apply nth_error_None. rewrite rev_length. lia.
Qed.

(** ** filling regions *)
Lemma mapM_length {A B} (f : A -> result B) l r : mapM f l = Ok r -> length r = length l.
Proof.
  revert r; induction l as [|x t IH]; simpl; intros r H; [inversion H; auto|].
  destruct (f x); [|discriminate]. destruct (mapM f t) eqn:E; [|discriminate]. inversion H. simpl. f_equal. apply IH; auto.
Qed.
Lemma mapM_nth {A B} (f : A -> result B) l r i x : mapM f l = Ok r -> nth_error l i = Some x ->
  exists y, nth_error r i = Some y /\ f x = Ok y.
Proof.
  revert r i; induction l as [|z t IH]; simpl; intros r i H Hx; [destruct i; discriminate|].
  destruct (f z) eqn:F; [|discriminate]. destruct (mapM f t) eqn:E; [|discriminate]. inversion H; subst r.
  destruct i as [|i]; simpl in *.
  - inversion Hx; subst. eauto.
  - apply IH; auto.
Qed.

Lemma combine_nth_error {A B} (l : list A) (l' : list B) i x y :
  nth_error l i = Some x -> nth_error l' i = Some y -> nth_error (combine l l') i = Some (x, y).
Proof.
  revert l' i; induction l as [|a l IH]; intros l' i H1 H2; [destruct i; discriminate|].
  destruct l' as [|b l']; [destruct i; discriminate|]. destruct i as [|i]; simpl in *.
  - inversion H1; inversion H2; auto.
  - apply IH; auto.
Qed.

Lemma list_max_in l x : In x l -> (x <= list_max l)%nat.
Proof. intros H. pose proof (proj1 (list_max_le l (list_max l)) (le_n _)) as F. rewrite Forall_forall in F. auto. Qed.

Lemma in_unique l x : In x (unique l) <-> In x l.
Proof.
  unfold unique. rewrite filter_In, in_seq, existsb_exists. split.
  - intros [_ (y & H1 & H2)]. apply Nat.eqb_eq in H2. subst y; auto.
  - intros H. split; [pose proof (list_max_in l x H); lia|]. exists x. split; auto. apply Nat.eqb_refl.
Qed.
Lemma nodup_unique l : NoDup (unique l).
Proof. apply NoDup_filter, seq_NoDup. Qed.

Section Fill.
Variable kind : cdf_kind.
Variable coords : list (nat * list anchors).
Variable g : R.
Variable pixels : list (point * nat).

Definition fill_body (occ : list (R * R)) (reg : nat) : result (list (R * R)) :=
  if (reg =? 0)%nat then Ok occ
  else
    let? s := region_setup coords g reg in
    let '(l0, l1, params) := s in
    mapM (fun po : (point * nat) * (R * R) =>
            let '((pt, r), o) := po in
            if (r =? reg)%nat then occupation_func kind params l0 l1 pt else Ok o)
         (combine pixels occ).

(** the value a pixel gets *)
Definition pixel_occ (pt : point) (r : nat) (o : R * R) : Prop :=
  (r = 0%nat /\ o = (0, 0)) \/
  (r <> 0%nat /\ exists l0 l1 params, region_setup coords g r = Ok (l0, l1, params) /\
                 occupation_func kind params l0 l1 pt = Ok o).

Lemma fill_loop regs : forall occ occ', length occ = length pixels -> NoDup regs ->
  foldM fill_body regs occ = Ok occ' ->
  length occ' = length pixels /\
  forall i pt r o, nth_error pixels i = Some (pt, r) -> nth_error occ i = Some o ->
    exists o', nth_error occ' i = Some o' /\
    (In r regs -> r <> 0%nat -> exists l0 l1 params, region_setup coords g r = Ok (l0, l1, params) /\
                 occupation_func kind params l0 l1 pt = Ok o') /\
    (~ In r regs \/ r = 0%nat -> o' = o).
Proof.
  induction regs as [|reg regs IH]; intros occ occ' Hl Hn H; simpl in H.
  - inversion H; subst occ'. split; auto. intros i pt r o Hp Ho. exists o. split; auto. split; [intros []|auto].
  - inversion Hn as [|? ? Hnin Hn']; subst. unfold fill_body in H at 1.
    destruct (Nat.eqb_spec reg 0) as [Z|Z].
    + destruct (IH occ occ' Hl Hn' H) as [L Q]. split; auto. intros i pt r o Hp Ho.
      destruct (Q i pt r o Hp Ho) as (o' & A & B & C). exists o'. split; auto. split.
      * intros [E|E] Hr; [subst; congruence|auto].
      * intros [E|E]; apply C; [left|right]; auto. intros I; apply E; right; auto.
    + destruct (region_setup coords g reg) as [[[l0 l1] params]|e] eqn:Es; [|discriminate]. simpl in H.
      destruct (mapM _ (combine pixels occ)) as [occ1|e] eqn:Em; [|discriminate].
      assert (L1 : length occ1 = length pixels).
      { rewrite (mapM_length _ _ _ Em), combine_length. lia. }
      destruct (IH occ1 occ' L1 Hn' H) as [L Q]. split; auto. intros i pt r o Hp Ho.
      destruct (mapM_nth _ _ _ i (pt, r, o) Em (combine_nth_error _ _ _ _ _ Hp Ho)) as (o1 & H1 & H2).
      destruct (Q i pt r o1 Hp H1) as (o' & A & B & C). exists o'. split; auto.
      destruct (Nat.eqb_spec r reg) as [E|E].
      * subst r. assert (o' = o1) by (apply C; left; auto). subst o'. split.
        -- intros _ _. eauto.
        -- intros [X|X]; [exfalso; apply X; left; auto|congruence].
      * inversion H2; subst o1. split.
        -- intros [X|X] Hr; [congruence|auto].
        -- intros [X|X]; apply C; [left|right]; auto. intros I; apply X; right; auto.
Qed.

Lemma fill_spec occ : fill_occupations kind coords g pixels = Ok occ ->
  length occ = length pixels /\
  forall i pt r, nth_error pixels i = Some (pt, r) ->
    exists o, nth_error occ i = Some o /\ pixel_occ pt r o.
Proof.
  intros H. 
  destruct (fill_loop (unique (map snd pixels)) (map (fun _ => (0, 0)) pixels) occ) as [L Q];
    [apply map_length|apply nodup_unique|exact H|].
  split; auto. intros i pt r Hp.
  destruct (Q i pt r (0, 0) Hp) as (o & A & B & C).
  { rewrite (map_nth_error (fun _ => (0, 0)) i pixels Hp). reflexivity. }
  exists o. split; auto. unfold pixel_occ.
  destruct (Nat.eq_dec r 0) as [E|E]; [left; split; auto|right; split; auto].
  apply B; auto. apply in_unique. apply in_map_iff. exists (pt, r). split; auto. eapply nth_error_In; eauto.
Qed.

Lemma fill_total : (forall reg, In reg (map snd pixels) -> reg <> 0%nat ->
    exists l0 l1 params, region_setup coords g reg = Ok (l0, l1, params) /\
    forall pt, exists o, occupation_func kind params l0 l1 pt = Ok o) ->
  exists occ, fill_occupations kind coords g pixels = Ok occ.
Proof.
  intros H. unfold fill_occupations. fold fill_body.
  assert (G : forall regs occ, (forall r, In r regs -> In r (map snd pixels)) ->
    exists occ', foldM fill_body regs occ = Ok occ').
  { induction regs as [|reg regs IH]; intros occ Hin; simpl; [eauto|].
    unfold fill_body at 1. destruct (Nat.eqb_spec reg 0) as [Z|Z].
    - apply IH. intros; apply Hin; right; auto.
    - destruct (H reg (Hin reg (or_introl eq_refl)) Z) as (l0 & l1 & ps & Es & Eo). rewrite Es. simpl.
      assert (M : exists o, mapM (fun po : (point * nat) * (R * R) =>
            let '((pt, r), o) := po in
            if (r =? reg)%nat then occupation_func kind ps l0 l1 pt else Ok o)
         (combine pixels occ) = Ok o).
      { induction (combine pixels occ) as [|[[pt r] o] t IHt]; simpl; [eauto|].
        destruct (r =? reg)%nat.
        - destruct (Eo pt) as [o1 ->]. destruct IHt as [o2 ->]. eauto.
        - destruct IHt as [o2 ->]. eauto. }
      destruct M as [o1 ->]. apply IH. intros; apply Hin; right; auto. }
  apply G. intros r. apply in_unique.
Qed.

Lemma fill_missing reg : In reg (map snd pixels) -> reg <> 0%nat ->
  (forall s, region_setup coords g reg <> Ok s) -> exists e, fill_occupations kind coords g pixels = Err e.
Proof.
  intros Hin Hne Hs. unfold fill_occupations. fold fill_body.
  apply in_unique in Hin. revert Hin. generalize (unique (map snd pixels)) as regs.
  generalize (map (fun _ : point * nat => (0, 0)) pixels) as occ.
  intros occ regs; revert occ. induction regs as [|r regs IH]; intros occ Hin; [destruct Hin|]. simpl.
  destruct Hin as [->|Hin].
  - unfold fill_body at 1. destruct (Nat.eqb_spec reg 0) as [|_]; [congruence|].
    destruct (region_setup coords g reg) as [s|e] eqn:E; [exfalso; eapply Hs; eauto|]. simpl. eauto.
  - destruct (fill_body occ r); eauto.
Qed.
End Fill.
