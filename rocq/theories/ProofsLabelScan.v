(** Lemmas about get_sensor_scan_labels. *)
From Coq Require Import Permutation Sorted.
From Verif Require Import RPrelude Arr ModelSupport ModelTct ModelCsd ModelDistortions ModelSensor
  SpecSupport SpecSensor ProofsSupport ProofsTct ProofsSensor ProofsScanSensor.
Local Open Scope R_scope.

(** ** Nearest pixel *)
Lemma peak_pixel_marks row m step j : row <> [] -> (peak_pixel row m step = Some j <-> marks step row m j).
Proof.
  intros Hr. set (d := map (fun x => Rabs (x - m)) row).
  assert (Hd : d <> []) by (destruct row; [congruence|discriminate]).
  destruct (argmin_spec d Hd) as (A & B & C). 
  assert (Ld : length d = length row) by apply map_length. rewrite Ld in A, B.
  assert (Nd : forall k, (k < length row)%nat -> nth k d 0 = Rabs (nth k row 0 - m)).
  { intros k Hk. unfold d. rewrite (nth_indep _ 0 (Rabs (0 - m))) by (rewrite map_length; auto).
    apply (map_nth (fun x => Rabs (x - m))). }
  assert (N : nearest row m (argmin d)).
  { split; [exact A|]. split.
    - intros k Hk. rewrite <- !Nd by auto. apply B, Hk.
    - intros k Hk. rewrite <- !Nd by lia. apply C, Hk. }
  assert (U : forall k, nearest row m k -> k = argmin d).
  { intros k (K1 & K2 & K3). destruct N as (_ & N2 & N3).
    destruct (Nat.lt_trichotomy k (argmin d)) as [L|[L|L]]; [|auto|].
    - specialize (N3 k L). specialize (K2 (argmin d) A). lra.
    - specialize (K3 (argmin d) L). specialize (N2 k K1). lra. }
  unfold peak_pixel. fold d. cbv zeta. set (a := argmin d) in *.
  destruct ((a =? 0) || (a =? length row - 1))%nat eqn:E; cbn [negb].
  - assert (Bd : a = 0%nat \/ a = (length row - 1)%nat).
    { apply orb_true_iff in E. rewrite !Nat.eqb_eq in E. exact E. }
    destruct step as [t|].
    + rewrite Nd by auto. destruct (Rltb_spec (Rabs (nth a row 0 - m)) t) as [L|L].
      * split.
        -- intros H. inversion H; subst. split; [exact N|]. right. eauto.
        -- intros [H _]. f_equal. symmetry. apply U, H.
      * split; [discriminate|]. intros [H [[H1 H2]|(t' & Et & Lt)]]; apply U in H; subst j; [tauto|].
        inversion Et; subst. contradiction.
    + split; [discriminate|]. intros [H [[H1 H2]|(t' & Et & Lt)]]; apply U in H; subst j; [tauto|discriminate].
  - assert (Bd : a <> 0%nat /\ a <> (length row - 1)%nat).
    { apply orb_false_iff in E. rewrite !Nat.eqb_neq in E. exact E. }
    split.
    + intros H. inversion H; subst. split; [exact N|]. left. exact Bd.
    + intros [H _]. f_equal. symmetry. apply U, H.
Qed.
Lemma nearest_unique row m j k : nearest row m j -> nearest row m k -> j = k.
Proof.
  intros (J1 & J2 & J3) (K1 & K2 & K3). destruct (Nat.lt_trichotomy j k) as [L|[L|L]]; [|auto|].
  - specialize (K3 j L). specialize (J2 k K1). lra.
  - specialize (J3 k L). specialize (K2 j J1). lra.
Qed.
Lemma marks_unique st row m j k : marks st row m j -> marks st row m k -> j = k.
Proof. intros [H _] [H' _]. eapply nearest_unique; eauto. Qed.

(** nearer to the larger value means larger potential *)
Lemma nearest_order row a b i j : a < b -> nearest row a i -> nearest row b j -> i <> j ->
  nth i row 0 < nth j row 0.
Proof.
  intros L (I1 & I2 & I3) (J1 & J2 & J3) N.
  set (x := nth i row 0) in *. set (y := nth j row 0) in *.
  pose proof (I2 j J1) as A. fold y in A. pose proof (J2 i I1) as B. fold x in B.
  assert (x <= y).
  { unfold Rabs in *. destruct (Rcase_abs (x - a)), (Rcase_abs (y - a)), (Rcase_abs (y - b)), (Rcase_abs (x - b)); lra. }
  destruct (Req_dec x y) as [E|E]; [|lra]. exfalso.
  destruct (Nat.lt_trichotomy i j) as [Q|[Q|Q]]; [|auto|].
  - specialize (J3 i Q). fold x in J3. rewrite E in J3. lra.
  - specialize (I3 j Q). fold y in I3. rewrite E in I3. lra.
Qed.

(** ** Painting one peak *)
Lemma nth_combine {A B} (l : list A) (l' : list B) i a b :
  length l = length l' -> nth i (combine l l') (a, b) = (nth i l a, nth i l' b).
Proof. apply combine_nth. Qed.
Lemma length_mark row j v : length (mark row j v) = length row.
Proof. destruct j; simpl; [|reflexivity]. rewrite map_length, combine_length, seq_length. lia. Qed.
Lemma nth_mark row j v k : (k < length row)%nat ->
  nth k (mark row j v) 0%nat = match j with Some j => if (k =? j)%nat then v else nth k row 0%nat | None => nth k row 0%nat end.
Proof.
  intros H. destruct j as [j|]; simpl; [|reflexivity].
  set (f := fun ix : nat * nat => if (fst ix =? j)%nat then v else snd ix).
  rewrite (nth_indep _ 0%nat (f (0%nat, 0%nat))) by (rewrite map_length, combine_length, seq_length; lia).
  rewrite map_nth. rewrite nth_combine by apply seq_length. rewrite seq_nth by auto. reflexivity.
Qed.

(** the rows peak number idx (of the sorted list) is searched in *)
Definition shifted (shift : R -> R) (r d : list R) : list R := map (fun xd : R * R => fst xd + shift (snd xd)) (combine r d).
Definition shift_of (s : scan_sensor) (peaks : list peak) (idx : nat) (pk : peak) : R -> R :=
  match deform_of (ss_deform s) idx, nth_error peaks idx with
  | Some f, Some q => fun d => mu0 pk - f d (mu0 q)
  | _, _ => fun _ => 0
  end.
Definition same_rows {A B} (x : list (list A)) (y : list (list B)) : Prop :=
  length x = length y /\ forall i, length (nth i x []) = length (nth i y []).

Lemma label_peak_ok s peaks pots dists idx pk id mask : (idx < length peaks)%nat ->
  same_rows pots dists -> same_rows pots mask -> (forall r, In r pots -> r <> []) ->
  exists mask', label_peak s peaks pots dists idx pk id mask = Ok mask' /\ same_rows pots mask' /\
    forall i, (i < length pots)%nat ->
      nth i mask' [] = mark (nth i mask [])
        (peak_pixel (shifted (shift_of s peaks idx pk) (nth i pots []) (nth i dists [])) (mu0 pk) (mean_diff pots)) (id + 1).
Proof.
  intros Hidx [Ld Rd] [Lm Rm] Hne.
  set (sh := shift_of s peaks idx pk).
  assert (E : label_peak s peaks pots dists idx pk id mask =
    mapM (fun rdm : (list R * list R) * list nat =>
          let '((r, d), mrow) := rdm in
          raise_if (length r =? 0)%nat ValueError
            (let distorted := shifted sh r d in
             Ok (mark mrow (peak_pixel distorted (mu0 pk) (mean_diff pots)) (id + 1))))
       (combine (combine pots dists) mask)).
  { unfold label_peak, sh, shift_of. rewrite dict_deform. unfold get_item.
    destruct (deform_of (ss_deform s) idx); [|reflexivity].
    destruct (nth_error peaks idx) eqn:En; [reflexivity|]. apply nth_error_None in En. lia. }
  rewrite E.
  rewrite (mapM_all _ (fun rdm : (list R * list R) * list nat => let '((r, d), mrow) := rdm in
     mark mrow (peak_pixel (shifted sh r d) (mu0 pk) (mean_diff pots)) (id + 1))).
  2: { intros [[r d] mrow] Hin. apply in_combine_l in Hin. apply in_combine_l in Hin. apply Hne in Hin.
       destruct r; [congruence|]. reflexivity. }
  eexists. split; [reflexivity|].
  set (g := fun rdm : (list R * list R) * list nat => let '((r, d), mrow) := rdm in
     mark mrow (peak_pixel (shifted sh r d) (mu0 pk) (mean_diff pots)) (id + 1)).
  assert (Lc : length (combine pots dists) = length pots) by (rewrite combine_length; lia).
  assert (Lg : length (map g (combine (combine pots dists) mask)) = length pots) by (rewrite map_length, combine_length; lia).
  assert (Q : forall i, (i < length pots)%nat -> nth i (map g (combine (combine pots dists) mask)) [] =
     mark (nth i mask []) (peak_pixel (shifted sh (nth i pots []) (nth i dists [])) (mu0 pk) (mean_diff pots)) (id + 1)).
  { intros i Hi. rewrite (nth_indep _ [] (g (([], []), []))) by lia.
    rewrite map_nth. rewrite nth_combine by lia. rewrite nth_combine by lia. reflexivity. }
  split; [|exact Q]. split; [lia|]. intros i. destruct (Nat.lt_ge_cases i (length pots)) as [H|H].
  - rewrite Q by auto. rewrite length_mark. apply Rm.
  - rewrite !nth_overflow by lia. reflexivity.
Qed.

(** ** The painting loop *)
(** painters: (sorted index, (peak, id)) *)
Definition painter := (nat * (peak * nat))%type.
Section Loop.
Variables (s : scan_sensor) (peaks : list peak) (pots dists : list (list R)).
Hypothesis Hd : same_rows pots dists.
Hypothesis Hne : forall r, In r pots -> r <> [].
Definition paints (x : painter) (i j : nat) : Prop :=
  peak_pixel (shifted (shift_of s peaks (fst x) (fst (snd x))) (nth i pots []) (nth i dists [])) (mu0 (fst (snd x))) (mean_diff pots) = Some j.
Definition painter_label (x : painter) : nat := (snd (snd x) + 1)%nat.
Definition step (m : list (list nat)) (x : painter) : result (list (list nat)) :=
  let '(idx, (pk, id)) := x in label_peak s peaks pots dists idx pk id m.

(** the last painter of a pixel determines it *)
Lemma loop_ok xs : (forall x, In x xs -> (fst x < length peaks)%nat) -> forall mask, same_rows pots mask ->
  exists mask', foldM step xs mask = Ok mask' /\ same_rows pots mask' /\
    forall i j, is_pixel pots i j ->
      (forall pre x post, xs = pre ++ x :: post -> paints x i j -> (forall y, In y post -> ~ paints y i j) ->
         at_ 0%nat mask' i j = painter_label x) /\
      ((forall x, In x xs -> ~ paints x i j) -> at_ 0%nat mask' i j = at_ 0%nat mask i j).
Proof.
  induction xs as [|x t IH]; intros Hx mask Hm.
  - exists mask. simpl. split; [reflexivity|]. split; [exact Hm|]. intros i j Hp. split; [|auto].
    intros pre x post E. destruct pre; discriminate.
  - destruct x as [idx [pk id]]. simpl.
    destruct (label_peak_ok s peaks pots dists idx pk id mask) as (m1 & E & S1 & Q); auto.
    { apply (Hx (idx, (pk, id))). left; auto. }
    rewrite E. destruct (IH (fun y Hy => Hx y (or_intror Hy)) m1 S1) as (m2 & E2 & S2 & Q2).
    exists m2. split; [exact E2|]. split; [exact S2|]. intros i j Hp.
    destruct (Q2 i j Hp) as [P1 P2]. destruct Hp as [Hi Hj].
    assert (Hj' : (j < length (nth i mask []))%nat) by (destruct Hm as [_ Hm]; rewrite <- Hm; exact Hj).
    split.
    + intros pre x post Epre Hpx Hpost. destruct pre as [|y pre].
      * simpl in Epre. injection Epre as Ex Ep. subst x post. rewrite P2 by exact Hpost. unfold at_. rewrite Q by auto.
        rewrite nth_mark by auto. unfold paints in Hpx. cbn [fst snd] in Hpx. rewrite Hpx. rewrite Nat.eqb_refl. reflexivity.
      * simpl in Epre. injection Epre as Ey Ep. apply (P1 pre x post); auto.
    + intros Hn. rewrite P2 by (intros y Hy; apply Hn; right; auto). unfold at_. rewrite Q by auto.
      rewrite nth_mark by auto. specialize (Hn (idx, (pk, id)) (or_introl eq_refl)). unfold paints in Hn. cbn [fst snd] in Hn.
      destruct (peak_pixel _ _ _) as [j'|]; [|reflexivity].
      destruct (Nat.eqb_spec j j') as [->|]; [congruence|reflexivity].
Qed.
Lemma paints_dec x i j : {paints x i j} + {~ paints x i j}.
Proof. unfold paints. destruct (peak_pixel _ _ _) as [k|]; [|right; discriminate].
  destruct (Nat.eq_dec k j) as [->|N]; [left; reflexivity|right; congruence]. Qed.
Lemma last_painter xs i j : (forall x, In x xs -> ~ paints x i j) \/
  exists pre x post, xs = pre ++ x :: post /\ paints x i j /\ forall y, In y post -> ~ paints y i j.
Proof.
  induction xs as [|x t IH]; [left; intros x []|].
  destruct IH as [IH|(pre & y & post & E & P & Q)].
  - destruct (paints_dec x i j) as [P|P].
    + right. exists [], x, t. repeat split; auto.
    + left. intros y [<-|Hy]; auto.
  - right. exists (x :: pre), y, post. rewrite E. repeat split; auto.
Qed.
End Loop.

(** ** Sorting *)
Lemma insert_perm x l : Permutation (x :: l) (insert_peak x l).
Proof.
  induction l as [|y t IH]; simpl; [apply Permutation_refl|]. destruct (Rleb _ _); [apply Permutation_refl|].
  rewrite <- IH. apply perm_swap.
Qed.
Lemma sort_perm ps : Permutation (combine ps (seq 0 (length ps))) (sort_peaks ps).
Proof.
  unfold sort_peaks. induction (combine ps (seq 0 (length ps))) as [|x t IH]; simpl; [constructor|].
  rewrite <- insert_perm. constructor. exact IH.
Qed.
Definition le_peak (x y : peak * nat) : Prop := mu0 (fst x) <= mu0 (fst y).
Lemma insert_sorted x l : StronglySorted le_peak l -> StronglySorted le_peak (insert_peak x l).
Proof.
  induction l as [|y t IH]; intros H; simpl; [constructor; constructor|].
  inversion H as [|? ? Ht Hf]; subst. destruct (Rleb_spec (mu0 (fst x)) (mu0 (fst y))) as [L|L].
  - constructor; [exact H|]. constructor; [exact L|]. eapply Forall_impl; [|exact Hf].
    intros z Hz. unfold le_peak in *. lra.
  - constructor; [apply IH, Ht|]. apply (Permutation_Forall (insert_perm x t)).
    constructor; [unfold le_peak; lra|exact Hf].
Qed.
Lemma sort_sorted ps : StronglySorted le_peak (sort_peaks ps).
Proof.
  unfold sort_peaks. induction (combine ps (seq 0 (length ps))) as [|x t IH]; simpl; [constructor|].
  apply insert_sorted, IH.
Qed.
Lemma length_sort ps : length (sort_peaks ps) = length ps.
Proof. rewrite <- (Permutation_length (sort_perm ps)), combine_length, seq_length. lia. Qed.
Lemma in_sort ps p id : In (p, id) (sort_peaks ps) <-> nth_error ps id = Some p.
Proof.
  rewrite <- (sort_perm ps).
  assert (G : forall k, In (p, (id + k)%nat) (combine ps (seq k (length ps))) <-> nth_error ps id = Some p).
  { revert id. induction ps as [|q t IH]; intros id k; simpl.
    - destruct id; split; [tauto|discriminate|tauto|discriminate].
    - destruct id as [|id]; simpl.
      + split.
        * intros [H|H]; [congruence|]. apply in_combine_r, in_seq in H. lia.
        * intros H. left. congruence.
      + rewrite <- (IH id (S k)). replace (id + S k)%nat with (S (id + k)) by lia. split.
        * intros [H|H]; [inversion H; lia|exact H].
        * intros H. right. exact H. }
  specialize (G 0%nat). rewrite Nat.add_0_r in G. exact G.
Qed.
Lemma sort_of_sorted ps : sorted_peaks ps -> sort_peaks ps = combine ps (seq 0 (length ps)).
Proof.
  intros H. unfold sort_peaks. generalize 0%nat. induction ps as [|p t IH]; intros k; simpl; [reflexivity|].
  rewrite IH. 2: { intros i j a b L Ha Hb. apply (H (S i) (S j)); auto. lia. }
  destruct t as [|q t]; simpl; [reflexivity|].
  assert (mu0 p < mu0 q) by (apply (H 0%nat 1%nat); auto). rewrite Rleb_true by lra. reflexivity.
Qed.

(** ** Rows of a scan *)
Lemma pot_rows_eq p : pot_rows p = map (fun i => map (pcell p i) (seq 0 (ncols p))) (seq 0 (nrows p)).
Proof. destruct p; reflexivity. Qed.
Lemma sensor_rows_eq p : map (map at_sensor) (pot_rows p) = map (sensor_row p) (seq 0 (nrows p)).
Proof. rewrite pot_rows_eq, map_map. apply map_ext. intros i. rewrite map_map. reflexivity. Qed.
Lemma length_sensor_row p i : length (sensor_row p i) = ncols p.
Proof. unfold sensor_row. rewrite map_length, seq_length. reflexivity. Qed.
Lemma nth_sensor_row p i j : (j < ncols p)%nat -> nth j (sensor_row p i) 0 = sensor_at p i j.
Proof. intros H. apply nth_map_seq, H. Qed.
Lemma nth_rows {A} (f : nat -> list A) n i : (i < n)%nat -> nth i (map f (seq 0 n)) [] = f i.
Proof. apply nth_map_seq. Qed.
Lemma same_rows_map {A B} (f : nat -> list A) (g : nat -> list B) n :
  (forall i, length (f i) = length (g i)) -> same_rows (map f (seq 0 n)) (map g (seq 0 n)).
Proof.
  intros H. split; [rewrite !map_length; reflexivity|]. intros i. destruct (Nat.lt_ge_cases i n) as [L|L].
  - rewrite !nth_rows by auto. apply H.
  - rewrite !nth_overflow by (rewrite map_length, seq_length; lia). reflexivity.
Qed.

Definition row_diffs (r : list R) : list R := map (fun ab => snd ab - fst ab) (combine r (tl r)).
Lemma row_diffs_sum r x : Rsum (row_diffs (x :: r)) = last (x :: r) 0 - x.
Proof.
  revert x. induction r as [|y t IH]; intros x; [unfold row_diffs; simpl; ring|].
  transitivity (y - x + Rsum (row_diffs (y :: t))); [reflexivity|]. rewrite IH. destruct t; simpl; ring.
Qed.
Lemma length_row_diffs r : length (row_diffs r) = (length r - 1)%nat.
Proof. unfold row_diffs. rewrite map_length, combine_length. destruct r as [|x t]; cbn [length tl]; lia. Qed.
Lemma last_nth {A} (l : list A) d : last l d = nth (length l - 1) l d.
Proof.
  induction l as [|x t IH]; [reflexivity|]. destruct t as [|y t]; [reflexivity|].
  change (last (x :: y :: t) d) with (last (y :: t) d). rewrite IH. simpl. rewrite Nat.sub_0_r. reflexivity.
Qed.
Lemma row_diffs_total r : Rsum (row_diffs r) = nth (length r - 1) r 0 - nth 0 r 0.
Proof.
  destruct r as [|x t]; [unfold row_diffs; simpl; ring|]. rewrite row_diffs_sum, last_nth. reflexivity.
Qed.
Lemma mean_diff_step p : pot_nonempty p -> mean_diff (map (sensor_row p) (seq 0 (nrows p))) = mean_step p.
Proof.
  intros Hp. unfold mean_diff, mean_step.
  assert (Hr : (0 < nrows p)%nat) by (destruct p; simpl in *; lia).
  set (diffs := flat_map (fun r => map (fun ab : R * R => snd ab - fst ab) (combine r (tl r))) (map (sensor_row p) (seq 0 (nrows p)))).
  assert (S : Rsum diffs = fold_right Rplus 0 (map (fun i => sensor_at p i (ncols p - 1) - sensor_at p i 0) (seq 0 (nrows p))) /\
              length diffs = (nrows p * (ncols p - 1))%nat).
  { assert (G : forall n k,
      Rsum (flat_map (fun r => map (fun ab : R * R => snd ab - fst ab) (combine r (tl r))) (map (sensor_row p) (seq k n)))
        = fold_right Rplus 0 (map (fun i => sensor_at p i (ncols p - 1) - sensor_at p i 0) (seq k n)) /\
      length (flat_map (fun r => map (fun ab : R * R => snd ab - fst ab) (combine r (tl r))) (map (sensor_row p) (seq k n)))
        = (n * (ncols p - 1))%nat).
    { induction n as [|n IH]; intros k; [simpl; split; reflexivity|].
      cbn [seq map flat_map fold_right]. rewrite Rsum_app, app_length. destruct (IH (S k)) as [I1 I2]. rewrite I1, I2.
      change (map (fun ab : R * R => snd ab - fst ab) (combine (sensor_row p k) (tl (sensor_row p k)))) with (row_diffs (sensor_row p k)).
      rewrite row_diffs_total, length_row_diffs, length_sensor_row. split; [|lia]. f_equal.
      assert (0 < ncols p)%nat by (destruct p; simpl in *; lia).
      rewrite !nth_sensor_row by lia. reflexivity. }
    exact (G (nrows p) 0%nat). }
  destruct S as [S L]. destruct (Nat.ltb_spec (ncols p) 2) as [H|H].
  - destruct diffs; [reflexivity|]. simpl in L. assert (ncols p - 1 = 0)%nat as E by lia. rewrite E in L. lia.
  - destruct diffs as [|d t] eqn:E.
    + simpl in L. nia.
    + rewrite <- E in *. rewrite S, L, mult_INR. reflexivity.
Qed.

(** ** Inversion of a successful call *)
Definition area_b (s : scan_sensor) (full : R) (q : three) : nat :=
  if Rltb (pinch_off (ss_barrier1 s)) (at_barrier1 q) && Rltb (pinch_off (ss_barrier2 s)) (at_barrier2 q)
  then if Rltb full (at_sensor q) then 2%nat else 1%nat else 0%nat.
Lemma area_b_spec s full q : area_of s full q (area_b s full q).
Proof.
  unfold area_of, is_open, area_b.
  destruct (Rltb_spec (pinch_off (ss_barrier1 s)) (at_barrier1 q)), (Rltb_spec (pinch_off (ss_barrier2 s)) (at_barrier2 q)); cbn [andb];
  destruct (Rltb_spec full (at_sensor q)); repeat split; intros; try reflexivity; try tauto; try lra.
Qed.
Definition painters (ps : list peak) : list painter := combine (seq 0 (length ps)) (sort_peaks ps).
Definition dist_table (s : scan_sensor) (h' : hidden) (p : potentials) (l1 l2 : R * R) : list (list R) :=
  if (length (ss_deform s) =? 0)%nat then map (map (fun _ => 0)) (pot_rows p)
  else match calc_point s h' (pinch_off (ss_barrier1 s)) (pinch_off (ss_barrier2 s)) true with
       | Ok mid => map (map (middle_dist s mid)) (volt_rows p l1 l2)
       | Err _ => []
       end.
(** potential above which the area is fully conductive: the g1 voltage is used for both gates *)
Definition full_potential (s : scan_sensor) (occ : R * R) (g1 : R) (pt : point) : R :=
  at_sensor (pixel_potential s occ (g1, g1) pt).
Definition label_hidden (occ : R * R) (g1 : R) (pt : point) : hidden :=
  mk_hidden (g1, g1) (g1, g1) (fst pt, fst pt) (snd pt, snd pt) (Occ1 (mk_arr1 1 (fun _ => occ))).
Definition coul_table (s : scan_sensor) (full : R) (p : potentials) (mask : list (list nat)) : list (list nat) :=
  map (fun rc => map (fun qc => if (area_b s full (fst qc) =? 1)%nat then snd qc else 0%nat) (combine (fst rc) (snd rc)))
      (combine (pot_rows p) mask).

Lemma calc_point_ok s h a b sw occ : first_occ (h_occ h) = Ok occ -> exists pt, calc_point s h a b sw = Ok pt.
Proof. intros H. unfold calc_point. rewrite H. cbn [bind]. destruct (Rltb _ _); eauto. Qed.

Lemma scan_point' s occ v (pt : point) : ~ swept v -> exists a,
  scan_potential s (Occ1 (mk_arr1 1 (fun _ => occ))) v v (VFix (fst pt)) (VFix (snd pt))
  = Ok (Pot1 a, label_hidden occ (fst (limits_of v)) pt) /\
  len1 a = 1%nat /\ cell1 a 0 = pixel_potential s occ (fst (limits_of v), fst (limits_of v)) pt.
Proof.
  intros Hv. destruct v as [|x|x y].
  - eexists. split; [reflexivity|]. split; [reflexivity|]. cbn [cell1]. unfold volts1.
    assert (G : forall v, grid (v, v) 1 0 = v) by (intros v; unfold grid; simpl; lra).
    cbn [len1 h_g1 h_g2 h_s1 h_s2 as_limits limits_of fst snd]. rewrite ?G. destruct pt; try reflexivity.
  - destruct (scan_point s occ x x pt) as (a & E & L & C). exists a. auto.
  - exfalso. apply Hv. exists x, y. reflexivity.
Qed.

Lemma labels_run s h v1 v2 w1 w2 p ps occ pt l1 l2 :
  ~ swept v1 -> ~ swept v2 -> w1 = VSweep (fst l1) (snd l1) -> w2 = VSweep (fst l2) (snd l2) ->
  first_occ (h_occ h) = Ok occ -> ss_peaks s = Some ps ->
  calc_point s h (fully_conductive (ss_barrier1 s)) (fully_conductive (ss_barrier2 s)) true = Ok pt ->
  let g1 := fst (limits_of v1) in
  let h' := label_hidden occ g1 pt in
  get_sensor_scan_labels s h v1 v2 w1 w2 p =
  let? mask := foldM (step s ps (map (sensor_row p) (seq 0 (nrows p))) (dist_table s h' p l1 l2))
                     (rev (painters ps)) (map (map (fun _ => 0%nat)) (pot_rows p)) in
  Ok (mk_labels (map (map (area_b s (full_potential s occ g1 pt))) (pot_rows p))
                (coul_table s (full_potential s occ g1 pt) p mask), h').
Proof.
  intros N1 N2 -> -> Ho Hps Hpt g1 h'. unfold get_sensor_scan_labels. rewrite Ho. cbn [bind].
  assert (F : float_or_none v1 && float_or_none v2 = true).
  { unfold float_or_none. apply andb_true_iff. rewrite !negb_true_iff. rewrite <- !is_sweep_spec in *.
    split; apply not_true_is_false; assumption. }
  rewrite F. cbn [negb raise_if]. rewrite Hpt. cbn [bind].
  destruct (scan_point' s occ v1 pt N1) as (a & E & L & C). rewrite E. cbn [bind fst snd subscript].
  fold g1. fold h'.
  assert (D : (if (length (ss_deform s) =? 0)%nat then Ok (map (map (fun _ => 0)) (pot_rows p))
      else let? mid := calc_point s h' (pinch_off (ss_barrier1 s)) (pinch_off (ss_barrier2 s)) true in
           Ok (map (map (middle_dist s mid)) (volt_rows p (fst l1, snd l1) (fst l2, snd l2)))) = Ok (dist_table s h' p l1 l2)).
  { unfold dist_table. destruct (length (ss_deform s) =? 0)%nat; [reflexivity|].
    destruct (calc_point_ok s h' (pinch_off (ss_barrier1 s)) (pinch_off (ss_barrier2 s)) true occ eq_refl) as (mid & Em).
    rewrite Em. cbn [bind]. destruct l1, l2. reflexivity. }
  rewrite D. cbn [bind]. rewrite Hps. rewrite sensor_rows_eq. rewrite C. fold g1.
  unfold painters. reflexivity.
Qed.

Lemma volt_rows_eq p l1 l2 : volt_rows p l1 l2 =
  map (fun i => map (fun j => match p with Pot1 a => volts1 l1 l2 (len1 a) j | Pot2 a => volts2 l1 l2 (rows a) (cols a) i j end)
                    (seq 0 (ncols p))) (seq 0 (nrows p)).
Proof. destruct p; reflexivity. Qed.
Lemma volt_rows_pix p l1 l2 : map (fun i => map (fun j => volt_pix p l1 l2 i j) (seq 0 (ncols p))) (seq 0 (nrows p)) = volt_rows p l1 l2.
Proof.
  rewrite volt_rows_eq. apply map_ext_in. intros i Hi. apply in_seq in Hi. apply map_ext_in. intros j Hj. apply in_seq in Hj.
  destruct p as [a|a]; simpl in *; unfold volts1, volts2; rewrite !grid_volt_at by lia; reflexivity.
Qed.
(** distance to the middle line at a pixel *)
Definition dist_at (s : scan_sensor) (h' : hidden) (p : potentials) (l1 l2 : R * R) (i j : nat) : R :=
  if (length (ss_deform s) =? 0)%nat then 0
  else match calc_point s h' (pinch_off (ss_barrier1 s)) (pinch_off (ss_barrier2 s)) true with
       | Ok mid => middle_dist s mid (volt_pix p l1 l2 i j)
       | Err _ => 0
       end.
Lemma dist_table_eq s h' p l1 l2 occ : first_occ (h_occ h') = Ok occ ->
  dist_table s h' p l1 l2 = map (fun i => map (dist_at s h' p l1 l2 i) (seq 0 (ncols p))) (seq 0 (nrows p)).
Proof.
  intros Ho. unfold dist_table, dist_at. destruct (length (ss_deform s) =? 0)%nat.
  - rewrite pot_rows_eq, map_map. apply map_ext. intros i. rewrite map_map. reflexivity.
  - destruct (calc_point_ok s h' (pinch_off (ss_barrier1 s)) (pinch_off (ss_barrier2 s)) true occ Ho) as (mid & Em).
    rewrite Em. rewrite <- volt_rows_pix, map_map. apply map_ext. intros i. rewrite map_map. reflexivity.
Qed.

(** the row in which a painter looks for its peak *)
Definition search_row (s : scan_sensor) (ps : list peak) (h' : hidden) (p : potentials) (l1 l2 : R * R) (x : painter) (i : nat) : list R :=
  map (fun j => sensor_at p i j + shift_of s ps (fst x) (fst (snd x)) (dist_at s h' p l1 l2 i j)) (seq 0 (ncols p)).
Lemma shifted_map f (u v : nat -> R) l : shifted f (map u l) (map v l) = map (fun j => u j + f (v j)) l.
Proof. unfold shifted. induction l; simpl; [reflexivity|]. rewrite IHl. reflexivity. Qed.

Definition wins (s : scan_sensor) (ps : list peak) (h' : hidden) (p : potentials) (l1 l2 : R * R) (i j : nat) (x : painter) : Prop :=
  exists pre post, painters ps = pre ++ x :: post /\
    marks (mean_step p) (search_row s ps h' p l1 l2 x i) (mu0 (fst (snd x))) j /\
    forall y, In y pre -> ~ marks (mean_step p) (search_row s ps h' p l1 l2 y i) (mu0 (fst (snd y))) j.

Lemma in_painters ps x : In x (painters ps) -> (fst x < length ps)%nat /\ nth_error ps (snd (snd x)) = Some (fst (snd x)).
Proof.
  destruct x as [idx [pk id]]. intros H. split.
  - apply in_combine_l, in_seq in H. simpl. lia.
  - apply in_combine_r in H. apply in_sort in H. exact H.
Qed.
Lemma nth_error_combine {A B} (l : list A) (l' : list B) : forall n a b,
  nth_error l n = Some a -> nth_error l' n = Some b -> nth_error (combine l l') n = Some (a, b).
Proof.
  revert l'. induction l as [|x t IH]; intros [|y t'] [|n] a b Ha Hb; simpl in *; try discriminate.
  - congruence.
  - apply IH; auto.
Qed.
Lemma painter_of ps k pk : nth_error ps k = Some pk -> exists idx, In (idx, (pk, k)) (painters ps).
Proof.
  intros H. apply in_sort in H. apply In_nth_error in H. destruct H as (n & Hn).
  exists n. unfold painters. apply (nth_error_In _ n). apply nth_error_combine; [|exact Hn].
  assert (L : (n < length ps)%nat) by (rewrite <- length_sort; apply nth_error_Some; congruence).
  rewrite nth_error_nth' with (d := 0%nat) by (rewrite seq_length; auto). rewrite seq_nth by auto. reflexivity.
Qed.

Section Main.
Variables (s : scan_sensor) (ps : list peak) (h' : hidden) (p : potentials) (l1 l2 occ : R * R).
Hypothesis Ho : first_occ (h_occ h') = Ok occ.
Hypothesis Hn : pot_nonempty p.
Let pots := map (sensor_row p) (seq 0 (nrows p)).
Let dists := dist_table s h' p l1 l2.

Lemma ncols_pos : (0 < ncols p)%nat.
Proof. destruct p; simpl in *; lia. Qed.
Lemma main_rows : same_rows pots dists.
Proof.
  unfold pots, dists. rewrite (dist_table_eq s h' p l1 l2 occ Ho). apply same_rows_map. intros i.
  rewrite length_sensor_row, map_length, seq_length. reflexivity.
Qed.
Lemma main_nonempty r : In r pots -> r <> [].
Proof.
  unfold pots. rewrite in_map_iff. intros (i & <- & _) E. apply (f_equal (@length R)) in E.
  rewrite length_sensor_row in E. simpl in E. pose proof ncols_pos. lia.
Qed.
Lemma paints_marks x i j : (i < nrows p)%nat ->
  (paints s ps pots dists x i j <-> marks (mean_step p) (search_row s ps h' p l1 l2 x i) (mu0 (fst (snd x))) j).
Proof.
  intros Hi. unfold paints. unfold pots at 2. rewrite mean_diff_step by exact Hn. unfold pots, dists.
  rewrite (dist_table_eq s h' p l1 l2 occ Ho). rewrite !nth_rows by auto. unfold sensor_row. rewrite shifted_map.
  fold (search_row s ps h' p l1 l2 x i). apply peak_pixel_marks.
  intros E. apply (f_equal (@length R)) in E. unfold search_row in E. rewrite map_length, seq_length in E. pose proof ncols_pos. simpl in E. lia.
Qed.
Lemma winner i j : (i < nrows p)%nat ->
  (exists x, wins s ps h' p l1 l2 i j x) \/
  (forall x, In x (painters ps) -> ~ marks (mean_step p) (search_row s ps h' p l1 l2 x i) (mu0 (fst (snd x))) j).
Proof.
  intros Hi. destruct (last_painter s ps pots dists (rev (painters ps)) i j) as [H|(pre & x & post & E & P & Q)].
  - right. intros x Hx. rewrite <- paints_marks by auto. apply H. apply in_rev in Hx. exact Hx.
  - left. exists x. exists (rev post), (rev pre). split; [|split].
    + rewrite <- (rev_involutive (painters ps)), E, rev_app_distr. simpl. rewrite <- app_assoc. reflexivity.
    + apply paints_marks; auto.
    + intros y Hy. rewrite <- paints_marks by auto. apply Q. apply in_rev. exact Hy.
Qed.
Lemma mask_ok : exists mask,
  foldM (step s ps pots dists) (rev (painters ps)) (map (map (fun _ => 0%nat)) (pot_rows p)) = Ok mask /\
  same_rows pots mask /\
  forall i j, (i < nrows p)%nat -> (j < ncols p)%nat ->
    (forall x, wins s ps h' p l1 l2 i j x -> at_ 0%nat mask i j = painter_label x) /\
    ((forall x, In x (painters ps) -> ~ marks (mean_step p) (search_row s ps h' p l1 l2 x i) (mu0 (fst (snd x))) j) ->
      at_ 0%nat mask i j = 0%nat).
Proof.
  assert (Z : map (map (fun _ : three => 0%nat)) (pot_rows p) = map (fun i => map (fun _ => 0%nat) (seq 0 (ncols p))) (seq 0 (nrows p))).
  { rewrite pot_rows_eq, map_map. apply map_ext. intros i. rewrite map_map. reflexivity. }
  destruct (loop_ok s ps pots dists main_rows main_nonempty (rev (painters ps))) with (mask := map (map (fun _ : three => 0%nat)) (pot_rows p))
    as (mask & E & S & Q).
  - intros x Hx. apply in_rev, in_painters in Hx. apply Hx.
  - rewrite Z. unfold pots. apply same_rows_map. intros i. rewrite length_sensor_row, map_length, seq_length. reflexivity.
  - exists mask. split; [exact E|]. split; [exact S|]. intros i j Hi Hj. destruct (Q i j) as [Q1 Q2].
    { unfold is_pixel, pots. rewrite map_length, seq_length, nth_rows, length_sensor_row by auto. auto. }
    split.
    + intros x (pre & post & Ep & M & B). apply (Q1 (rev post) x (rev pre)).
      * rewrite Ep, rev_app_distr. simpl. rewrite <- app_assoc. reflexivity.
      * apply paints_marks; auto.
      * intros y Hy. rewrite paints_marks by auto. apply B. apply in_rev. exact Hy.
    + intros H. rewrite Q2.
      * unfold at_. rewrite Z. rewrite nth_rows by auto. rewrite nth_map_seq by auto. reflexivity.
      * intros x Hx. rewrite paints_marks by auto. apply H. apply in_rev. exact Hx.
Qed.
End Main.

Lemma same_rows_pot p {B} (m : list (list B)) :
  same_rows (map (sensor_row p) (seq 0 (nrows p))) m <-> same_rows (pot_rows p) m.
Proof.
  rewrite <- sensor_rows_eq. unfold same_rows. rewrite map_length. split; intros [H1 H2]; split; auto; intros i; specialize (H2 i).
  - change (@nil R) with (map at_sensor []) in H2. rewrite map_nth, map_length in H2. exact H2.
  - change (@nil R) with (map at_sensor []). rewrite map_nth, map_length. exact H2.
Qed.
Lemma at_map {A B} (f : A -> B) d m i j : at_ (f d) (map (map f) m) i j = f (at_ d m i j).
Proof. unfold at_. change (@nil B) with (map f []). rewrite map_nth, map_nth. reflexivity. Qed.
Lemma at_coul s full p mask i j : same_rows (pot_rows p) mask -> (i < nrows p)%nat -> (j < ncols p)%nat ->
  at_ 0%nat (coul_table s full p mask) i j = if (area_b s full (pcell p i j) =? 1)%nat then at_ 0%nat mask i j else 0%nat.
Proof.
  intros [L R] Hi Hj. unfold at_, coul_table.
  assert (Lr : length (pot_rows p) = nrows p) by (rewrite pot_rows_eq, map_length, seq_length; reflexivity).
  set (g := fun rc : list three * list nat => map (fun qc : three * nat => if (area_b s full (fst qc) =? 1)%nat then snd qc else 0%nat) (combine (fst rc) (snd rc))).
  rewrite (nth_indep _ [] (g ([], []))) by (rewrite map_length, combine_length; lia).
  rewrite map_nth. rewrite nth_combine by exact L. unfold g. cbn [fst snd].
  specialize (R i). rewrite pot_rows_eq in R |- *. rewrite nth_rows in R |- * by auto.
  rewrite map_length, seq_length in R.
  set (k := fun qc : three * nat => if (area_b s full (fst qc) =? 1)%nat then snd qc else 0%nat).
  rewrite (nth_indep _ 0%nat (k (pcell p i 0%nat, 0%nat))) by (rewrite map_length, combine_length, map_length, seq_length; lia).
  rewrite map_nth. rewrite nth_combine by (rewrite map_length, seq_length; exact R).
  unfold k. cbn [fst snd]. rewrite nth_map_seq by auto. reflexivity.
Qed.

Lemma labels_inv s h v1 v2 w1 w2 p L h' : get_sensor_scan_labels s h v1 v2 w1 w2 p = Ok (L, h') ->
  ~ swept v1 /\ ~ swept v2 /\ exists l1 l2 occ ps pt, w1 = VSweep (fst l1) (snd l1) /\ w2 = VSweep (fst l2) (snd l2) /\
  first_occ (h_occ h) = Ok occ /\ ss_peaks s = Some ps /\
  calc_point s h (fully_conductive (ss_barrier1 s)) (fully_conductive (ss_barrier2 s)) true = Ok pt.
Proof.
  unfold get_sensor_scan_labels. destruct (first_occ (h_occ h)) as [occ|] eqn:Ho; [|discriminate]. cbn [bind].
  unfold raise_if. destruct (negb _) eqn:F; [discriminate|]. apply negb_false_iff in F. apply andb_true_iff in F.
  unfold float_or_none in F. rewrite !negb_true_iff in F. destruct F as [F1 F2].
  destruct (calc_point _ _ _ _ _) as [pt|] eqn:Ec; [|discriminate]. cbn [bind].
  destruct (scan_potential _ _ _ _ _ _) as [[pp hh]|]; [|discriminate]. cbn [bind fst snd].
  destruct pp as [a|a]; [|discriminate]. cbn [bind].
  destruct w1 as [|x|x y]; cbn [bind subscript]; try discriminate.
  destruct w2 as [|x'|x' y']; cbn [bind subscript]; try discriminate.
  intros H. split; [rewrite <- is_sweep_spec; congruence|]. split; [rewrite <- is_sweep_spec; congruence|].
  exists (x, y), (x', y'), occ. destruct (ss_peaks s) as [ps|] eqn:Ep.
  - exists ps, pt. auto.
  - exfalso. revert H. match goal with |- (let? _ := ?X in _) = _ -> _ => destruct X end; cbn [bind]; discriminate.
Qed.

Lemma labels_full s h v1 v2 w1 w2 p L h1 : pot_nonempty p ->
  get_sensor_scan_labels s h v1 v2 w1 w2 p = Ok (L, h1) ->
  exists l1 l2 occ ps pt,
  let g1 := fst (limits_of v1) in let full := full_potential s occ g1 pt in let h' := label_hidden occ g1 pt in
  w1 = VSweep (fst l1) (snd l1) /\ w2 = VSweep (fst l2) (snd l2) /\
  first_occ (h_occ h) = Ok occ /\ ss_peaks s = Some ps /\
  calc_point s h (fully_conductive (ss_barrier1 s)) (fully_conductive (ss_barrier2 s)) true = Ok pt /\ h1 = h' /\
  same_rows (pot_rows p) (conductive L) /\ same_rows (pot_rows p) (coulomb L) /\
  forall i j, (i < nrows p)%nat -> (j < ncols p)%nat ->
    at_ 0%nat (conductive L) i j = area_b s full (pcell p i j) /\
    (area_b s full (pcell p i j) <> 1%nat -> at_ 0%nat (coulomb L) i j = 0%nat) /\
    (area_b s full (pcell p i j) = 1%nat ->
      (forall x, wins s ps h' p l1 l2 i j x -> at_ 0%nat (coulomb L) i j = painter_label x) /\
      ((forall x, In x (painters ps) -> ~ marks (mean_step p) (search_row s ps h' p l1 l2 x i) (mu0 (fst (snd x))) j) ->
        at_ 0%nat (coulomb L) i j = 0%nat)).
Proof.
  intros Hn H. destruct (labels_inv _ _ _ _ _ _ _ _ _ H) as (N1 & N2 & l1 & l2 & occ & ps & pt & W1 & W2 & Ho & Hps & Hpt).
  exists l1, l2, occ, ps, pt. cbv zeta. repeat (split; [assumption|]).
  rewrite (labels_run s h v1 v2 w1 w2 p ps occ pt l1 l2) in H by auto. cbv zeta in H.
  set (g1 := fst (limits_of v1)) in *. set (full := full_potential s occ g1 pt) in *. set (h' := label_hidden occ g1 pt) in *.
  destruct (mask_ok s ps h' p l1 l2 occ eq_refl Hn) as (mask & E & S & Q). rewrite E in H. cbn [bind] in H.
  injection H as EL Eh. subst h1 L. cbn [conductive coulomb].
  apply same_rows_pot in S. split; [reflexivity|].
  assert (SC : same_rows (pot_rows p) (coul_table s full p mask)).
  { destruct S as [S1 S2]. unfold coul_table. split; [rewrite map_length, combine_length; lia|]. intros i.
    set (g := fun rc : list three * list nat => map (fun qc : three * nat => if (area_b s full (fst qc) =? 1)%nat then snd qc else 0%nat) (combine (fst rc) (snd rc))).
    change (@nil nat) with (g ([], [])). rewrite map_nth. rewrite nth_combine by exact S1. unfold g. cbn [fst snd].
    rewrite map_length, combine_length, <- S2. lia. }
  split; [|split; [exact SC|]].
  - split; [rewrite map_length; reflexivity|]. intros i. change (@nil nat) with (map (area_b s full) []).
    rewrite map_nth, map_length. reflexivity.
  - intros i j Hi Hj. split; [|split].
    + set (m := map (map (area_b s full)) (pot_rows p)).
      assert (X : at_ 0%nat m i j = at_ (area_b s full (pcell p i j)) m i j).
      { unfold at_. apply nth_indep. unfold m. change (@nil nat) with (map (area_b s full) []). rewrite map_nth, map_length.
        rewrite pot_rows_eq, nth_rows by auto. rewrite map_length, seq_length. exact Hj. }
      rewrite X. unfold m. rewrite at_map. unfold at_. rewrite pot_rows_eq, nth_rows by auto. rewrite nth_map_seq by auto. reflexivity.
    + intros A. rewrite at_coul by auto. apply Nat.eqb_neq in A. rewrite A. reflexivity.
    + intros A. rewrite at_coul by auto. rewrite A. cbn [Nat.eqb]. apply Q; auto.
Qed.
Lemma labels_total s h v1 v2 w1 w2 p ps occ : pot_nonempty p -> ~ swept v1 -> ~ swept v2 -> swept w1 -> swept w2 ->
  first_occ (h_occ h) = Ok occ -> ss_peaks s = Some ps ->
  exists L h', get_sensor_scan_labels s h v1 v2 w1 w2 p = Ok (L, h').
Proof.
  intros Hn N1 N2 (a & b & W1) (a' & b' & W2) Ho Hps.
  destruct (calc_point_ok s h (fully_conductive (ss_barrier1 s)) (fully_conductive (ss_barrier2 s)) true occ Ho) as (pt & Hpt).
  rewrite (labels_run s h v1 v2 w1 w2 p ps occ pt (a, b) (a', b')) by auto. cbv zeta.
  destruct (mask_ok s ps (label_hidden occ (fst (limits_of v1)) pt) p (a, b) (a', b') occ eq_refl Hn) as (mask & E & S & Q).
  rewrite E. cbn [bind]. eauto.
Qed.

Lemma wins_in s ps h' p l1 l2 i j x : wins s ps h' p l1 l2 i j x -> In x (painters ps).
Proof. intros (pre & post & E & _). rewrite E. apply in_elt. Qed.
Lemma painters_id_inj ps x y : In x (painters ps) -> In y (painters ps) -> snd (snd x) = snd (snd y) -> x = y.
Proof.
  intros Hx Hy E. apply In_nth_error in Hx, Hy. destruct Hx as (n & Hx), Hy as (m & Hy).
  assert (G : forall n x, nth_error (painters ps) n = Some x -> fst x = n /\ nth_error (sort_peaks ps) n = Some (snd x)).
  { clear. intros n x. unfold painters. rewrite <- (length_sort ps). generalize (sort_peaks ps) as l.
    assert (A : forall (l : list (peak * nat)) k n x, nth_error (combine (seq k (length l)) l) n = Some x -> fst x = (k + n)%nat /\ nth_error l n = Some (snd x)).
    { induction l as [|z t IH]; intros k [|m] y; simpl; try discriminate.
      - intros H. inversion H. split; [simpl; lia|reflexivity].
      - intros H. apply IH in H. destruct H as [H1 H2]. split; [lia|exact H2]. }
    intros l H. apply (A l 0%nat n x H). }
  apply G in Hx, Hy. destruct Hx as [Fx Nx], Hy as [Fy Ny].
  assert (ND : NoDup (map snd (sort_peaks ps))).
  { apply (Permutation_NoDup (l := map snd (combine ps (seq 0 (length ps))))).
    - apply Permutation_map, sort_perm.
    - assert (X : forall (l : list peak) k, map snd (combine l (seq k (length l))) = seq k (length l)).
      { induction l; intros k; simpl; [reflexivity|]. rewrite IHl. reflexivity. }
      rewrite X. apply seq_NoDup. }
  assert (n = m).
  { rewrite NoDup_nth_error in ND. apply ND.
    - rewrite map_length. apply nth_error_Some. congruence.
    - rewrite !nth_error_map, Nx, Ny. simpl. congruence. }
  subst m. destruct x, y. simpl in *. congruence.
Qed.
Lemma painters_sorted ps pre x post : painters ps = pre ++ x :: post ->
  (forall y, In y pre -> mu0 (fst (snd y)) <= mu0 (fst (snd x))) /\ (forall y, In y post -> mu0 (fst (snd x)) <= mu0 (fst (snd y))).
Proof.
  intros E. pose proof (sort_sorted ps) as S.
  assert (M : map snd (painters ps) = sort_peaks ps).
  { unfold painters. rewrite <- (length_sort ps). generalize 0%nat. induction (sort_peaks ps); intros k; simpl; [reflexivity|].
    rewrite IHl; [reflexivity|]. inversion S; auto. }
  rewrite <- M, E, map_app in S. cbn [map] in S. clear M E. split.
  - induction pre as [|z t IH]; intros y Hy; [destruct Hy|]. simpl in S. inversion S as [|? ? S' F]; subst.
    destruct Hy as [<-|Hy]; [|apply IH; auto]. rewrite Forall_forall in F. apply (F (snd x)). apply in_elt.
  - intros y Hy. induction pre as [|z t IH]; simpl in S; inversion S as [|? ? S' F]; subst.
    + rewrite Forall_forall in F. apply (F (snd y)). apply in_map. exact Hy.
    + apply IH; auto.
Qed.

(** ** Statements for the properties *)
Lemma has_shape_of p {A} (m : list (list A)) : same_rows (pot_rows p) m -> has_shape m p.
Proof.
  intros [H1 H2]. rewrite pot_rows_eq in *. rewrite map_length, seq_length in H1. split; [auto|].
  intros i Hi. rewrite <- H2, nth_rows by auto. rewrite map_length, seq_length. reflexivity.
Qed.
Lemma marks_shift st row m j : marks st row m j <-> marks st (map (fun x => x - m) row) 0 j.
Proof.
  assert (N : forall k, (k < length row)%nat -> nth k (map (fun x => x - m) row) 0 - 0 = nth k row 0 - m).
  { intros k Hk. rewrite (nth_indep _ 0 (0 - m)) by (rewrite map_length; auto).
    rewrite (map_nth (fun x => x - m)). lra. }
  assert (B : forall (P : nat -> Prop), (nearest row m j -> P j) -> True) by auto. clear B.
  unfold marks, nearest. rewrite map_length. split.
  - intros ((H1 & H2 & H3) & H4). split; [split; [auto|split]|].
    + intros k Hk. rewrite !N by auto. auto.
    + intros k Hk. rewrite !N by lia. auto.
    + rewrite N by auto. exact H4.
  - intros ((H1 & H2 & H3) & H4). split; [split; [auto|split]|].
    + intros k Hk. specialize (H2 k Hk). rewrite !N in H2 by auto. exact H2.
    + intros k Hk. specialize (H3 k Hk). rewrite !N in H3 by lia. exact H3.
    + rewrite N in H4 by auto. exact H4.
Qed.
Lemma marks_at_unique p pos i j j' : marks_at p pos i j -> marks_at p pos i j' -> j = j'.
Proof. apply marks_unique. Qed.
Definition search_pos (s : scan_sensor) (ps : list peak) (h' : hidden) (p : potentials) (l1 l2 : R * R) (x : painter) (i j : nat) : R :=
  mu0 (fst (snd x)) - shift_of s ps (fst x) (fst (snd x)) (dist_at s h' p l1 l2 i j).
Lemma search_marks s ps h' p l1 l2 x i j :
  marks (mean_step p) (search_row s ps h' p l1 l2 x i) (mu0 (fst (snd x))) j <->
  marks_at p (search_pos s ps h' p l1 l2 x i) i j.
Proof.
  rewrite marks_shift. unfold marks_at, search_row. rewrite map_map.
  replace (map (fun x0 => sensor_at p i x0 + shift_of s ps (fst x) (fst (snd x)) (dist_at s h' p l1 l2 i x0) - mu0 (fst (snd x))) (seq 0 (ncols p)))
    with (map (fun c => sensor_at p i c - search_pos s ps h' p l1 l2 x i c) (seq 0 (ncols p))); [reflexivity|].
  apply map_ext. intros c. unfold search_pos. lra.
Qed.

(** every label comes from a winning peak; conversely a marking peak puts a label *)
Lemma labels_sound s h v1 v2 w1 w2 p L h1 i j k : pot_nonempty p ->
  get_sensor_scan_labels s h v1 v2 w1 w2 p = Ok (L, h1) -> (i < nrows p)%nat -> (j < ncols p)%nat ->
  labelled L i j k ->
  exists l1 l2 ps x, ss_peaks s = Some ps /\ w1 = VSweep (fst l1) (snd l1) /\ w2 = VSweep (fst l2) (snd l2) /\
    wins s ps h1 p l1 l2 i j x /\ snd (snd x) = k /\ at_ 0%nat (conductive L) i j = 1%nat.
Proof.
  intros Hn H Hi Hj HL. destruct (labels_full _ _ _ _ _ _ _ _ _ Hn H) as (l1 & l2 & occ & ps & pt & W1 & W2 & Ho & Hps & Hpt & E1 & S1 & S2 & Q).
  destruct (Q i j Hi Hj) as (Q1 & Q2 & Q3). unfold labelled in HL.
  destruct (Nat.eq_dec (area_b s (full_potential s occ (fst (limits_of v1)) pt) (pcell p i j)) 1) as [E|E].
  - destruct (Q3 E) as [Q4 Q5]. subst h1.
    destruct (winner s ps (label_hidden occ (fst (limits_of v1)) pt) p l1 l2 occ eq_refl Hn i j Hi) as [(x & W)|W].
    + exists l1, l2, ps, x. repeat (split; [assumption|]). split; [|congruence].
      rewrite (Q4 x W) in HL. unfold painter_label in HL. lia.
    + rewrite (Q5 W) in HL. discriminate.
  - rewrite (Q2 E) in HL. discriminate.
Qed.

Lemma labels_masks s h v1 v2 w1 w2 p L h1 : pot_nonempty p ->
  get_sensor_scan_labels s h v1 v2 w1 w2 p = Ok (L, h1) ->
  has_shape (conductive L) p /\ has_shape (coulomb L) p /\
  (forall i j, (i < nrows p)%nat -> (j < ncols p)%nat ->
     (at_ 0%nat (conductive L) i j <= 2)%nat /\
     (at_ 0%nat (coulomb L) i j <> 0%nat -> at_ 0%nat (conductive L) i j = 1%nat)) /\
  (forall i j k, (i < nrows p)%nat -> (j < ncols p)%nat -> labelled L i j k ->
     exists ps pk, ss_peaks s = Some ps /\ nth_error ps k = Some pk) /\
  (forall i j j' k, (i < nrows p)%nat -> (j < ncols p)%nat -> (j' < ncols p)%nat ->
     labelled L i j k -> labelled L i j' k -> j = j').
Proof.
  intros Hn H. destruct (labels_full _ _ _ _ _ _ _ _ _ Hn H) as (l1 & l2 & occ & ps & pt & W1 & W2 & Ho & Hps & Hpt & E1 & S1 & S2 & Q).
  split; [apply has_shape_of, S1|]. split; [apply has_shape_of, S2|]. split; [|split].
  - intros i j Hi Hj. destruct (Q i j Hi Hj) as (Q1 & Q2 & Q3). rewrite Q1. split.
    + unfold area_b. destruct (_ && _); [|lia]. destruct (Rltb _ _); lia.
    + intros N. destruct (Nat.eq_dec (area_b s (full_potential s occ (fst (limits_of v1)) pt) (pcell p i j)) 1) as [E|E]; [exact E|].
      elim N. apply Q2, E.
  - intros i j k Hi Hj HL. destruct (labels_sound _ _ _ _ _ _ _ _ _ _ _ _ Hn H Hi Hj HL) as (m1 & m2 & qs & x & Hq & _ & _ & W & Ek & _).
    exists qs, (fst (snd x)). split; [exact Hq|]. rewrite <- Ek. apply in_painters. eapply wins_in; eauto.
  - intros i j j' k Hi Hj Hj' HL HL'.
    destruct (labels_sound _ _ _ _ _ _ _ _ _ _ _ _ Hn H Hi Hj HL) as (m1 & m2 & qs & x & Hq & V1 & V2 & W & Ek & _).
    destruct (labels_sound _ _ _ _ _ _ _ _ _ _ _ _ Hn H Hi Hj' HL') as (m1' & m2' & qs' & x' & Hq' & V1' & V2' & W' & Ek' & _).
    assert (qs' = qs) by congruence. subst qs'.
    assert (m1' = m1) by (rewrite V1 in V1'; injection V1' as A B; destruct m1, m1'; simpl in *; congruence). subst m1'.
    assert (m2' = m2) by (rewrite V2 in V2'; injection V2' as A B; destruct m2, m2'; simpl in *; congruence). subst m2'.
    assert (x' = x) by (apply (painters_id_inj qs); [eapply wins_in; eauto|eapply wins_in; eauto|congruence]). subst x'.
    destruct W as (? & ? & _ & M & _), W' as (? & ? & _ & M' & _). eapply marks_unique; eauto.
Qed.
(** conductive areas *)
Lemma labels_areas s h v1 v2 w1 w2 p L h1 : pot_nonempty p ->
  get_sensor_scan_labels s h v1 v2 w1 w2 p = Ok (L, h1) ->
  exists occ pt q, first_occ (h_occ h) = Ok occ /\
    calc_point s h (fully_conductive (ss_barrier1 s)) (fully_conductive (ss_barrier2 s)) true = Ok pt /\
    pot_spec s occ (fst (limits_of v1), fst (limits_of v1)) pt q /\
    forall i j, (i < nrows p)%nat -> (j < ncols p)%nat ->
      area_of s (at_sensor q) (pcell p i j) (at_ 0%nat (conductive L) i j).
Proof.
  intros Hn H. destruct (labels_full _ _ _ _ _ _ _ _ _ Hn H) as (l1 & l2 & occ & ps & pt & W1 & W2 & Ho & Hps & Hpt & E1 & S1 & S2 & Q).
  exists occ, pt, (pixel_potential s occ (fst (limits_of v1), fst (limits_of v1)) pt). split; [exact Ho|]. split; [exact Hpt|].
  split; [apply pixel_potential_spec|]. intros i j Hi Hj. destruct (Q i j Hi Hj) as (Q1 & _). rewrite Q1. apply area_b_spec.
Qed.

(** without deformations *)
Lemma shift_plain s ps idx pk d : deform_of (ss_deform s) idx = None -> shift_of s ps idx pk d = 0.
Proof. intros E. unfold shift_of. rewrite E. reflexivity. Qed.
Lemma search_plain s ps h' p l1 l2 x i j : ss_deform s = [] ->
  (marks (mean_step p) (search_row s ps h' p l1 l2 x i) (mu0 (fst (snd x))) j <->
   marks (mean_step p) (sensor_row p i) (mu0 (fst (snd x))) j).
Proof.
  intros E. unfold search_row, sensor_row.
  replace (map (fun j0 => sensor_at p i j0 + shift_of s ps (fst x) (fst (snd x)) (dist_at s h' p l1 l2 i j0)) (seq 0 (ncols p)))
    with (map (sensor_at p i) (seq 0 (ncols p))); [reflexivity|].
  apply map_ext. intros c. rewrite shift_plain; [lra|]. rewrite E. reflexivity.
Qed.
Lemma labels_plain s h v1 v2 w1 w2 p L h1 ps : pot_nonempty p -> ss_deform s = [] -> ss_peaks s = Some ps ->
  get_sensor_scan_labels s h v1 v2 w1 w2 p = Ok (L, h1) ->
  forall i j, (i < nrows p)%nat -> (j < ncols p)%nat ->
  (forall k, labelled L i j k -> exists pk, nth_error ps k = Some pk /\ marks (mean_step p) (sensor_row p i) (mu0 pk) j /\
     forall k' pk', nth_error ps k' = Some pk' -> marks (mean_step p) (sensor_row p i) (mu0 pk') j -> mu0 pk <= mu0 pk') /\
  (at_ 0%nat (conductive L) i j = 1%nat -> forall k pk, nth_error ps k = Some pk ->
     marks (mean_step p) (sensor_row p i) (mu0 pk) j -> exists k', labelled L i j k').
Proof.
  intros Hn Hd Hp H i j Hi Hj. split.
  - intros k HL. destruct (labels_sound _ _ _ _ _ _ _ _ _ _ _ _ Hn H Hi Hj HL) as (m1 & m2 & qs & x & Hq & _ & _ & W & Ek & _).
    assert (qs = ps) by congruence. subst qs. exists (fst (snd x)).
    pose proof (in_painters ps x (wins_in _ _ _ _ _ _ _ _ _ W)) as [_ I]. rewrite Ek in I. split; [exact I|].
    destruct W as (pre & post & E & M & B). split; [apply (search_plain s ps h1 p m1 m2); auto|].
    intros k' pk' Hk' M'. destruct (painter_of ps k' pk' Hk') as (idx & Hin). rewrite E in Hin.
    destruct (painters_sorted ps pre x post E) as [_ S2].
    apply in_app_or in Hin. destruct Hin as [Hin|[Hin|Hin]].
    + exfalso. apply (B _ Hin). apply search_plain; auto.
    + subst x. simpl. lra.
    + apply (S2 _ Hin).
  - intros A k pk Hk M.
    destruct (labels_full _ _ _ _ _ _ _ _ _ Hn H) as (l1 & l2 & occ & qs & pt & W1 & W2 & Ho & Hps & Hpt & E1 & S1 & S2 & Q).
    assert (qs = ps) by congruence. subst qs.
    destruct (Q i j Hi Hj) as (Q1 & Q2 & Q3). rewrite Q1 in A. destruct (Q3 A) as [Q4 _].
    destruct (winner s ps (label_hidden occ (fst (limits_of v1)) pt) p l1 l2 occ eq_refl Hn i j Hi) as [(x & W)|W].
    + exists (snd (snd x)). unfold labelled. rewrite (Q4 x W). unfold painter_label. lia.
    + exfalso. destruct (painter_of ps k pk Hk) as (idx & Hin). apply (W _ Hin). apply search_plain; auto.
Qed.
(** C31 *)
Lemma labels_order s h v1 v2 w1 w2 p L h1 ps i j j' k k' pk pk' : pot_nonempty p -> ss_deform s = [] -> ss_peaks s = Some ps ->
  get_sensor_scan_labels s h v1 v2 w1 w2 p = Ok (L, h1) ->
  (i < nrows p)%nat -> (j < ncols p)%nat -> (j' < ncols p)%nat ->
  labelled L i j k -> labelled L i j' k' -> nth_error ps k = Some pk -> nth_error ps k' = Some pk' ->
  j <> j' -> mu0 pk < mu0 pk' -> sensor_at p i j < sensor_at p i j'.
Proof.
  intros Hn Hd Hp H Hi Hj Hj' HL HL' Hk Hk' N Hlt.
  destruct (labels_plain s h v1 v2 w1 w2 p L h1 ps Hn Hd Hp H i j Hi Hj) as [A _].
  destruct (labels_plain s h v1 v2 w1 w2 p L h1 ps Hn Hd Hp H i j' Hi Hj') as [A' _].
  destruct (A k HL) as (q & Hq & [M _] & _). destruct (A' k' HL') as (q' & Hq' & [M' _] & _).
  assert (q = pk) by congruence. assert (q' = pk') by congruence. subst q q'.
  pose proof (nearest_order (sensor_row p i) (mu0 pk) (mu0 pk') j j' Hlt M M' N) as O.
  rewrite !nth_sensor_row in O by auto. exact O.
Qed.
Lemma labels_ascending s h v1 v2 w1 w2 p L h1 ps i j j' k k' : pot_nonempty p -> ss_deform s = [] -> ss_peaks s = Some ps ->
  sorted_peaks ps -> get_sensor_scan_labels s h v1 v2 w1 w2 p = Ok (L, h1) ->
  (i < nrows p)%nat -> (j < ncols p)%nat -> (j' < ncols p)%nat ->
  labelled L i j k -> labelled L i j' k' -> ((k < k')%nat <-> sensor_at p i j < sensor_at p i j').
Proof.
  intros Hn Hd Hp Hs H Hi Hj Hj' HL HL'.
  destruct (labels_plain s h v1 v2 w1 w2 p L h1 ps Hn Hd Hp H i j Hi Hj) as [A _].
  destruct (labels_plain s h v1 v2 w1 w2 p L h1 ps Hn Hd Hp H i j' Hi Hj') as [A' _].
  destruct (A k HL) as (q & Hq & _). destruct (A' k' HL') as (q' & Hq' & _).
  assert (F : forall a b c d m m', (a < b)%nat -> (c < ncols p)%nat -> (d < ncols p)%nat -> labelled L i c a -> labelled L i d b -> nth_error ps a = Some m -> nth_error ps b = Some m' ->
     sensor_at p i c < sensor_at p i d).
  { intros a b c d m m' Hab Hc Hd' La Lb Ea Eb. apply (labels_order s h v1 v2 w1 w2 p L h1 ps i c d a b m m'); auto.
    - intros ->. unfold labelled in *. lia.
    - apply (Hs a b m m' Hab Ea Eb). }
  split.
  - intros Hlt. apply (F k k' j j' q q'); auto.
  - intros Hlt. destruct (Nat.lt_trichotomy k k') as [Q|[Q|Q]]; [exact Q| |].
    + subst k'. exfalso. destruct (labels_masks _ _ _ _ _ _ _ _ _ Hn H) as (_ & _ & _ & _ & U).
      rewrite (U i j j' k Hi Hj Hj' HL HL') in Hlt. lra.
    + exfalso. pose proof (F k' k j' j q' q Q Hj' Hj HL' HL Hq' Hq). lra.
Qed.
(** with deformations and sorted peaks *)
Lemma painters_sorted_index ps x : sorted_peaks ps -> In x (painters ps) -> fst x = snd (snd x).
Proof.
  intros Hs. unfold painters. rewrite sort_of_sorted by exact Hs.
  assert (G : forall (l : list peak) k y, In y (combine (seq k (length l)) (combine l (seq k (length l)))) -> fst y = snd (snd y)).
  { induction l; intros k y; simpl; [tauto|]. intros [<-|H]; [reflexivity|]. eapply IHl; eauto. }
  apply G.
Qed.
Lemma middle_dist_spec s mid w : 0 < fst (row0 (ss_sensor s)) ->
  middle_dist s mid w = middle_distance (row0 (ss_sensor s)) mid w.
Proof.
  intros H. unfold middle_dist, middle_distance, signed_dist. destruct (row0 (ss_sensor s)) as [a b]. simpl fst in *. simpl snd in *.
  replace ((fst mid + 1 - fst mid) ^ 2 + (snd mid + b / a - snd mid) ^ 2) with ((a ^ 2 + b ^ 2) / (a * a)) by (field; lra).
  assert (0 < a * a) by nra. assert (0 < a ^ 2 + b ^ 2) by (simpl; nra).
  rewrite sqrt_div by lra. rewrite sqrt_square by lra.
  pose proof (sqrt_lt_R0 _ H1). field. lra.
Qed.
Lemma labels_deformed s h v1 v2 w1 w2 p L h1 ps : pot_nonempty p -> sorted_peaks ps -> ss_peaks s = Some ps ->
  0 < fst (row0 (ss_sensor s)) -> ss_deform s <> [] ->
  get_sensor_scan_labels s h v1 v2 w1 w2 p = Ok (L, h1) ->
  exists mid, calc_point s h1 (pinch_off (ss_barrier1 s)) (pinch_off (ss_barrier2 s)) true = Ok mid /\
  forall i j, (i < nrows p)%nat -> (j < ncols p)%nat ->
  let position k pk c := peak_position (deform_of (ss_deform s))
       (middle_distance (row0 (ss_sensor s)) mid (volt_pix p (limits_of w1) (limits_of w2) i c)) k pk in
  (forall k, labelled L i j k -> exists pk, nth_error ps k = Some pk /\ marks_at p (position k pk) i j /\
     forall k' pk', (k' < k)%nat -> nth_error ps k' = Some pk' -> ~ marks_at p (position k' pk') i j) /\
  (at_ 0%nat (conductive L) i j = 1%nat -> forall k pk, nth_error ps k = Some pk ->
     marks_at p (position k pk) i j -> exists k', labelled L i j k').
Proof.
  intros Hn Hs Hp Ha Hd H.
  destruct (labels_full _ _ _ _ _ _ _ _ _ Hn H) as (l1 & l2 & occ & qs & pt & W1 & W2 & Ho & Hps & Hpt & E1 & S1 & S2 & Q).
  assert (qs = ps) by congruence. subst qs.
  assert (O1 : first_occ (h_occ h1) = Ok occ) by (rewrite E1; reflexivity).
  destruct (calc_point_ok s h1 (pinch_off (ss_barrier1 s)) (pinch_off (ss_barrier2 s)) true occ O1) as (mid & Hm).
  exists mid. split; [exact Hm|]. intros i j Hi Hj position.
  assert (L1 : limits_of w1 = l1) by (rewrite W1; destruct l1; reflexivity).
  assert (L2 : limits_of w2 = l2) by (rewrite W2; destruct l2; reflexivity).
  assert (P : forall x c, In x (painters ps) -> search_pos s ps h1 p l1 l2 x i c = position (snd (snd x)) (fst (snd x)) c).
  { intros x c Hx. pose proof (in_painters ps x Hx) as [_ Ix]. unfold search_pos, position, peak_position, shift_of.
    rewrite (painters_sorted_index ps x Hs Hx). unfold dist_at.
    destruct (length (ss_deform s) =? 0)%nat eqn:E0.
    { apply Nat.eqb_eq, length_zero_iff_nil in E0. contradiction. }
    rewrite Hm. rewrite middle_dist_spec by exact Ha. rewrite L1, L2.
    destruct (deform_of (ss_deform s) (snd (snd x))); [|lra]. rewrite Ix. lra. }
  assert (M : forall x, In x (painters ps) -> (marks (mean_step p) (search_row s ps h1 p l1 l2 x i) (mu0 (fst (snd x))) j <->
      marks_at p (position (snd (snd x)) (fst (snd x))) i j)).
  { intros x Hx. rewrite search_marks. unfold marks_at.
    replace (map (fun c => sensor_at p i c - search_pos s ps h1 p l1 l2 x i c) (seq 0 (ncols p)))
      with (map (fun c => sensor_at p i c - position (snd (snd x)) (fst (snd x)) c) (seq 0 (ncols p))); [reflexivity|].
    apply map_ext. intros c. rewrite P by auto. reflexivity. }
  split.
  - intros k HL. destruct (labels_sound _ _ _ _ _ _ _ _ _ _ _ _ Hn H Hi Hj HL) as (m1 & m2 & qs & x & Hq & V1 & V2 & W & Ek & _).
    assert (qs = ps) by congruence. subst qs.
    assert (m1 = l1) by (rewrite W1 in V1; injection V1 as A B; destruct l1, m1; simpl in *; congruence). subst m1.
    assert (m2 = l2) by (rewrite W2 in V2; injection V2 as A B; destruct l2, m2; simpl in *; congruence). subst m2.
    pose proof (wins_in _ _ _ _ _ _ _ _ _ W) as Ix. pose proof (in_painters ps x Ix) as [_ I].
    exists (fst (snd x)). rewrite Ek in I. split; [exact I|].
    destruct W as (pre & post & E & Mx & B). split; [rewrite <- Ek; apply M; auto|].
    intros k' pk' Hlt Hk' M'. destruct (painter_of ps k' pk' Hk') as (idx & Hin). pose proof Hin as Hin'. rewrite E in Hin.
    destruct (painters_sorted ps pre x post E) as [_ S3].
    assert (LT : mu0 pk' < mu0 (fst (snd x))) by (apply (Hs k' k pk' (fst (snd x)) Hlt Hk' I)).
    apply in_app_or in Hin. destruct Hin as [Hin|[Hin|Hin]].
    + apply (B _ Hin). apply M; auto.
    + subst x. simpl in *. lra.
    + specialize (S3 _ Hin). simpl in S3. lra.
  - intros A k pk Hk Mk. destruct (Q i j Hi Hj) as (Q1 & Q2 & Q3). rewrite Q1 in A. destruct (Q3 A) as [Q4 _].
    destruct (winner s ps h1 p l1 l2 occ O1 Hn i j Hi) as [(x & W)|W].
    + exists (snd (snd x)). unfold labelled. rewrite E1 in W. rewrite (Q4 x W). unfold painter_label. lia.
    + exfalso. destruct (painter_of ps k pk Hk) as (idx & Hin). apply (W _ Hin). apply M; auto.
Qed.
