(** Proofs about plots. *)
From Verif Require Import RPrelude Arr ModelPlot SpecPlot.
Local Open Scope R_scope.

Lemma ascending_desc l : descending l = true -> swap l = ascending l.
Proof.
  unfold descending, swap, ascending. destruct (Rltb_spec (snd l) (fst l)); [|discriminate]. intros _.
  rewrite Rmin_right, Rmax_left by lra. reflexivity.
Qed.
Lemma ascending_asc l : descending l = false -> l = ascending l.
Proof.
  unfold descending, ascending. destruct (Rltb_spec (snd l) (fst l)); [discriminate|]. intros _.
  rewrite Rmin_left, Rmax_right by lra. destruct l; reflexivity.
Qed.
(** flipping an axis *)
Lemma volt_flip n l i : (2 <= n)%nat -> (i < n)%nat -> volt_at n (swap l) (INR i) = volt_at n l (INR (n - 1 - i)).
Proof.
  intros Hn Hi. unfold volt_at, swap. cbn [fst snd]. rewrite minus_INR by lia. rewrite minus_INR by lia. simpl (INR 1).
  assert (2 <= INR n) by (apply (le_INR 2); exact Hn). field. lra.
Qed.
Lemma tick_true round3 n num l t : (2 <= n)%nat -> In t (ticks round3 n num l) -> true_tick round3 n l t.
Proof.
  intros Hn H. unfold ticks in H. apply In_nth_error in H. destruct H as [i Hi].
  assert (Li : (i < num)%nat).
  { assert (i < length (combine (linspace 0 (INR n - 1) num) (map round3 (linspace (fst l) (snd l) num))))%nat by (apply nth_error_Some; rewrite Hi; discriminate).
    rewrite combine_length, map_length, !length_linspace in H. lia. }
  destruct t as [p v]. assert (E : nth_error (linspace 0 (INR n - 1) num) i = Some p /\ nth_error (map round3 (linspace (fst l) (snd l) num)) i = Some v).
  { clear -Hi. revert Hi. generalize (linspace 0 (INR n - 1) num) (map round3 (linspace (fst l) (snd l) num)). revert i.
    induction i as [|i IH]; intros [|x xs] [|y ys] H; simpl in H; try discriminate.
    - injection H as <- <-. split; reflexivity.
    - exact (IH _ _ H). }
  destruct E as [Ep Ev]. rewrite nth_error_linspace in Ep by exact Li. injection Ep as <-.
  rewrite nth_error_map, nth_error_linspace in Ev by exact Li. injection Ev as <-.
  assert (N : 2 <= INR n) by (apply (le_INR 2); exact Hn).
  set (q := INR i * (/ INR (num - 1))).
  assert (Q : 0 <= q <= 1).
  { unfold q. destruct num as [|[|k]]; [lia| |].
    - assert (i = 0%nat) as -> by lia. simpl (INR 0). lra.
    - replace (S (S k) - 1)%nat with (S k) by lia. pose proof (pos_INR i). assert (0 < INR (S k)) by (apply lt_0_INR; lia).
      assert (INR i <= INR (S k)) by (apply le_INR; lia). split.
      + apply Rmult_le_pos; [lra|]. left. apply Rinv_0_lt_compat. lra.
      + apply Rmult_le_reg_r with (INR (S k)); [lra|]. rewrite Rmult_assoc, Rinv_l by lra. lra. }
  unfold true_tick. cbn [fst snd].
  replace (0 + INR i * ((INR n - 1 - 0) / INR (num - 1))) with (q * (INR n - 1)) by (unfold q, Rdiv; ring).
  replace (fst l + INR i * ((snd l - fst l) / INR (num - 1))) with (fst l + q * (snd l - fst l)) by (unfold q, Rdiv; ring).
  split; [nra|]. f_equal. unfold volt_at. field. lra.
Qed.

Section TwoD.
Context {A : Type}.
Variables (round3 : R -> R) (csd : arr2 A) (l1 l2 : R * R) (sort : bool) (nx ny : nat).
Let fig := plot_csd_2d round3 csd l1 l2 sort nx ny.
Lemma plot_2d_cases : exists fr fc, fig = mk_figure2 (fc (fr csd))
    (((Rmax (fst (axis sort l2)) (snd (axis sort l2)) - Rmin (fst (axis sort l2)) (snd (axis sort l2))) / INR (rows csd)) /
     ((Rmax (fst (axis sort l1)) (snd (axis sort l1)) - Rmin (fst (axis sort l1)) (snd (axis sort l1))) / INR (cols csd)))
    (ticks round3 (cols csd) nx (axis sort l1)) (ticks round3 (rows csd) ny (axis sort l2)) /\
  ((fr = (fun x => x) /\ axis sort l2 = l2) \/ (fr = flip_rows /\ axis sort l2 = swap l2)) /\
  ((fc = (fun x => x) /\ axis sort l1 = l1) \/ (fc = flip_cols /\ axis sort l1 = swap l1)).
Proof.
  unfold fig, plot_csd_2d, axis. destruct sort; cbn [andb].
  - destruct (descending l2) eqn:D2; destruct (descending l1) eqn:D1.
    + rewrite (ascending_desc _ D2), (ascending_desc _ D1). exists flip_rows, flip_cols. split; [reflexivity|]. split; right; split; reflexivity.
    + rewrite (ascending_desc _ D2), <- (ascending_asc _ D1). exists flip_rows, (fun x => x). split; [reflexivity|]. split; [right|left]; split; reflexivity.
    + rewrite <- (ascending_asc _ D2), (ascending_desc _ D1). exists (fun x => x), flip_cols. split; [reflexivity|]. split; [left|right]; split; reflexivity.
    + rewrite <- (ascending_asc _ D2), <- (ascending_asc _ D1). exists (fun x => x), (fun x => x). split; [reflexivity|]. split; left; split; reflexivity.
  - exists (fun x => x), (fun x => x). split; [reflexivity|]. split; left; split; reflexivity.
Qed.
Lemma plot_2d_shape : same_shape (f2_image fig) csd.
Proof. destruct plot_2d_cases as (fr & fc & -> & [[-> _]|[-> _]] & [[-> _]|[-> _]]); split; reflexivity. Qed.
Lemma plot_2d_pixel i j : (2 <= rows csd)%nat -> (2 <= cols csd)%nat -> (i < rows csd)%nat -> (j < cols csd)%nat ->
  exists i' j', (i' < rows csd)%nat /\ (j' < cols csd)%nat /\ cell (f2_image fig) i j = cell csd i' j' /\
  volt_at (rows csd) (axis sort l2) (INR i) = volt_at (rows csd) l2 (INR i') /\
  volt_at (cols csd) (axis sort l1) (INR j) = volt_at (cols csd) l1 (INR j').
Proof.
  intros Hr Hc Hi Hj. destruct plot_2d_cases as (fr & fc & -> & Er & Ec). cbn [f2_image].
  destruct Er as [[-> ->]|[-> ->]]; destruct Ec as [[-> ->]|[-> ->]].
  - exists i, j. auto.
  - exists i, (cols csd - 1 - j)%nat. repeat split; [lia|lia|apply volt_flip; assumption].
  - exists (rows csd - 1 - i)%nat, j. repeat split; [lia|lia|apply volt_flip; assumption].
  - exists (rows csd - 1 - i)%nat, (cols csd - 1 - j)%nat. repeat split; [lia|lia|apply volt_flip; assumption|apply volt_flip; assumption].
Qed.
Lemma plot_2d_ticks : (2 <= rows csd)%nat -> (2 <= cols csd)%nat ->
  Forall (true_tick round3 (cols csd) (axis sort l1)) (f2_xticks fig) /\ Forall (true_tick round3 (rows csd) (axis sort l2)) (f2_yticks fig).
Proof.
  intros Hr Hc. destruct plot_2d_cases as (fr & fc & -> & _ & _). cbn [f2_xticks f2_yticks].
  split; apply Forall_forall; intros t; apply tick_true; assumption.
Qed.
Lemma axis_extent (s : bool) l : Rmax (fst (axis s l)) (snd (axis s l)) - Rmin (fst (axis s l)) (snd (axis s l)) = Rabs (snd l - fst l).
Proof.
  unfold axis, ascending. destruct s; cbn [fst snd]; unfold Rmax, Rmin, Rabs; destruct (Rle_dec (fst l) (snd l)); destruct (Rcase_abs (snd l - fst l));
    repeat match goal with |- context [Rle_dec ?x ?y] => destruct (Rle_dec x y) end; lra.
Qed.
Lemma plot_2d_aspect w : (1 <= rows csd)%nat -> (1 <= cols csd)%nat -> fst l1 <> snd l1 ->
  (INR (rows csd) * (f2_aspect fig * w)) * Rabs (snd l1 - fst l1) = (INR (cols csd) * w) * Rabs (snd l2 - fst l2).
Proof.
  intros Hr Hc Hl. destruct plot_2d_cases as (fr & fc & -> & _ & _). cbn [f2_aspect]. rewrite !axis_extent.
  assert (1 <= INR (rows csd)) by (apply (le_INR 1); exact Hr). assert (1 <= INR (cols csd)) by (apply (le_INR 1); exact Hc).
  assert (0 < Rabs (snd l1 - fst l1)) by (apply Rabs_pos_lt; lra). field. lra.
Qed.
End TwoD.

Section OneD.
Context {A : Type}.
Variables (round3 : R -> R) (csd : arr1 A) (l1 l2 : R * R) (sort : bool) (nx : nat).
Let fig := plot_csd_1d round3 csd l1 l2 sort nx.
Definition swapped : bool := sort && descending l1.
Lemma plot_1d_point i : (2 <= len1 csd)%nat -> (i < len1 csd)%nat ->
  exists i' m2, (i' < len1 csd)%nat /\ m2 = (if swapped then swap l2 else l2) /\ cell1 (f1_line fig) i = cell1 csd i' /\
  volt_at (len1 csd) (axis sort l1) (INR i) = volt_at (len1 csd) l1 (INR i') /\
  volt_at (len1 csd) m2 (INR i) = volt_at (len1 csd) l2 (INR i').
Proof.
  intros Hn Hi. unfold fig, plot_csd_1d, swapped, axis. destruct sort; cbn [andb].
  - destruct (descending l1) eqn:D.
    + rewrite <- (ascending_desc _ D). exists (len1 csd - 1 - i)%nat, (swap l2).
      split; [lia|]. split; [reflexivity|]. split; [reflexivity|]. split; apply volt_flip; assumption.
    + rewrite <- (ascending_asc _ D). exists i, l2. auto.
  - exists i, l2. auto.
Qed.
Lemma combine_split {X Y} (xs : list X) (ys : list Y) i t : nth_error (combine xs ys) i = Some t ->
  nth_error xs i = Some (fst t) /\ nth_error ys i = Some (snd t).
Proof.
  revert xs ys. induction i as [|i IH]; intros [|x xs] [|y ys] H; simpl in H; try discriminate.
  - injection H as <-. split; reflexivity.
  - exact (IH _ _ H).
Qed.
Lemma combine_join {X Y} (xs : list X) (ys : list Y) i x y : nth_error xs i = Some x -> nth_error ys i = Some y ->
  nth_error (combine xs ys) i = Some (x, y).
Proof.
  revert xs ys. induction i as [|i IH]; intros [|a xs] [|b ys] H1 H2; simpl in *; try discriminate.
  - congruence.
  - exact (IH _ _ H1 H2).
Qed.
Lemma plot_1d_ticks t : (2 <= len1 csd)%nat -> In t (f1_xticks fig) ->
  true_tick round3 (len1 csd) (axis sort l1) (fst t, fst (snd t)) /\
  true_tick round3 (len1 csd) (if swapped then swap l2 else l2) (fst t, snd (snd t)).
Proof.
  intros Hn Ht.
  assert (E : exists m1 m2, m1 = axis sort l1 /\ m2 = (if swapped then swap l2 else l2) /\
    f1_xticks fig = combine (linspace 0 (INR (len1 csd) - 1) nx)
       (combine (map round3 (linspace (fst m1) (snd m1) nx)) (map round3 (linspace (fst m2) (snd m2) nx)))).
  { exists (axis sort l1), (if swapped then swap l2 else l2). split; [reflexivity|]. split; [reflexivity|].
    unfold fig, plot_csd_1d, swapped, axis. destruct sort; cbn [andb]; [|reflexivity].
    destruct (descending l1) eqn:D; [rewrite <- (ascending_desc _ D)|rewrite <- (ascending_asc _ D)]; reflexivity. }
  destruct E as (m1 & m2 & <- & <- & E). rewrite E in Ht. apply In_nth_error in Ht. destruct Ht as [i Hi].
  apply combine_split in Hi. destruct Hi as [Hp Hv]. apply combine_split in Hv. destruct Hv as [H1 H2].
  split; apply tick_true with (num := nx); try exact Hn; unfold ticks; eapply nth_error_In; apply combine_join; eassumption.
Qed.
End OneD.
