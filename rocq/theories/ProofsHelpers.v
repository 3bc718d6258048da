(** Proofs about the small array operations that the statements of other properties mention. *)
From Verif Require Import Prelude RPrelude Arr ModelSupport ModelCsd ModelJumps ModelDistortions ModelSensor
  ModelSimulation SpecCsd SpecDistortions SpecSensor ProofsDistortions.
From Coq Require Import Permutation.
Local Open Scope R_scope.

Lemma norm2_spec a : 0 <= norm2 a /\ norm2 a * norm2 a = fst a * fst a + snd a * snd a.
Proof.
  unfold norm2. split; [ apply sqrt_pos |].
  rewrite sqrt_def; [ ring |]. nra.
Qed.

Lemma grid_spec lims n : (2 <= n)%nat ->
  grid lims n 0 = fst lims /\ grid lims n (n - 1) = snd lims /\
  forall i, grid lims n (S i) - grid lims n i = (snd lims - fst lims) / (INR n - 1).
Proof.
  intros Hn. unfold grid.
  assert (Hn1 : INR (n - 1) = INR n - 1) by (rewrite minus_INR by lia; reflexivity).
  assert (Hp : 0 < INR (n - 1)) by (apply lt_0_INR; lia).
  repeat split.
  - change (INR 0) with 0. field. lra.
  - field. lra.
  - intros i. rewrite S_INR, <- Hn1. field. lra.
Qed.

Lemma np_sort_spec l : fst (np_sort l) <= snd (np_sort l) /\
  Permutation [fst (np_sort l); snd (np_sort l)] [fst l; snd l].
Proof.
  unfold np_sort. destruct (Rleb_spec (fst l) (snd l)); cbn [fst snd].
  - split; [ lra | reflexivity ].
  - split; [ lra | apply perm_swap ].
Qed.

Lemma list_max_spec l : (l = [] -> list_max l = 0%nat) /\
  (l <> [] -> In (list_max l) l) /\ (forall x, In x l -> (x <= list_max l)%nat).
Proof.
  split; [ intros ->; reflexivity |]. split.
  - induction l as [|a l IH]; [ congruence |]. intros _. cbn [list_max fold_right].
    destruct l as [|b l]; [ left; cbn; lia |].
    assert (Hin : In (list_max (b :: l)) (b :: l)) by (apply IH; congruence).
    unfold list_max in Hin. cbn [fold_right] in *.
    destruct (Nat.max_spec a (Nat.max b (fold_right Nat.max 0%nat l))) as [[_ ->] | [_ ->]].
    + right. exact Hin.
    + left; reflexivity.
  - induction l as [|a l IH]; intros x; [ intros [] |]. cbn [list_max fold_right].
    intros [-> | Hin]; [ lia |]. specialize (IH x Hin). unfold list_max in IH. lia.
Qed.

Lemma first_occ_1d a v : first_occ (Occ1 a) = Ok v <-> (0 < len1 a)%nat /\ v = cell1 a 0.
Proof.
  cbn [first_occ]. unfold get1. destruct (Nat.ltb_spec 0 (len1 a)); split; intros E.
  - inversion E; auto.
  - destruct E as [_ ->]; reflexivity.
  - discriminate.
  - lia.
Qed.

Lemma first_occ_2d a v : first_occ (Occ2 a) = Ok v <-> (0 < rows a)%nat /\ (0 < cols a)%nat /\ v = cell a 0 0.
Proof.
  cbn [first_occ]. unfold get2, in_shape. destruct (Nat.ltb_spec 0 (rows a)), (Nat.ltb_spec 0 (cols a)); cbn [andb]; split; intros E.
  all: try (inversion E; auto; fail).
  all: try (destruct E as (_ & _ & ->); reflexivity).
  all: try discriminate; try lia.
Qed.

Lemma size_spec im : shape_size (image_shape im) = length (pixels im).
Proof. symmetry. apply length_pixels. Qed.

Lemma is_2d_spec r : ModelSimulation.is_2d r = true <-> exists a b, r = ResArray [a; b].
Proof.
  destruct r as [n | [| a [| b [| c l]]]]; cbn [ModelSimulation.is_2d length Nat.eqb]; split;
    try discriminate; try (intros (x & y & E); discriminate); eauto.
Qed.

(** the sampled abscissae of the transition lines *)
Lemma samples_spec xl yl nx ny rot i : fst xl <= snd xl -> fst yl <= snd yl -> (2 <= nx)%nat -> (i < 4 * (nx + ny))%nat ->
  nth_error (mask_samples xl yl nx ny rot) i =
  Some (cos rot * ((fst xl + snd xl) / 2) + sin rot * ((fst yl + snd yl) / 2) - rotated_extent xl yl rot / 2
        - spacing xl nx + INR i * sample_distance xl yl nx ny rot).
Proof.
  intros Hx Hy Hn Hi. unfold mask_samples. rewrite nth_error_linspace by lia.
  assert (Es : pixel_step xl nx = spacing xl nx).
  { unfold pixel_step, spacing. rewrite minus_INR by lia. reflexivity. }
  rewrite Es. cbn [rotate_points map rotate_point fst snd hd fold_right]. rewrite cos_neg, sin_neg.
  unfold sample_distance, rotated_extent. generalize (spacing xl nx) as w. intros w.
  destruct xl as [a b], yl as [c d]. cbn [fst snd] in *.
  set (C := cos rot). set (S' := sin rot).
  assert (Elo : Rmin (C * a - - S' * c) (Rmin (C * a - - S' * d) (Rmin (C * b - - S' * c) (Rmin (C * b - - S' * d) (C * a - - S' * c))))
    = C * ((a + b) / 2) + S' * ((c + d) / 2) - (Rabs C * (b - a) + Rabs S' * (d - c)) / 2).
  { unfold Rmin, Rabs. destruct (Rcase_abs C), (Rcase_abs S'); repeat destruct (Rle_dec _ _); nra. }
  assert (Ehi : Rmax (C * a - - S' * c) (Rmax (C * a - - S' * d) (Rmax (C * b - - S' * c) (Rmax (C * b - - S' * d) (C * a - - S' * c))))
    = C * ((a + b) / 2) + S' * ((c + d) / 2) + (Rabs C * (b - a) + Rabs S' * (d - c)) / 2).
  { unfold Rmax, Rabs. destruct (Rcase_abs C), (Rcase_abs S'); repeat destruct (Rle_dec _ _); nra. }
  rewrite Elo, Ehi. f_equal. field_simplify_eq; [ ring |].
  apply not_0_INR. lia.
Qed.
