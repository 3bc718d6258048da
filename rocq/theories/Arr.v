(** numpy arrays as bounds-checked functions.

    An array carries its shape and a cell function; indexing outside the shape raises IndexError
    (only non-negative indices are modelled). Cells outside the shape are never observable. *)
From Verif Require Export Prelude.

Record arr1 (A : Type) := mk_arr1 { len1 : nat; cell1 : nat -> A }.
Arguments mk_arr1 {A}. Arguments len1 {A}. Arguments cell1 {A}.

Record arr2 (A : Type) := mk_arr2 { rows : nat; cols : nat; cell : nat -> nat -> A }.
Arguments mk_arr2 {A}. Arguments rows {A}. Arguments cols {A}. Arguments cell {A}.

Definition get1 {A} (a : arr1 A) (i : nat) : result A :=
  if i <? len1 a then Ok (cell1 a i) else Err IndexError.
Definition set1 {A} (a : arr1 A) (i : nat) (x : A) : result (arr1 A) :=
  if i <? len1 a
  then Ok (mk_arr1 (len1 a) (fun i' => if i' =? i then x else cell1 a i'))
  else Err IndexError.

Definition in_shape {A} (a : arr2 A) (i j : nat) : bool := (i <? rows a) && (j <? cols a).
Definition get2 {A} (a : arr2 A) (i j : nat) : result A :=
  if in_shape a i j then Ok (cell a i j) else Err IndexError.
Definition set2 {A} (a : arr2 A) (i j : nat) (x : A) : result (arr2 A) :=
  if in_shape a i j
  then Ok (mk_arr2 (rows a) (cols a)
             (fun i' j' => if (i' =? i) && (j' =? j) then x else cell a i' j'))
  else Err IndexError.

(** observable equality *)
Definition eq1 {A} (a b : arr1 A) : Prop :=
  len1 a = len1 b /\ forall i, i < len1 a -> cell1 a i = cell1 b i.
Definition eq2 {A} (a b : arr2 A) : Prop :=
  rows a = rows b /\ cols a = cols b /\
  forall i j, i < rows a -> j < cols a -> cell a i j = cell b i j.

Definition same_shape {A B} (a : arr2 A) (b : arr2 B) : Prop := rows a = rows b /\ cols a = cols b.

(** observation as lists, for running examples *)
Definition to_list1 {A} (a : arr1 A) : list A := map (cell1 a) (seq 0 (len1 a)).
Definition to_list2 {A} (a : arr2 A) : list (list A) :=
  map (fun i => map (cell a i) (seq 0 (cols a))) (seq 0 (rows a)).
Definition of_list1 {A} (d : A) (l : list A) : arr1 A := mk_arr1 (length l) (fun i => nth i l d).
Definition of_list2 {A} (d : A) (l : list (list A)) : arr2 A :=
  mk_arr2 (length l) (length (hd [] l)) (fun i j => nth j (nth i l []) d).

(** reversal along an axis: a[::-1], a[::-1, :], a[:, ::-1] *)
Definition flip1 {A} (a : arr1 A) : arr1 A :=
  mk_arr1 (len1 a) (fun i => cell1 a (len1 a - 1 - i)).
Definition flip_rows {A} (a : arr2 A) : arr2 A :=
  mk_arr2 (rows a) (cols a) (fun i j => cell a (rows a - 1 - i) j).
Definition flip_cols {A} (a : arr2 A) : arr2 A :=
  mk_arr2 (rows a) (cols a) (fun i j => cell a i (cols a - 1 - j)).

Definition amap1 {A B} (f : A -> B) (a : arr1 A) : arr1 B := mk_arr1 (len1 a) (fun i => f (cell1 a i)).
Definition amap2 {A B} (f : A -> B) (a : arr2 A) : arr2 B :=
  mk_arr2 (rows a) (cols a) (fun i j => f (cell a i j)).

Lemma eq1_refl {A} (a : arr1 A) : eq1 a a. Proof. split; auto. Qed.
Lemma eq1_sym {A} (a b : arr1 A) : eq1 a b -> eq1 b a.
Proof. intros [H1 H2]; split; auto. intros i Hi; symmetry; apply H2; lia. Qed.
Lemma eq1_trans {A} (a b c : arr1 A) : eq1 a b -> eq1 b c -> eq1 a c.
Proof.
  intros [H1 H2] [H3 H4]; split; [congruence|]. intros i Hi.
  rewrite H2 by auto. apply H4; congruence.
Qed.
Lemma eq2_refl {A} (a : arr2 A) : eq2 a a. Proof. repeat split; auto. Qed.
Lemma eq2_sym {A} (a b : arr2 A) : eq2 a b -> eq2 b a.
Proof. intros (H1 & H2 & H3); repeat split; auto. intros i j Hi Hj; symmetry; apply H3; lia. Qed.
Lemma eq2_trans {A} (a b c : arr2 A) : eq2 a b -> eq2 b c -> eq2 a c.
Proof.
  intros (H1 & H2 & H3) (H4 & H5 & H6); repeat split; try congruence. intros i j Hi Hj.
  rewrite H3 by auto. apply H6; congruence.
Qed.

Lemma eq1_to_list {A} (a b : arr1 A) : eq1 a b <-> to_list1 a = to_list1 b.
Proof.
  split.
  - intros [H1 H2]. unfold to_list1. rewrite <- H1. apply map_ext_in.
    intros i Hi. apply in_seq in Hi. apply H2; lia.
  - intros H. assert (L : len1 a = len1 b).
    { apply (f_equal (@length A)) in H. unfold to_list1 in H. rewrite !map_length, !seq_length in H. auto. }
    split; auto. intros i Hi.
    assert (E : nth_error (to_list1 a) i = nth_error (to_list1 b) i) by congruence.
    unfold to_list1 in E. rewrite !nth_error_map_seq in E.
    destruct (Nat.ltb_spec i (len1 a)); [|lia]. destruct (Nat.ltb_spec i (len1 b)); [|lia]. congruence.
Qed.

Lemma get2_ok {A} (a : arr2 A) i j : i < rows a -> j < cols a -> get2 a i j = Ok (cell a i j).
Proof.
  intros; unfold get2, in_shape.
  destruct (Nat.ltb_spec i (rows a)); [|lia]. destruct (Nat.ltb_spec j (cols a)); [|lia]. reflexivity.
Qed.
Lemma set2_ok {A} (a : arr2 A) i j x : i < rows a -> j < cols a ->
  set2 a i j x = Ok (mk_arr2 (rows a) (cols a) (fun i' j' => if (i' =? i) && (j' =? j) then x else cell a i' j')).
Proof.
  intros; unfold set2, in_shape.
  destruct (Nat.ltb_spec i (rows a)); [|lia]. destruct (Nat.ltb_spec j (cols a)); [|lia]. reflexivity.
Qed.
Lemma get1_ok {A} (a : arr1 A) i : i < len1 a -> get1 a i = Ok (cell1 a i).
Proof. intros; unfold get1. destruct (Nat.ltb_spec i (len1 a)); [reflexivity|lia]. Qed.

Lemma flip1_invol {A} (a : arr1 A) : eq1 (flip1 (flip1 a)) a.
Proof. split; auto; simpl. intros i Hi. f_equal. lia. Qed.
Lemma flip_rows_invol {A} (a : arr2 A) : eq2 (flip_rows (flip_rows a)) a.
Proof. repeat split; auto; simpl. intros i j Hi Hj. f_equal; lia. Qed.
Lemma flip_cols_invol {A} (a : arr2 A) : eq2 (flip_cols (flip_cols a)) a.
Proof. repeat split; auto; simpl. intros i j Hi Hj. f_equal; lia. Qed.
Lemma flip_rows_cols {A} (a : arr2 A) : eq2 (flip_rows (flip_cols a)) (flip_cols (flip_rows a)).
Proof. repeat split; auto. Qed.
