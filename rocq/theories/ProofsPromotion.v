(** Proofs about indices computed with uint8 numbers. *)
From Verif Require Import RPrelude Arr ModelJumps ModelPromotion.

Lemma shown_numpy1 j nj k : shown_index Numpy1 j nj k = Ok (j + k - nj).
Proof. unfold shown_index, int_minus, plus_int. cbn [bind]. f_equal. lia. Qed.
Lemma shown_numpy2_same j nj k : nj <= j -> j + k - nj < 256 -> j < 256 -> k < 256 -> shown_index Numpy2 j nj k = Ok (j + k - nj).
Proof.
  intros H1 H2 H3 H4. unfold shown_index, int_minus, plus_int, raise_if.
  rewrite (proj2 (Nat.leb_gt 256 j)) by lia. cbn [bind]. rewrite (proj2 (Nat.leb_gt 256 k)) by lia. cbn [bind].
  rewrite (Z.mod_small (Z.of_nat j - Z.of_nat nj)) by lia. rewrite Z.mod_small by lia. f_equal. lia.
Qed.
Lemma shown_numpy2_large j nj k : 256 <= j -> shown_index Numpy2 j nj k = Err OverflowError.
Proof. intros H. unfold shown_index, int_minus, raise_if. rewrite (proj2 (Nat.leb_le 256 j)) by lia. reflexivity. Qed.
Lemma shown_numpy2_wraps j nj k : j + k < nj -> nj < 256 -> shown_index Numpy2 j nj k = Ok (256 + (j + k) - nj).
Proof.
  intros H1 H2. unfold shown_index, int_minus, plus_int, raise_if.
  rewrite (proj2 (Nat.leb_gt 256 j)) by lia. cbn [bind]. rewrite (proj2 (Nat.leb_gt 256 k)) by lia. cbn [bind].
  rewrite Zplus_mod_idemp_l. rewrite <- (Z.mod_unique (Z.of_nat j - Z.of_nat nj + Z.of_nat k) 256 (-1) (256 + Z.of_nat j - Z.of_nat nj + Z.of_nat k)) by lia.
  f_equal. lia.
Qed.

Section ReadBack.
Context {A : Type}.
Lemma mapM_seq_ok (f : nat -> result A) (g : nat -> A) n : forall m, (forall i, m <= i < m + n -> f i = Ok (g i)) -> mapM f (seq m n) = Ok (map g (seq m n)).
Proof.
  induction n as [|n IH]; intros m H; [reflexivity|]. cbn [seq mapM map]. rewrite H by lia. cbn [bind]. rewrite IH; [reflexivity|]. intros i Hi. apply H. lia.
Qed.
Lemma mapM_seq_err (f : nat -> result A) (g : nat -> A) e n i : forall m, m <= i < m + n -> (forall j, m <= j < i -> f j = Ok (g j)) -> f i = Err e -> mapM f (seq m n) = Err e.
Proof.
  induction n as [|n IH]; intros m Hi H Hf; [lia|]. cbn [seq mapM]. destruct (Nat.eq_dec m i) as [->|Hne]; [rewrite Hf; reflexivity|].
  rewrite H by lia. cbn [bind]. rewrite (IH (S m)); [reflexivity|lia| |exact Hf]. intros j Hj. apply H. lia.
Qed.

Variable out : arr2 A.
Lemma read_plus i added : i < 256 -> int_plus Numpy2 i added = Ok ((Z.of_nat i + Z.of_nat added) mod 256)%Z.
Proof. intros H. unfold int_plus, raise_if. rewrite (proj2 (Nat.leb_gt 256 i)) by lia. reflexivity. Qed.
Lemma wrapped i added : Z.to_nat ((Z.of_nat i + Z.of_nat added) mod 256) = (i + added) mod 256.
Proof. rewrite <- Nat2Z.inj_add. change 256%Z with (Z.of_nat 256). rewrite <- Nat2Z.inj_mod, Nat2Z.id. reflexivity. Qed.

Lemma read_1_numpy1 n added : n <= rows out -> n + added <= cols out -> read_1 Numpy1 out n added = Ok (map (fun i => cell out i (i + added)) (seq 0 n)).
Proof.
  intros Hr Hc. apply mapM_seq_ok. intros i Hi. cbn [int_plus bind]. rewrite get2_ok by lia. f_equal. f_equal. lia.
Qed.
Lemma read_0_numpy1 n added : n <= cols out -> n + added <= rows out -> read_0 Numpy1 out n added = Ok (map (fun i => cell out (i + added) i) (seq 0 n)).
Proof.
  intros Hr Hc. apply mapM_seq_ok. intros i Hi. cbn [int_plus bind]. rewrite get2_ok by lia. f_equal. f_equal. lia.
Qed.
Lemma read_1_numpy2 n added : n <= rows out -> n + added <= cols out -> n <= 256 ->
  read_1 Numpy2 out n added = Ok (map (fun i => cell out i ((i + added) mod 256)) (seq 0 n)).
Proof.
  intros Hr Hc Hn. apply mapM_seq_ok. intros i Hi. rewrite read_plus by lia. cbn [bind]. rewrite wrapped.
  pose proof (Nat.mod_le (i + added) 256 ltac:(lia)). rewrite get2_ok by lia. reflexivity.
Qed.
Lemma read_0_numpy2 n added : n <= cols out -> n + added <= rows out -> n <= 256 ->
  read_0 Numpy2 out n added = Ok (map (fun i => cell out ((i + added) mod 256) i) (seq 0 n)).
Proof.
  intros Hr Hc Hn. apply mapM_seq_ok. intros i Hi. rewrite read_plus by lia. cbn [bind]. rewrite wrapped.
  pose proof (Nat.mod_le (i + added) 256 ltac:(lia)). rewrite get2_ok by lia. reflexivity.
Qed.
Lemma read_1_numpy2_large n added : n <= rows out -> n + added <= cols out -> 256 < n -> read_1 Numpy2 out n added = Err OverflowError.
Proof.
  intros Hr Hc Hn. apply (mapM_seq_err _ (fun i => cell out i ((i + added) mod 256)) _ n 256); [lia| |reflexivity].
  intros i Hi. rewrite read_plus by lia. cbn [bind]. rewrite wrapped. pose proof (Nat.mod_le (i + added) 256 ltac:(lia)). rewrite get2_ok by lia. reflexivity.
Qed.
Lemma read_0_numpy2_large n added : n <= cols out -> n + added <= rows out -> 256 < n -> read_0 Numpy2 out n added = Err OverflowError.
Proof.
  intros Hr Hc Hn. apply (mapM_seq_err _ (fun i => cell out ((i + added) mod 256) i) _ n 256); [lia| |reflexivity].
  intros i Hi. rewrite read_plus by lia. cbn [bind]. rewrite wrapped. pose proof (Nat.mod_le (i + added) 256 ltac:(lia)). rewrite get2_ok by lia. reflexivity.
Qed.
Lemma map_mod_same (f : nat -> nat -> A) n added : n + added <= 256 -> map (fun i => f i ((i + added) mod 256)) (seq 0 n) = map (fun i => f i (i + added)) (seq 0 n).
Proof. intros H. apply map_ext_in. intros i Hi. apply in_seq in Hi. rewrite Nat.mod_small by lia. reflexivity. Qed.

Lemma read_same n added : n + added <= 256 ->
  (n <= rows out -> n + added <= cols out -> read_1 Numpy2 out n added = read_1 Numpy1 out n added) /\
  (n <= cols out -> n + added <= rows out -> read_0 Numpy2 out n added = read_0 Numpy1 out n added).
Proof.
  intros H. split; intros Hr Hc.
  - rewrite read_1_numpy1, read_1_numpy2 by lia. f_equal. apply (map_mod_same (fun i k => cell out i k)). exact H.
  - rewrite read_0_numpy1, read_0_numpy2 by lia. f_equal. apply (map_mod_same (fun i k => cell out k i)). exact H.
Qed.
(** Pixels beyond 256 - added come from a column left of the diagonal. *)
Lemma read_wraps n added i : n <= rows out -> n + added <= cols out -> n <= 256 -> added < 256 -> i < n -> 256 <= i + added ->
  exists l, read_1 Numpy2 out n added = Ok l /\ nth_error l i = Some (cell out i (i + added - 256)) /\ i + added - 256 < i.
Proof.
  intros Hr Hc Hn Ha Hi Hw. eexists. split; [apply read_1_numpy2; lia|]. split; [|lia].
  rewrite nth_error_map, (nth_error_nth' _ 0) by (rewrite seq_length; exact Hi). rewrite seq_nth by lia. cbn [option_map Nat.add]. do 2 f_equal.
  symmetry. apply (Nat.mod_unique (i + added) 256 1 (i + added - 256)); lia.
Qed.
End ReadBack.
