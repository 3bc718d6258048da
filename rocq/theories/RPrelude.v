(** Real-number counterparts of numpy primitives.

    float64 is modelled by the reals of the Coq standard library; boolean comparisons are those of
    the total order (NaN and infinities do not exist here). *)
From Coq Require Export Reals Lra Psatz.
From Verif Require Export Prelude.
Local Open Scope R_scope.

Definition Rltb (x y : R) : bool := if Rlt_dec x y then true else false.
Definition Rleb (x y : R) : bool := if Rle_dec x y then true else false.
Definition Reqb (x y : R) : bool := if Req_EM_T x y then true else false.

Lemma Rltb_spec x y : reflect (x < y) (Rltb x y).
Proof. unfold Rltb; destruct (Rlt_dec x y); constructor; auto. Qed.
Lemma Rleb_spec x y : reflect (x <= y) (Rleb x y).
Proof. unfold Rleb; destruct (Rle_dec x y); constructor; auto. Qed.
Lemma Reqb_spec x y : reflect (x = y) (Reqb x y).
Proof. unfold Reqb; destruct (Req_EM_T x y); constructor; auto. Qed.

Lemma Rltb_true x y : x < y -> Rltb x y = true.
Proof. destruct (Rltb_spec x y); auto; lra. Qed.
Lemma Rltb_false x y : y <= x -> Rltb x y = false.
Proof. destruct (Rltb_spec x y); auto; lra. Qed.
Lemma Rleb_true x y : x <= y -> Rleb x y = true.
Proof. destruct (Rleb_spec x y); auto; lra. Qed.
Lemma Rleb_false x y : y < x -> Rleb x y = false.
Proof. destruct (Rleb_spec x y); auto; lra. Qed.
Lemma Reqb_true x y : x = y -> Reqb x y = true.
Proof. destruct (Reqb_spec x y); auto; lra. Qed.
Lemma Reqb_false x y : x <> y -> Reqb x y = false.
Proof. destruct (Reqb_spec x y); auto; lra. Qed.

(** [np.isclose(x, 0.0)] with default tolerances: |x - 0| <= 1e-8 + 1e-5*|0|. *)
Definition isclose0 (x : R) : bool := Rleb (Rabs x) (1 / 100000000).

(** [np.sum] of a list. *)
Fixpoint Rsum (l : list R) : R := match l with [] => 0 | x :: t => x + Rsum t end.

(** [np.linspace(a, b, num=n)]: start + arange(n) * ((b-a)/(n-1)); for n = 1 numpy returns [a]
    (here 0 * anything = 0). numpy overwrites the last entry by b, which is the same real. *)
Definition linspace (a b : R) (n : nat) : list R :=
  map (fun i => a + INR i * ((b - a) / INR (n - 1))) (seq 0 n).

Definition point := (R * R)%type.

Lemma Rsum_app l1 l2 : Rsum (l1 ++ l2) = Rsum l1 + Rsum l2.
Proof. induction l1 as [|x t IH]; simpl; lra. Qed.

Lemma length_linspace a b n : length (linspace a b n) = n.
Proof. unfold linspace; rewrite map_length, seq_length; reflexivity. Qed.

Lemma nth_error_linspace a b n i :
  (i < n)%nat -> nth_error (linspace a b n) i = Some (a + INR i * ((b - a) / INR (n - 1))).
Proof.
  intros H; unfold linspace; rewrite nth_error_map_seq.
  destruct (Nat.ltb_spec i n); [reflexivity|lia].
Qed.

Lemma sqr_pos x : x <> 0 -> 0 < x ^ 2.
Proof. intros H. pose proof (Rsqr_pos_lt x H) as P. unfold Rsqr in P. lra. Qed.

Lemma Rabs_le_inv x b : Rabs x <= b -> - b <= x <= b.
Proof. intros H. pose proof (Rle_abs x). pose proof (Rle_abs (- x)). rewrite Rabs_Ropp in *. lra. Qed.
