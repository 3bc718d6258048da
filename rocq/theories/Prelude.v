(** Shared vocabulary of the model: Python exceptions as values, list items, numpy helpers.

    Nothing in this file models a particular function of /repo; the definitions are the
    counterparts of Python / numpy primitives used by the modelled functions. *)
From Coq Require Export List Arith ZArith Lia Bool.
Export ListNotations.

(** Python exceptions raised by the modelled code. [OutOfFuel] is not a Python exception: it marks
    a run of a potentially unbounded loop that was cut off by the model; theorems never treat it as
    a normal result. *)
Inductive exn :=
| ValueError | TypeError | IndexError | KeyError | AttributeError | AssertionError
| ZeroDivisionError | OverflowError | UnboundLocalError | NotImplementedError | OutOfFuel.

Inductive result (A : Type) :=
| Ok (a : A)
| Err (e : exn).
Arguments Ok {A} a.
Arguments Err {A} e.

Definition bind {A B} (r : result A) (f : A -> result B) : result B :=
  match r with Ok a => f a | Err e => Err e end.
Notation "'let?' x ':=' r 'in' k" := (bind r (fun x => k))
  (at level 200, x pattern, r at level 100, k at level 200, right associativity).

(** [if c: raise e] followed by the rest of the function. *)
Definition raise_if {A} (c : bool) (e : exn) (k : result A) : result A :=
  if c then Err e else k.

(** [l[i]] for a non-negative index. *)
Definition get_item {A} (l : list A) (i : nat) : result A :=
  match nth_error l i with Some x => Ok x | None => Err IndexError end.

(** [l[i] = x]; [upd] leaves the list unchanged when the index is out of range. *)
Fixpoint upd {A} (l : list A) (i : nat) (x : A) : list A :=
  match l, i with
  | [], _ => []
  | _ :: t, O => x :: t
  | h :: t, S i' => h :: upd t i' x
  end.

Definition set_item {A} (l : list A) (i : nat) (x : A) : result (list A) :=
  if i <? length l then Ok (upd l i x) else Err IndexError.

(** a for loop over [xs] whose body may raise. *)
Fixpoint foldM {A S} (f : S -> A -> result S) (xs : list A) (s : S) : result S :=
  match xs with
  | [] => Ok s
  | x :: t => match f s x with Ok s' => foldM f t s' | Err e => Err e end
  end.

Fixpoint mapM {A B} (f : A -> result B) (xs : list A) : result (list B) :=
  match xs with
  | [] => Ok []
  | x :: t => match f x with
              | Ok y => match mapM f t with Ok ys => Ok (y :: ys) | Err e => Err e end
              | Err e => Err e
              end
  end.

Lemma length_upd {A} (l : list A) i x : length (upd l i x) = length l.
Proof. revert i; induction l as [|h t IH]; intros [|i]; simpl; auto. Qed.

Lemma nth_error_upd_eq {A} (l : list A) i x :
  i < length l -> nth_error (upd l i x) i = Some x.
Proof.
  revert i; induction l as [|h t IH]; intros [|i]; simpl; intros H; try lia; auto.
  apply IH; lia.
Qed.

Lemma nth_error_upd_neq {A} (l : list A) i j x :
  i <> j -> nth_error (upd l i x) j = nth_error l j.
Proof.
  revert i j; induction l as [|h t IH]; intros [|i] [|j] H; simpl; auto; try lia.
Qed.

Lemma nth_error_upd {A} (l : list A) i j x :
  nth_error (upd l i x) j =
  if andb (i =? j) (i <? length l) then Some x else nth_error l j.
Proof.
  destruct (Nat.eqb_spec i j) as [E|E]; simpl.
  - subst j. destruct (Nat.ltb_spec i (length l)) as [H|H].
    + apply nth_error_upd_eq; auto.
    + transitivity (@None A).
      * apply nth_error_None; rewrite length_upd; lia.
      * symmetry; apply nth_error_None; lia.
  - apply nth_error_upd_neq; auto.
Qed.

Lemma nth_error_ext {A} (l1 l2 : list A) :
  (forall i, nth_error l1 i = nth_error l2 i) -> l1 = l2.
Proof.
  revert l2; induction l1 as [|a l1 IH]; intros [|b l2] H; auto.
  - specialize (H 0); discriminate.
  - specialize (H 0); discriminate.
  - f_equal.
    + specialize (H 0); simpl in H; congruence.
    + apply IH; intros i; exact (H (S i)).
Qed.

Lemma nth_error_map_seq {A} (f : nat -> A) n i :
  nth_error (map f (seq 0 n)) i = if i <? n then Some (f i) else None.
Proof.
  destruct (Nat.ltb_spec i n) as [H|H].
  - erewrite map_nth_error; [reflexivity|].
    rewrite nth_error_nth' with (d := 0) by (rewrite seq_length; lia).
    rewrite seq_nth by lia; reflexivity.
  - apply nth_error_None; rewrite map_length, seq_length; lia.
Qed.

Lemma nth_error_rev {A} (l : list A) i :
  i < length l -> nth_error (rev l) i = nth_error l (length l - 1 - i).
Proof.
  intros H. destruct l as [|a l]; [simpl in H; lia|].
  rewrite (nth_error_nth' (rev (a :: l)) a) by (rewrite rev_length; lia).
  rewrite (nth_error_nth' (a :: l) a) by (simpl in *; lia).
  rewrite rev_nth by lia. f_equal. f_equal. simpl; lia.
Qed.

Lemma foldM_app {A S} (f : S -> A -> result S) xs ys s :
  foldM f (xs ++ ys) s = match foldM f xs s with Ok s' => foldM f ys s' | Err e => Err e end.
Proof.
  revert s; induction xs as [|x xs IH]; intros s; simpl; auto.
  destruct (f s x); auto.
Qed.
