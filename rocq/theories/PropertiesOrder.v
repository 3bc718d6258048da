(** Property theorems about the order of total charge transitions. *)
From Verif Require Import RPrelude Arr ModelSupport ModelTct ModelCsd SpecTct SpecCsd SpecOrder ModelDefault
  ProofsTct ProofsScan ProofsOrder ProofsCover ProofsDefault ExamplesOrder.
Local Open Scope R_scope.

(** C88: consecutive TCTs do not touch: if the upper one is at most as steep and its first and last
    interdot vectors rise by [delta], then it lies [delta] above the lower one everywhere, up to the
    error of the lookup tables. *)
Theorem C88_gap L eps lut p q n delta f g : 0 <= eps -> (1 <= n)%nat -> bounded_tct L eps lut p -> bounded_tct L eps lut q ->
  placed_above delta n p q -> is_tct p lut (Some n) f -> is_tct q lut (Some (S n)) g ->
  forall x, f x + delta - 2 * eps <= g x.
Proof. exact (tct_gap L eps lut p q n delta f g). Qed.
Print Assumptions C88_gap.

(** For parallel lines of equal lengths, the first interdot vector decides. *)
Theorem C88_parallel L eps lut p q n delta d f g : 0 <= eps -> (1 <= n)%nat -> bounded_tct L eps lut p -> bounded_tct L eps lut q ->
  same_lines p q -> interdot_vector p q 0 d -> rises delta p d -> is_tct p lut (Some n) f -> is_tct q lut (Some (S n)) g ->
  forall x, f x + delta - 2 * eps <= g x.
Proof. intros He Hn Bp Bq S V H. exact (tct_gap L eps lut p q n delta f g He Hn Bp Bq (parallel_above delta n p q d S V H)). Qed.
Print Assumptions C88_parallel.

(** Hence the TCTs can be counted: each point has passed exactly the first n TCTs for one n, which is its
    electron number unless it lies above the last one. *)
Theorem C88_counting params lut L eps delta rot v : 0 <= eps -> Forall (bounded_tct L eps lut) params -> stacked delta params ->
  2 * eps < delta ->
  exists n, passed params lut rot v n /\ (forall n', passed params lut rot v n' -> n' = n) /\
    (forall m, electrons params lut rot v m <-> m = n /\ (n < length params)%nat) /\
    (above_all params lut rot v <-> n = length params).
Proof. exact (counting params lut L eps delta rot v). Qed.
Print Assumptions C88_counting.

(** Steeper upper transitions cross the lower one although the interdot vectors rise. *)
Example C88_steeper : exists p q f g, bounded_tct 2 0 None p /\ bounded_tct 2 0 None q /\
  (exists d, interdot_vector p q 0 d /\ rises 1 p d) /\ is_tct p None (Some 1%nat) f /\ is_tct q None (Some 2%nat) g /\
  exists x, g x < f x.
Proof. exact steeper_crosses. Qed.

(** C89: the TCTs of the default configurations do not touch. *)
Theorem C89_stacked : Forall (bounded_tct 0.43 0.0000025 (Some 1000%nat)) default_tcts /\ stacked 0.0016 default_tcts.
Proof. split; [exact default_bounded|exact default_stacked]. Qed.
Print Assumptions C89_stacked.

Example C88_example p q f g x : nth_error default_tcts 4 = Some p -> nth_error default_tcts 5 = Some q ->
  is_tct p (Some 1000%nat) (Some 5%nat) f -> is_tct q (Some 1000%nat) (Some 6%nat) g -> f x < g x.
Proof.
  intros E1 E2 Hf Hg. destruct C89_stacked as [B S]. rewrite Forall_forall in B.
  pose proof (C88_gap 0.43 0.0000025 (Some 1000%nat) p q 5 0.0016 f g ltac:(lra) ltac:(lia) (B p (nth_error_In _ _ E1)) (B q (nth_error_In _ _ E2))
    (S 5%nat p q ltac:(lia) E1 E2) Hf Hg x). lra.
Qed.
