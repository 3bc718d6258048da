(** Property theorems about pixel voltages and sampled parameters in double precision. *)
From Flocq Require Import Core.
From Verif Require Import RPrelude ModelFloat ModelFloatRange SpecFloatRange ProofsFloatRange.
Local Open Scope R_scope.

(** C107: rounding does not move a pixel voltage out of the requested range (of at most 2^50 pixels). *)
Theorem C107_in_range_partial a b n : double a -> double b -> (Z.of_nat n <= 2 ^ 50)%Z -> wide a b ->
  length (float_linspace a b n) = n /\ Forall (fun v => Rmin a b <= v <= Rmax a b) (float_linspace a b n).
Proof. intros Da Db Hn W. exact (conj (linspace_length a b n) (linspace_in_range a b n Da Db Hn W)). Qed.
Print Assumptions C107_in_range_partial.

(** The first and the last pixel are measured exactly at the requested voltages. *)
Theorem C107_ends a b n : double a -> (2 <= n)%nat ->
  nth_error (float_linspace a b n) 0 = Some a /\ nth_error (float_linspace a b n) (n - 1) = Some b.
Proof. intros Da Hn. exact (conj (linspace_first a b n Da (Nat.le_trans 1 2 n ltac:(lia) Hn)) (linspace_last a b n Hn)). Qed.
Print Assumptions C107_ends.

(** The voltages are sorted like the ends of the range. *)
Theorem C107_sorted_partial a b n i j vi vj : double a -> double b -> (Z.of_nat n <= 2 ^ 50)%Z -> wide a b -> (i <= j)%nat ->
  nth_error (float_linspace a b n) i = Some vi -> nth_error (float_linspace a b n) j = Some vj ->
  (a <= b -> vi <= vj) /\ (b <= a -> vj <= vi).
Proof. exact (linspace_monotone a b n i j vi vj). Qed.
Print Assumptions C107_sorted_partial.

(** They differ from the exact ones by at most 2^-49 of the larger end. *)
Theorem C107_error_partial a b n i v : double a -> double b -> (2 <= n)%nat -> (Z.of_nat n <= 2 ^ 50)%Z -> wide a b ->
  nth_error (float_linspace a b n) i = Some v -> Rabs (v - exact_voltage a b n i) <= pow2 (-49) * magnitude a b.
Proof. exact (linspace_error a b n i v). Qed.
Print Assumptions C107_error_partial.

(** Pixels that are more than 2^-48 of the larger end apart have different voltages. *)
Theorem C107_distinct_partial a b n i j vi vj : double a -> double b -> (2 <= n)%nat -> (Z.of_nat n <= 2 ^ 50)%Z -> wide a b ->
  pow2 (-48) * magnitude a b < (b - a) / INR (n - 1) -> (i < j)%nat ->
  nth_error (float_linspace a b n) i = Some vi -> nth_error (float_linspace a b n) j = Some vj -> vi < vj.
Proof. exact (linspace_distinct a b n i j vi vj). Qed.
Print Assumptions C107_distinct_partial.

(** Without [wide] a pixel can leave the range. *)
Theorem C107_in_range_refuted : exists a b n i v, double a /\ double b /\ a < b /\ nth_error (float_linspace a b n) i = Some v /\ b < v.
Proof.
  destruct subnormal_overshoot as [Db H]. exists 0, (3 * pow2 (-1074)), 6%nat, 4%nat, (4 * pow2 (-1074)).
  pose proof (bpow_gt_0 radix2 (-1074)). repeat split; [apply (ProofsFloat.double_int 0); lia|exact Db|lra|exact H|lra].
Qed.
Print Assumptions C107_in_range_refuted.

(** A sweep and the reversed sweep do not visit the same voltages: 0 V to 1 V with 4 pixels. *)
Theorem C107_reverse_refuted : rev (float_linspace 1 0 4) <> float_linspace 0 1 4.
Proof. intros E. apply reverse_differs. rewrite E. reflexivity. Qed.
Print Assumptions C107_reverse_refuted.

Example C107_example : Forall (fun v => 0 <= v <= 1) (float_linspace 0 1 4).
Proof.
  pose proof (C107_in_range_partial 0 1 4 (ProofsFloat.double_int 0 ltac:(lia)) (ProofsFloat.double_int 1 ltac:(lia)) ltac:(lia)) as H.
  rewrite Rmin_left, Rmax_right in H by lra. apply H. right. rewrite Rabs_pos_eq by lra.
  replace (1 - 0) with (pow2 0) by (simpl; ring). apply bpow_le. lia.
Qed.

(** C108: a uniformly drawn number is within its range in spite of rounding. *)
Theorem C108_uniform v low high : random_double v -> double low -> double high -> low <= high ->
  low <= float_uniform v low high <= high.
Proof. exact (uniform_between v low high). Qed.
Print Assumptions C108_uniform.

(** A narrowed range is within the total range up to 2^-51 of the larger end, and so are the samples. *)
Theorem C108_narrow_partial v1 v2 t0 t1 w : random_double v1 -> random_double v2 -> double t0 -> double t1 -> t0 <= t1 ->
  double w -> 0 <= w -> double (1/2 * w) ->
  let rg := float_narrow v1 (t0, t1) w in
  t0 - pow2 (-51) * magnitude t0 t1 <= fst rg <= snd rg /\ snd rg <= t1 + pow2 (-51) * magnitude t0 t1 /\
  fst rg <= float_sample v1 v2 (t0, t1) w <= snd rg.
Proof.
  intros H1 H2 D0 D1 H01 Dw Hw Dh rg. destruct (narrow_bounds v1 t0 t1 w H1 D0 D1 H01 Dw Hw Dh) as (A & B & C & E & F).
  fold rg in A, B, C, E, F. exact (conj (conj E C) (conj F (uniform_between v2 _ _ H2 A B C))).
Qed.
Print Assumptions C108_narrow_partial.

(** But not exactly: a parameter with a positive smallest value can become 0. *)
Theorem C108_narrow_refuted : exists v1 v2 t0 t1 w, random_double v1 /\ random_double v2 /\ double t0 /\ double t1 /\ double w /\ double (1/2 * w) /\
  0 < t0 < t1 /\ 0 < w < t1 - t0 /\ float_sample v1 v2 (t0, t1) w = 0.
Proof.
  destruct narrow_leaves as [D E]. exists 0, 0, (pow2 (-60)), 4, 2. pose proof (bpow_gt_0 radix2 (-60)) as P.
  assert (Q : pow2 (-60) < pow2 0) by (apply bpow_lt; lia). change (pow2 0) with 1 in Q.
  split; [exact random_0|]. split; [exact random_0|]. split; [exact D|]. split; [exact double_4|]. split; [exact double_2|].
  split; [replace (1/2 * 2) with 1 by field; exact double_1'|]. repeat split; [exact P|lra|lra|lra|exact E].
Qed.
Print Assumptions C108_narrow_refuted.

Example C108_example : 1 <= float_uniform (1/2) 1 2 <= 2.
Proof.
  apply C108_uniform; [exists (2 ^ 52)%Z; split; [lia|]|exact double_1'|exact double_2|lra].
  change (pow2 (-53)) with (/ 9007199254740992). change (2 ^ 52)%Z with 4503599627370496%Z. lra.
Qed.
