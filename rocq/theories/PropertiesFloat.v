(** Property theorems about occupations in double precision. *)
From Verif Require Import RPrelude Arr ModelSupport ModelTct ModelCsd ModelFloat SpecFloat ProofsFloat.
Local Open Scope R_scope.

(** C56: whatever the rounding errors of a number [a] between 0 and the integer [m], the rounded sum of [a]
    and its rounded complement is exactly [m]. *)
Theorem C56_complement_partial m a : (m <= 2 ^ 52)%Z -> double a -> 0 <= a <= IZR m -> fl (a + fl (IZR m - a)) = IZR m.
Proof. exact (complement_exact m a). Qed.
Print Assumptions C56_complement_partial.

(** Not for all integers below 2^53. *)
Theorem C56_large_refuted : exists m a, (m < 2 ^ 53)%Z /\ double a /\ 0 <= a <= IZR m /\ fl (a + fl (IZR m - a)) <> IZR m.
Proof. exact complement_fails. Qed.
Print Assumptions C56_large_refuted.

(** The values of both CDFs are numbers between 0 and 1 in spite of rounding, if tanh returns values
    between -1 and 1 and arctan values of at most half the constant for pi. *)
Theorem C56_sigmoid t : -1 <= t <= 1 -> unit_double (float_sigmoid t).
Proof. exact (sigmoid_unit t). Qed.
Print Assumptions C56_sigmoid.
Theorem C56_cauchy pi t : 1 <= pi <= 4 -> Rabs t <= pi / 2 -> unit_double (float_cauchy pi t).
Proof. exact (cauchy_unit pi t). Qed.
Print Assumptions C56_cauchy.

(** Hence the occupations of a pixel with n electrons lie between 0 and n and add up to n exactly. *)
Theorem C56_total values : Forall unit_double values -> (Z.of_nat (length values) <= 2 ^ 52)%Z ->
  let o := float_occupation values in
  0 <= fst o <= INR (length values) /\ 0 <= snd o <= INR (length values) /\ fl (fst o + snd o) = INR (length values).
Proof. exact (float_total values). Qed.
Print Assumptions C56_total.

(** The mask of a 1D scan labels a pixel if and only if a neighbour has fewer electrons, with its own number. *)
Theorem C56_mask pixels : Forall (fun values => Forall unit_double values /\ (length values < 256)%nat) pixels ->
  exists lead, float_lead_mask_1d (map float_occupation pixels) = Ok lead /\ length lead = length pixels /\
  forall i values l, nth_error pixels i = Some values -> nth_error lead i = Some l ->
    (l <> 0%nat <-> exists j values', (S j = i \/ S i = j) /\ nth_error pixels j = Some values' /\ (length values' < length values)%nat) /\
    (l <> 0%nat -> l = length values).
Proof. exact (float_mask pixels). Qed.
Print Assumptions C56_mask.

(** A pixel with two electrons; 1 / 3 is rounded. *)
Example C56_example : let o := float_occupation [fl (1/3); 1] in fl (fst o + snd o) = 2.
Proof.
  refine (proj2 (proj2 (C56_total [fl (1/3); 1] _ _))); [|simpl; lia].
  apply Forall_cons; [|apply Forall_cons; [|apply Forall_nil]].
  - split; [apply fl_double|apply fl_between; [exact double_0|exact double_1|lra]].
  - split; [exact double_1|lra].
Qed.
