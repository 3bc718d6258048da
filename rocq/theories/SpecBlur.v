(** Blurring of lines of pixels. *)
From Verif Require Import RPrelude Arr ModelJumps ModelDistortions SpecDistortions.
Local Open Scope R_scope.

(** The values beyond the ends of a line: the line is reflected at both ends, again and again. *)
Definition even_extension (n : nat) (line : nat -> R) (e : Z -> R) : Prop :=
  (forall k, (k < n)%nat -> e (Z.of_nat k) = line k) /\ (forall j, e (-1 - j)%Z = e j) /\ (forall j, e (j + 2 * Z.of_nat n)%Z = e j).
(** Sum over the integers from -r to r. *)
Definition window_sum (r : nat) (f : Z -> R) : R := Rsum (map (fun k => f (Z.of_nat k - Z.of_nat r)%Z) (seq 0 (2 * r + 1))).

(** Relative weights *)
Definition fermi_weight (sigma x : R) : R := / (exp (x / sigma) + exp (- (x / sigma))) ^ 2.
Definition gauss_weight (sigma x : R) : R := exp (- (x / sigma) ^ 2 / 2).
(** The Fermi-Dirac distribution (rising) with thermal energy sigma / 2 *)
Definition fermi_dirac (sigma x : R) : R := / (1 + exp (- (2 * x / sigma))).

Definition rising (n : nat) (line : nat -> R) : Prop := forall i j, (i <= j < n)%nat -> line i <= line j.
Definition falling (n : nat) (line : nat -> R) : Prop := forall i j, (i <= j < n)%nat -> line j <= line i.
(** A transition between the pixels m and m + 1 *)
Definition step_line (m k : nat) : R := if (m <? k)%nat then 1 else 0.
(** All three numbers that are shown for a line of a scan: the occupation of either dot and the number of electrons *)
Definition shown (k : nat) (o : R * R) : R := match k with 0%nat => fst o | 1%nat => snd o | _ => fst o + snd o end.
