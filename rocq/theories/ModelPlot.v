(** Model of simcats/support_functions/_plotting.py: what is handed to matplotlib.

    Texts are modelled by the numbers they show: [round3] is rounding to three decimals (numpy's [round(3)]
    followed by the format "%.3f"). Titles, labels of the axes, the colour bar and saving are left out. *)
From Verif Require Import RPrelude Arr.
Local Open Scope R_scope.

Section Plot.
Context {A : Type}.
Variable round3 : R -> R.

(** Ticks: positions in pixels and shown numbers. *)
Record figure2 := mk_figure2 {
  f2_image : arr2 A;                 (* imshow, origin "lower": row 0 at the bottom *)
  f2_aspect : R;                     (* height of a pixel / width of a pixel *)
  f2_xticks : list (R * R);
  f2_yticks : list (R * R) }.
Record figure1 := mk_figure1 {
  f1_line : arr1 A;                  (* value i is drawn at x = i *)
  f1_xticks : list (R * (R * R)) }.  (* the shown numbers are those of both gates *)

Definition swap (l : R * R) : R * R := (snd l, fst l).
Definition descending (l : R * R) : bool := Rltb (snd l) (fst l).
Definition ticks (n num : nat) (l : R * R) : list (R * R) :=
  combine (linspace 0 (INR n - 1) num) (map round3 (linspace (fst l) (snd l) num)).

(** _plot_csd_2d, lines 113-136 *)
Definition plot_csd_2d (csd : arr2 A) (l1 l2 : R * R) (sort_volts : bool) (num_xticks num_yticks : nat) : figure2 :=
  let '(csd, l2) := if sort_volts && descending l2 then (flip_rows csd, swap l2) else (csd, l2) in
  let '(csd, l1) := if sort_volts && descending l1 then (flip_cols csd, swap l1) else (csd, l1) in
  let x_extent := Rmax (fst l1) (snd l1) - Rmin (fst l1) (snd l1) in
  let y_extent := Rmax (fst l2) (snd l2) - Rmin (fst l2) (snd l2) in
  mk_figure2 csd ((y_extent / INR (rows csd)) / (x_extent / INR (cols csd)))
    (ticks (cols csd) num_xticks l1) (ticks (rows csd) num_yticks l2).

(** _plot_csd_1d, lines 181-195; the ticks of the y-axis are left out. *)
Definition plot_csd_1d (csd : arr1 A) (l1 l2 : R * R) (sort_volts : bool) (num_xticks : nat) : figure1 :=
  let '(csd, l1, l2) := if sort_volts && descending l1 then (flip1 csd, swap l1, swap l2) else (csd, l1, l2) in
  mk_figure1 csd
    (combine (linspace 0 (INR (len1 csd) - 1) num_xticks)
       (combine (map round3 (linspace (fst l1) (snd l1) num_xticks)) (map round3 (linspace (fst l2) (snd l2) num_xticks)))).
End Plot.
