(** Property theorems about plots. *)
From Verif Require Import RPrelude Arr ModelPlot SpecPlot ProofsPlot.
Local Open Scope R_scope.

(** C109: a 2D plot shows at every position the value that was measured at the voltages of the position. *)
Theorem C109_pixels {A} round3 (csd : arr2 A) l1 l2 sort nx ny i j :
  (2 <= rows csd)%nat -> (2 <= cols csd)%nat -> (i < rows csd)%nat -> (j < cols csd)%nat ->
  let fig := plot_csd_2d round3 csd l1 l2 sort nx ny in
  same_shape (f2_image fig) csd /\
  exists i' j', (i' < rows csd)%nat /\ (j' < cols csd)%nat /\ cell (f2_image fig) i j = cell csd i' j' /\
  volt_at (rows csd) (axis sort l2) (INR i) = volt_at (rows csd) l2 (INR i') /\
  volt_at (cols csd) (axis sort l1) (INR j) = volt_at (cols csd) l1 (INR j').
Proof. intros Hr Hc Hi Hj. exact (conj (plot_2d_shape round3 csd l1 l2 sort nx ny) (plot_2d_pixel round3 csd l1 l2 sort nx ny i j Hr Hc Hi Hj)). Qed.
Print Assumptions C109_pixels.

(** The ticks show the voltages of their positions. *)
Theorem C109_ticks {A} round3 (csd : arr2 A) l1 l2 sort nx ny : (2 <= rows csd)%nat -> (2 <= cols csd)%nat ->
  let fig := plot_csd_2d round3 csd l1 l2 sort nx ny in
  Forall (true_tick round3 (cols csd) (axis sort l1)) (f2_xticks fig) /\ Forall (true_tick round3 (rows csd) (axis sort l2)) (f2_yticks fig).
Proof. exact (plot_2d_ticks round3 csd l1 l2 sort nx ny). Qed.
Print Assumptions C109_ticks.

(** The image is as high and as wide as the swept ranges: with pixels of width [w]. *)
Theorem C109_aspect {A} round3 (csd : arr2 A) l1 l2 sort nx ny w : (1 <= rows csd)%nat -> (1 <= cols csd)%nat -> fst l1 <> snd l1 ->
  let fig := plot_csd_2d round3 csd l1 l2 sort nx ny in
  (INR (rows csd) * (f2_aspect fig * w)) * Rabs (snd l1 - fst l1) = (INR (cols csd) * w) * Rabs (snd l2 - fst l2).
Proof. exact (plot_2d_aspect round3 csd l1 l2 sort nx ny w). Qed.
Print Assumptions C109_aspect.

(** C110: a 1D plot shows at every position the value that was measured at the voltages of the position; with
    [sort_volts] the voltages of gate 1 ascend, and gate 2 is turned together with gate 1. *)
Theorem C110_points {A} round3 (csd : arr1 A) l1 l2 sort nx i : (2 <= len1 csd)%nat -> (i < len1 csd)%nat ->
  let fig := plot_csd_1d round3 csd l1 l2 sort nx in
  exists i' m2, (i' < len1 csd)%nat /\ m2 = (if sort && Rltb (snd l1) (fst l1) then (snd l2, fst l2) else l2) /\
  cell1 (f1_line fig) i = cell1 csd i' /\
  volt_at (len1 csd) (axis sort l1) (INR i) = volt_at (len1 csd) l1 (INR i') /\
  volt_at (len1 csd) m2 (INR i) = volt_at (len1 csd) l2 (INR i').
Proof. exact (plot_1d_point round3 csd l1 l2 sort nx i). Qed.
Print Assumptions C110_points.

Theorem C110_ticks {A} round3 (csd : arr1 A) l1 l2 sort nx t : (2 <= len1 csd)%nat -> In t (f1_xticks (plot_csd_1d round3 csd l1 l2 sort nx)) ->
  true_tick round3 (len1 csd) (axis sort l1) (fst t, fst (snd t)) /\
  true_tick round3 (len1 csd) (if sort && Rltb (snd l1) (fst l1) then (snd l2, fst l2) else l2) (fst t, snd (snd t)).
Proof. exact (plot_1d_ticks round3 csd l1 l2 sort nx t). Qed.
Print Assumptions C110_ticks.

(** A sweep of both gates in opposite directions. *)
Example C110_example : cell1 (f1_line (plot_csd_1d (fun v => v) (mk_arr1 3 (fun i => i)) (1, 0) (0, 1) true 5)) 0 = 2%nat.
Proof. unfold plot_csd_1d, descending. cbn [fst snd andb]. rewrite Rltb_true by lra. reflexivity. Qed.
Example C109_example : f2_xticks (plot_csd_2d (fun v => v) (mk_arr2 3 5 (fun i j => i)) (2, 0) (0, 1) true 3 3) = [(0, 0); (2, 1); (4, 2)].
Proof.
  unfold plot_csd_2d, descending. cbn [fst snd andb]. rewrite Rltb_false by lra. rewrite Rltb_true by lra.
  cbn [f2_xticks cols flip_cols swap fst snd]. unfold ticks, linspace, swap. cbn [fst snd seq map combine].
  simpl (INR 0). simpl (INR 1). replace (INR 2) with 2 by (simpl; ring). replace (INR 5) with 5 by (simpl; ring).
  replace (INR (3 - 1)) with 2 by (simpl; ring). repeat f_equal; field.
Qed.
