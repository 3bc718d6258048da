(** Properties of the small numpy operations that statements of other properties mention (C140). *)
From Verif Require Import Prelude RPrelude Arr ModelSupport ModelCsd ModelJumps ModelDistortions ModelSensor
  ModelSimulation SpecCsd SpecDistortions SpecSensor ProofsHelpers.
From Coq Require Import Permutation.
Local Open Scope R_scope.

(** C140: the Euclidean norm of the lever arms *)
Theorem C140_norm a : 0 <= norm2 a /\ norm2 a * norm2 a = fst a * fst a + snd a * snd a.
Proof. exact (norm2_spec a). Qed.
Print Assumptions C140_norm.
Example C140_norm_345 : norm2 (3, 4) = 5.
Proof. unfold norm2. cbn [fst snd]. replace (3 ^ 2 + 4 ^ 2) with (5 * 5) by ring. apply sqrt_square. lra. Qed.

(** C140: the voltages of the pixels *)
Theorem C140_grid lims n : (2 <= n)%nat ->
  grid lims n 0 = fst lims /\ grid lims n (n - 1) = snd lims /\
  forall i, grid lims n (S i) - grid lims n i = (snd lims - fst lims) / (INR n - 1).
Proof. exact (grid_spec lims n). Qed.
Print Assumptions C140_grid.
Example C140_grid_middle : grid (1, 3) 3 1 = 2.
Proof. unfold grid. cbn. lra. Qed.

(** C140: the sampled abscissae of the transition lines: 4 (nx + ny) equidistant values, from one pixel
    below to one pixel above the extent of the window in the rotated frame *)
Theorem C140_samples xl yl nx ny rot i :
  fst xl <= snd xl -> fst yl <= snd yl -> (2 <= nx)%nat -> (i < 4 * (nx + ny))%nat ->
  nth_error (mask_samples xl yl nx ny rot) i =
  Some (cos rot * ((fst xl + snd xl) / 2) + sin rot * ((fst yl + snd yl) / 2) - rotated_extent xl yl rot / 2
        - spacing xl nx + INR i * sample_distance xl yl nx ny rot).
Proof. exact (samples_spec xl yl nx ny rot i). Qed.
Print Assumptions C140_samples.
Example C140_samples_unrotated : nth_error (mask_samples (0, 1) (5, 6) 2 2 0) 0 = Some (-1).
Proof.
  rewrite C140_samples by (cbn; lra || lia). unfold rotated_extent, spacing. rewrite cos_0, sin_0. cbn.
  rewrite Rabs_R1, Rabs_R0. f_equal. lra.
Qed.

(** C140: sorting the two limits of a window *)
Theorem C140_sort l : fst (np_sort l) <= snd (np_sort l) /\
  Permutation [fst (np_sort l); snd (np_sort l)] [fst l; snd l].
Proof. exact (np_sort_spec l). Qed.
Print Assumptions C140_sort.
Example C140_sort_two : np_sort (2, 1) = (1, 2).
Proof. unfold np_sort. cbn [fst snd]. destruct (Rleb_spec 2 1); [ lra | reflexivity ]. Qed.

(** C140: the largest jump position *)
Theorem C140_max l : (l = [] -> list_max l = 0%nat) /\
  (l <> [] -> In (list_max l) l) /\ (forall x, In x l -> (x <= list_max l)%nat).
Proof. exact (list_max_spec l). Qed.
Print Assumptions C140_max.
Example C140_max_three : list_max [3; 7; 5]%nat = 7%nat.
Proof. reflexivity. Qed.

(** C140: the first pixel of an array of occupations *)
Theorem C140_first_1d a v : first_occ (Occ1 a) = Ok v <-> (0 < len1 a)%nat /\ v = cell1 a 0.
Proof. exact (first_occ_1d a v). Qed.
Print Assumptions C140_first_1d.
Theorem C140_first_2d a v : first_occ (Occ2 a) = Ok v <-> (0 < rows a)%nat /\ (0 < cols a)%nat /\ v = cell a 0 0.
Proof. exact (first_occ_2d a v). Qed.
Print Assumptions C140_first_2d.
Example C140_first_some : first_occ (Occ1 (mk_arr1 2 (fun i => (INR i, 1)))) = Ok (0, 1).
Proof. reflexivity. Qed.

(** C140: the number of pixels of an image *)
Theorem C140_size im : shape_size (image_shape im) = length (pixels im).
Proof. exact (size_spec im). Qed.
Print Assumptions C140_size.
Example C140_size_six : shape_size (image_shape (Img2 (mk_arr2 2 3 (fun _ _ => 0)))) = 6%nat.
Proof. reflexivity. Qed.

(** C140: which resolutions ask for a two-dimensional scan *)
Theorem C140_two_dimensional r : ModelSimulation.is_2d r = true <-> exists a b, r = ResArray [a; b].
Proof. exact (is_2d_spec r). Qed.
Print Assumptions C140_two_dimensional.
Example C140_one_dimensional : ModelSimulation.is_2d (ResArray [100%Z]) = false.
Proof. reflexivity. Qed.
