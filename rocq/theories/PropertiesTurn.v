(** Property theorems about turning the ideal charge stability diagram. *)
From Verif Require Import RPrelude Arr ModelSupport ModelTct ModelCsd SpecTct SpecCsd ProofsLabel ProofsTurn ExamplesCsd.
Local Open Scope R_scope.

(** C137: the rotation turns the diagram as a whole. A line scan, turned about the origin together with the
    configuration, returns the same occupations and labels, and the same exceptions; *)
Theorem C137_lines phi label params a1 b1 a2 b2 res rot lut kind gf : length (res_list res) = 1%nat ->
  ideal_csd_geometric label params [cos phi * a1 - sin phi * a2; cos phi * b1 - sin phi * b2]
    [sin phi * a1 + cos phi * a2; sin phi * b1 + cos phi * b2] res (rot + phi) lut kind gf
  = ideal_csd_geometric label params [a1; b1] [a2; b2] res rot lut kind gf.
Proof. exact (turned_line phi label params a1 b1 a2 b2 res rot lut kind gf). Qed.
Print Assumptions C137_lines.

(** the electron number is that of the turned point; *)
Theorem C137_electrons phi rot params lut v n :
  electrons params lut (rot + phi) (cos phi * fst v - sin phi * snd v, sin phi * fst v + cos phi * snd v) n <-> electrons params lut rot v n.
Proof. exact (turned_electrons phi rot params lut v n). Qed.
Print Assumptions C137_electrons.

(** pixels of arbitrary scans that are turned into each other have the same occupations if they have the same
    total occupation, *)
Theorem C137_pixels phi label params rot lut kind gf l1 l2 res d a1 b1 a2 b2 v o lab l1' l2' res' d' a1' b1' a2' b2' o' lab' :
  csd_config label params lut kind gf ->
  l1 = [a1; b1] -> l2 = [a2; b2] -> ideal_csd_geometric label params l1 l2 res rot lut kind gf = Ok d -> scan_pixel d (a1, b1) (a2, b2) v o lab ->
  l1' = [a1'; b1'] -> l2' = [a2'; b2'] -> ideal_csd_geometric label params l1' l2' res' (rot + phi) lut kind gf = Ok d' ->
  scan_pixel d' (a1', b1') (a2', b2') (cos phi * fst v - sin phi * snd v, sin phi * fst v + cos phi * snd v) o' lab' ->
  fst o + snd o = fst o' + snd o' -> o = o'.
Proof. exact (turned_pixels phi label params rot lut kind gf l1 l2 res d a1 b1 a2 b2 v o lab l1' l2' res' d' a1' b1' a2' b2' o' lab'). Qed.
Print Assumptions C137_pixels.

(** which is the case for unlabelled pixels of finely sampled images. *)
Theorem C137_images phi label params a1 b1 a2 b2 nx ny c1 e1 c2 e2 nx' ny' rot lut kind gf occ lead occ' lead' L eps v o o' :
  csd_config label params lut kind gf -> 0 <= eps -> Forall (bounded_tct L eps lut) params ->
  fine_sampling (np_sort (a1, b1)) (np_sort (a2, b2)) (Z.to_nat nx) (Z.to_nat ny) rot L eps ->
  fine_sampling (np_sort (c1, e1)) (np_sort (c2, e2)) (Z.to_nat nx') (Z.to_nat ny') (rot + phi) L eps ->
  ideal_csd_geometric label params [a1; b1] [a2; b2] (ResArray [nx; ny]) rot lut kind gf = Ok (Csd2 occ lead) ->
  ideal_csd_geometric label params [c1; e1] [c2; e2] (ResArray [nx'; ny']) (rot + phi) lut kind gf = Ok (Csd2 occ' lead') ->
  scan_pixel (Csd2 occ lead) (a1, b1) (a2, b2) v o 0%nat ->
  scan_pixel (Csd2 occ' lead') (c1, e1) (c2, e2) (cos phi * fst v - sin phi * snd v, sin phi * fst v + cos phi * snd v) o' 0%nat -> o = o'.
Proof. exact (turned_images phi label params a1 b1 a2 b2 nx ny c1 e1 c2 e2 nx' ny' rot lut kind gf occ lead occ' lead' L eps v o o'). Qed.
Print Assumptions C137_images.

(** A complete turn changes nothing, labels of 2D scans included. *)
Theorem C137_full_turn label params l1 l2 res rot lut kind gf :
  ideal_csd_geometric label params l1 l2 res (rot + 2 * PI) lut kind gf = ideal_csd_geometric label params l1 l2 res rot lut kind gf.
Proof. exact (full_turn label params l1 l2 res rot lut kind gf). Qed.
Print Assumptions C137_full_turn.

(** A quarter turn exchanges the gates of a line scan and the sign of one of them. *)
Example C137_example : exists l l',
  ideal_csd_geometric component_label (couple 0) [-1; -1] [-3/4; 3/4] (ResInt 2) (PI / 2) None Sigmoid None = Ok (Csd1 [(1, 0); (0, 1)] [l; l']).
Proof.
  destruct zero_swapped as (l & l' & E). exists l, l'. rewrite <- E.
  rewrite <- (C137_lines (PI / 2) component_label (couple 0) (-3/4) (3/4) 1 1) by reflexivity.
  rewrite cos_PI2, sin_PI2. replace (0 + PI / 2) with (PI / 2) by ring.
  replace (0 * (-3 / 4) - 1 * 1) with (-1) by ring. replace (0 * (3 / 4) - 1 * 1) with (-1) by ring.
  replace (1 * (-3 / 4) + 0 * 1) with (-3 / 4) by field. replace (1 * (3 / 4) + 0 * 1) with (3 / 4) by field. reflexivity.
Qed.
