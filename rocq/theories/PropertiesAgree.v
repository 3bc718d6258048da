(** Properties of several scans of one configuration. *)
From Verif Require Import RPrelude Arr ModelSupport ModelTct ModelCsd SpecTct SpecCsd ProofsLabel ExamplesCsd ProofsAgree.
Local Open Scope R_scope.

(** C98: 1D scans give the same occupations wherever they meet, whatever their ranges, directions and
    resolutions are. *)
Theorem C98_lines_agree label params a1 b1 a2 b2 res c1 e1 c2 e2 res' rot lut kind gf d d' v o o' lab lab' :
  proper_tcts params lut -> kind <> UnknownCdf -> length (res_list res) = 1%nat -> length (res_list res') = 1%nat ->
  ideal_csd_geometric label params [a1; b1] [a2; b2] res rot lut kind gf = Ok d ->
  ideal_csd_geometric label params [c1; e1] [c2; e2] res' rot lut kind gf = Ok d' ->
  scan_pixel d (a1, b1) (a2, b2) v o lab -> scan_pixel d' (c1, e1) (c2, e2) v o' lab' -> o = o'.
Proof. exact (lines_agree label params a1 b1 a2 b2 res c1 e1 c2 e2 res' rot lut kind gf d d' v o o' lab lab'). Qed.
Print Assumptions C98_lines_agree.
(** Finely sampled 2D scans do so in pixels without a label. *)
Theorem C98_images_agree label params a1 b1 a2 b2 nx ny c1 e1 c2 e2 nx' ny' rot lut kind gf occ lead occ' lead' L eps v o o' :
  csd_config label params lut kind gf -> 0 <= eps -> Forall (bounded_tct L eps lut) params ->
  fine_sampling (np_sort (a1, b1)) (np_sort (a2, b2)) (Z.to_nat nx) (Z.to_nat ny) rot L eps ->
  fine_sampling (np_sort (c1, e1)) (np_sort (c2, e2)) (Z.to_nat nx') (Z.to_nat ny') rot L eps ->
  ideal_csd_geometric label params [a1; b1] [a2; b2] (ResArray [nx; ny]) rot lut kind gf = Ok (Csd2 occ lead) ->
  ideal_csd_geometric label params [c1; e1] [c2; e2] (ResArray [nx'; ny']) rot lut kind gf = Ok (Csd2 occ' lead') ->
  scan_pixel (Csd2 occ lead) (a1, b1) (a2, b2) v o 0%nat -> scan_pixel (Csd2 occ' lead') (c1, e1) (c2, e2) v o' 0%nat -> o = o'.
Proof. exact (images_agree label params a1 b1 a2 b2 nx ny c1 e1 c2 e2 nx' ny' rot lut kind gf occ lead occ' lead' L eps v o o'). Qed.
Print Assumptions C98_images_agree.

Example C98_example : exists d d' v o o' lab lab',
  ideal_csd_geometric component_label (couple 0) [0; 0] [0; 1] (ResInt 2) 0 None Sigmoid None = Ok d /\
  ideal_csd_geometric component_label (couple 0) [-1; 1] [1; 1] (ResInt 3) 0 None Sigmoid None = Ok d' /\
  scan_pixel d (0, 0) (0, 1) v o lab /\ scan_pixel d' (-1, 1) (1, 1) v o' lab'.
Proof. exact crossing_lines. Qed.
