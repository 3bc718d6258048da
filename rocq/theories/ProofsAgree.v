(** Proofs about the agreement of scans with each other. *)
From Verif Require Import RPrelude Arr ModelSupport ModelTct ModelCsd SpecTct SpecCsd ProofsCsd ProofsOcc ProofsRegions ProofsMask ProofsDriver
  ProofsFine ProofsScan ProofsLabel ExamplesCsd.
Local Open Scope R_scope.

Lemma line_pixel label params a1 b1 a2 b2 res rot lut kind gf d v o lab :
  proper_tcts params lut -> kind <> UnknownCdf -> length (res_list res) = 1%nat ->
  ideal_csd_geometric label params [a1; b1] [a2; b2] res rot lut kind gf = Ok d ->
  scan_pixel d (a1, b1) (a2, b2) v o lab ->
  exists m, (electrons params lut rot v m \/ (above_all params lut rot v /\ m = 0%nat)) /\
    pixel_occ kind (calculate_all_bezier_anchors params 1 rot) (gamma_of kind gf) v m o.
Proof.
  intros P K L H Px.
  destruct (request_shape _ _ _ _ _ _ _ _ _ _ H) as (a1' & b1' & a2' & b2' & _ & _ & [[k Er]|(nx' & ny' & _ & _ & Er & _)]);
    [|rewrite Er in L; discriminate].
  destruct (csd_1d label params a1 b1 a2 b2 res k rot lut kind gf _ P K (gamma_of_ok kind gf K) Er) as (occ & lead & E & Lo & _ & _ & _ & Q).
  rewrite H in E. inversion E; subst d. destruct Px as (i & Eo & _ & ->). rewrite Lo. exact (Q i o Eo).
Qed.

Lemma region_agree params lut rot v m m' :
  electrons params lut rot v m \/ (above_all params lut rot v /\ m = 0%nat) ->
  electrons params lut rot v m' \/ (above_all params lut rot v /\ m' = 0%nat) -> m = m'.
Proof.
  intros [A|[A ->]] [B|[B ->]]; auto; [eapply electrons_unique; eauto| |]; exfalso; eapply electrons_not_above_all; eauto.
Qed.

Lemma lines_agree label params a1 b1 a2 b2 res c1 e1 c2 e2 res' rot lut kind gf d d' v o o' lab lab' :
  proper_tcts params lut -> kind <> UnknownCdf -> length (res_list res) = 1%nat -> length (res_list res') = 1%nat ->
  ideal_csd_geometric label params [a1; b1] [a2; b2] res rot lut kind gf = Ok d ->
  ideal_csd_geometric label params [c1; e1] [c2; e2] res' rot lut kind gf = Ok d' ->
  scan_pixel d (a1, b1) (a2, b2) v o lab -> scan_pixel d' (c1, e1) (c2, e2) v o' lab' -> o = o'.
Proof.
  intros P K L L' H H' Px Px'.
  destruct (line_pixel _ _ _ _ _ _ _ _ _ _ _ _ _ _ _ P K L H Px) as (m & A & B).
  destruct (line_pixel _ _ _ _ _ _ _ _ _ _ _ _ _ _ _ P K L' H' Px') as (m' & A' & B').
  rewrite (region_agree _ _ _ _ _ _ A' A) in B'. eapply pixel_occ_fun; eauto.
Qed.

Lemma images_agree label params a1 b1 a2 b2 nx ny c1 e1 c2 e2 nx' ny' rot lut kind gf occ lead occ' lead' L eps v o o' :
  csd_config label params lut kind gf -> 0 <= eps -> Forall (bounded_tct L eps lut) params ->
  fine_sampling (np_sort (a1, b1)) (np_sort (a2, b2)) (Z.to_nat nx) (Z.to_nat ny) rot L eps ->
  fine_sampling (np_sort (c1, e1)) (np_sort (c2, e2)) (Z.to_nat nx') (Z.to_nat ny') rot L eps ->
  ideal_csd_geometric label params [a1; b1] [a2; b2] (ResArray [nx; ny]) rot lut kind gf = Ok (Csd2 occ lead) ->
  ideal_csd_geometric label params [c1; e1] [c2; e2] (ResArray [nx'; ny']) rot lut kind gf = Ok (Csd2 occ' lead') ->
  scan_pixel (Csd2 occ lead) (a1, b1) (a2, b2) v o 0%nat -> scan_pixel (Csd2 occ' lead') (c1, e1) (c2, e2) v o' 0%nat -> o = o'.
Proof.
  intros C He HB F F' H H' Px Px'.
  destruct (scan_2d_unlabelled _ _ _ _ _ _ _ _ _ _ _ _ _ _ _ _ C He HB F H v o Px) as (n & En & Po).
  destruct (scan_2d_unlabelled _ _ _ _ _ _ _ _ _ _ _ _ _ _ _ _ C He HB F' H' v o' Px') as (n' & En' & Po').
  assert (n' = n) by (eapply electrons_unique; eauto). subst n'. eapply pixel_occ_fun; eauto.
Qed.

(** two lines through the middle between the TCTs *)
Lemma crossing_lines : exists d d' v o o' lab lab',
  ideal_csd_geometric component_label (couple 0) [0; 0] [0; 1] (ResInt 2) 0 None Sigmoid None = Ok d /\
  ideal_csd_geometric component_label (couple 0) [-1; 1] [1; 1] (ResInt 3) 0 None Sigmoid None = Ok d' /\
  scan_pixel d (0, 0) (0, 1) v o lab /\ scan_pixel d' (-1, 1) (1, 1) v o' lab'.
Proof.
  assert (P : proper_tcts (couple 0) None) by (apply couple_proper; lra).
  destruct (gamma_known Sigmoid None ltac:(discriminate)) as [g G].
  destruct (csd_1d component_label (couple 0) 0 0 0 1 (ResInt 2) 2 0 None Sigmoid None g P ltac:(discriminate) G eq_refl) as (occ & lead & E & Lo & Ll & _).
  destruct (csd_1d component_label (couple 0) (-1) 1 1 1 (ResInt 3) 3 0 None Sigmoid None g P ltac:(discriminate) G eq_refl) as (occ' & lead' & E' & Lo' & Ll' & _).
  destruct occ as [|o1 [|o2 [|]]]; try discriminate. destruct lead as [|l1 [|l2 [|]]]; try discriminate.
  destruct occ' as [|o1' [|o2' [|o3' [|]]]]; try discriminate. destruct lead' as [|l1' [|l2' [|l3' [|]]]]; try discriminate.
  exists (Csd1 [o1; o2] [l1; l2]), (Csd1 [o1'; o2'; o3'] [l1'; l2'; l3']), (0, 1), o2, o2', l2, l2'.
  split; [exact E|]. split; [exact E'|].
  split; exists 1%nat; (split; [reflexivity|]; split; [reflexivity|]); unfold pixel_voltage; cbn; f_equal; field.
Qed.
