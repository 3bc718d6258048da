(** C138: at a constant number of electrons the occupations change continuously with the voltages. *)
From Verif Require Import RPrelude Arr ModelSupport ModelTct ModelCsd ModelDefault SpecSupport SpecCsd ProofsSmooth ProofsLabel ExamplesCsd.
Local Open Scope R_scope.

(** Two pixels (of any two scans) with the same number of electrons, sigmoid distribution. *)
Theorem C138_sigmoid label params rot lut gf res res' d d' a1 b1 a2 b2 a1' b1' a2' b2' v v' o o' lab lab' n u l po :
  csd_config label params lut Sigmoid gf ->
  ideal_csd_geometric label params [a1; b1] [a2; b2] res rot lut Sigmoid gf = Ok d -> scan_pixel d (a1, b1) (a2, b2) v o lab ->
  ideal_csd_geometric label params [a1'; b1'] [a2'; b2'] res' rot lut Sigmoid gf = Ok d' -> scan_pixel d' (a1', b1') (a2', b2') v' o' lab' ->
  fst o + snd o = INR n -> fst o' + snd o' = INR n -> (1 <= n)%nat ->
  interdot_line params n u l -> nth_error params (n - 1) = Some po -> 0 < gamma_of Sigmoid gf ->
  1 / 100000000 * gamma_of Sigmoid gf * dist2 u l < Rabs (cross (vec u l) (coupling_vector po)) ->
  let bound := INR n * (gamma_of Sigmoid gf / 2) * (dist2 u l * dist2 v v' / Rabs (cross (vec u l) (coupling_vector po))) in
  Rabs (fst o - fst o') <= bound /\ Rabs (snd o - snd o') <= bound.
Proof.
  intros C H P H' P' S S' N I E G W. exact (smooth_sigmoid label params rot lut Sigmoid gf res res' d d' a1 b1 a2 b2 a1' b1' a2' b2' v v' o o' lab lab' n u l po
    C H P H' P' S S' N I E G W eq_refl).
Qed.
Print Assumptions C138_sigmoid.

(** Cauchy distribution. *)
Theorem C138_cauchy label params rot lut gf res res' d d' a1 b1 a2 b2 a1' b1' a2' b2' v v' o o' lab lab' n u l po :
  csd_config label params lut Cauchy gf ->
  ideal_csd_geometric label params [a1; b1] [a2; b2] res rot lut Cauchy gf = Ok d -> scan_pixel d (a1, b1) (a2, b2) v o lab ->
  ideal_csd_geometric label params [a1'; b1'] [a2'; b2'] res' rot lut Cauchy gf = Ok d' -> scan_pixel d' (a1', b1') (a2', b2') v' o' lab' ->
  fst o + snd o = INR n -> fst o' + snd o' = INR n -> (1 <= n)%nat ->
  interdot_line params n u l -> nth_error params (n - 1) = Some po -> 0 < gamma_of Cauchy gf ->
  1 / 100000000 * gamma_of Cauchy gf * dist2 u l < Rabs (cross (vec u l) (coupling_vector po)) ->
  let bound := INR n * (gamma_of Cauchy gf / PI) * (dist2 u l * dist2 v v' / Rabs (cross (vec u l) (coupling_vector po))) in
  Rabs (fst o - fst o') <= bound /\ Rabs (snd o - snd o') <= bound.
Proof.
  intros C H P H' P' S S' N I E G W. exact (smooth_cauchy label params rot lut Cauchy gf res res' d d' a1 b1 a2 b2 a1' b1' a2' b2' v v' o o' lab lab' n u l po
    C H P H' P' S S' N I E G W eq_refl).
Qed.
Print Assumptions C138_cauchy.

(** The default configurations: at most 3.05 electrons per millivolt, wherever the number of electrons is the same. *)
Theorem C138_default label res res' d d' a1 b1 a2 b2 a1' b1' a2' b2' v v' o o' lab lab' :
  (forall x, is_labelling x (label x)) ->
  ideal_csd_geometric label default_tcts [a1; b1] [a2; b2] res (- (PI / 4)) (Some 1000%nat) Sigmoid None = Ok d -> scan_pixel d (a1, b1) (a2, b2) v o lab ->
  ideal_csd_geometric label default_tcts [a1'; b1'] [a2'; b2'] res' (- (PI / 4)) (Some 1000%nat) Sigmoid None = Ok d' -> scan_pixel d' (a1', b1') (a2', b2') v' o' lab' ->
  fst o + snd o = fst o' + snd o' ->
  Rabs (fst o - fst o') <= 3050 * dist2 v v' /\ Rabs (snd o - snd o') <= 3050 * dist2 v v'.
Proof. exact (default_smooth label res res' d d' a1 b1 a2 b2 a1' b1' a2' b2' v v' o o' lab lab'). Qed.
Print Assumptions C138_default.

(** A wide transition (gamma factor 1/10): across 1.5 volts the occupation changes by at most 0.15. *)
Example C138_example : exists o o' l l',
  ideal_csd_geometric component_label (couple (1/4)) [-3/4; 3/4] [1; 1] (ResInt 2) 0 None Sigmoid (Some (1/10)) = Ok (Csd1 [o; o'] [l; l']) /\
  fst o + snd o = 1 /\ fst o' + snd o' = 1 /\ Rabs (fst o - fst o') <= 3/20.
Proof.
  destruct (couple_scan (1/4) ltac:(lra) (Some (1/10)) (1/10) eq_refl ltac:(lra)) as (o & o' & l & l' & E & _ & _ & S1 & S2).
  exists o, o', l, l'. split; [exact E|]. split; [exact S1|]. split; [exact S2|].
  assert (D0 : dist2 (0, 2) (0, 0) = 2).
  { unfold dist2. cbn [fst snd]. replace ((0 - 0) ^ 2 + (2 - 0) ^ 2) with (2 ^ 2) by ring. apply sqrt_pow2. lra. }
  assert (D1 : dist2 (-3/4, 1) (3/4, 1) = 3/2).
  { unfold dist2. cbn [fst snd]. replace ((-3/4 - 3/4) ^ 2 + (1 - 1) ^ 2) with ((3/2) ^ 2) by field. apply sqrt_pow2. lra. }
  assert (Cr : cross (vec (0, 2) (0, 0)) (coupling_vector (first_tct (1/4))) = 1).
  { unfold cross, vec, coupling_vector, first_tct. cbn [fst snd start_x start_y end_x end_y]. lra. }
  destruct (C138_sigmoid component_label (couple (1/4)) 0 None (Some (1/10)) (ResInt 2) (ResInt 2) (Csd1 [o; o'] [l; l']) (Csd1 [o; o'] [l; l'])
    (-3/4) (3/4) 1 1 (-3/4) (3/4) 1 1 (-3/4, 1) (3/4, 1) o o' l l' 1 (0, 2) (0, 0) (first_tct (1/4))) as [Q _]; auto.
  - apply couple_config; [lra|discriminate|simpl; lra].
  - exists 0%nat. repeat split; auto. unfold pixel_voltage. simpl. f_equal; lra.
  - exists 1%nat. repeat split; auto. unfold pixel_voltage. simpl. f_equal; field.
  - apply couple_line.
  - simpl. lra.
  - rewrite D0, Cr, Rabs_R1. simpl. lra.
  - rewrite D0, D1, Cr, Rabs_R1 in Q. simpl in Q. lra.
Qed.
