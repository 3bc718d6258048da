(** The dots that hold the electrons without interdot coupling, and with narrow coupling. *)
From Verif Require Import RPrelude Arr ModelSupport ModelTct ModelCsd SpecSupport SpecTct SpecCsd SpecZero ProofsSupport ProofsTct ProofsOcc ProofsScan ModelDefault ProofsZero
  ExamplesCsd.
Local Open Scope R_scope.

(** C67: without interdot coupling a pixel with [n] electrons past [m] of the interdot transitions has exactly [n - m] of
    them in the first and [m] in the second dot. *)
Theorem C67_zero_partial label params rot lut kind gf res d a1 b1 a2 b2 v o lab n u l po m :
  csd_config label params lut kind gf ->
  ideal_csd_geometric label params [a1; b1] [a2; b2] res rot lut kind gf = Ok d ->
  scan_pixel d (a1, b1) (a2, b2) v o lab -> fst o + snd o = INR n -> (1 <= n)%nat ->
  interdot_line params n u l -> nth_error params (n - 1) = Some po -> 0 < gamma_of kind gf ->
  no_coupling (gamma_of kind gf) u l po -> past u l po n m (tct_view rot v) ->
  o = (INR (n - m), INR m).
Proof. intros. eapply zero_exact; eauto. Qed.
Print Assumptions C67_zero_partial.

(** C67: with any coupling that counts as non-zero a pixel at least [t] widths away from all transitions has, up to
    [n / (gamma t)], exchanged numbers of electrons if the width is positive, and the same numbers if it is negative. *)
Theorem C67_narrow_partial label params rot lut kind gf res d a1 b1 a2 b2 v o lab n u l po m t :
  csd_config label params lut kind gf ->
  ideal_csd_geometric label params [a1; b1] [a2; b2] res rot lut kind gf = Ok d ->
  scan_pixel d (a1, b1) (a2, b2) v o lab -> fst o + snd o = INR n -> (1 <= n)%nat ->
  interdot_line params n u l -> nth_error params (n - 1) = Some po -> 0 < gamma_of kind gf ->
  0 < t -> ~ no_coupling (gamma_of kind gf) u l po ->
  (forall k, (k < n)%nat -> t * Rabs (width_across u l po) <= Rabs (side u l po k (tct_view rot v))) ->
  past u l po n m (tct_view rot v) ->
  let (a, b) := if Rltb 0 (width_across u l po) then (m, n - m)%nat else (n - m, m)%nat in
  Rabs (fst o - INR a) <= INR n / (gamma_of kind gf * t) /\ Rabs (snd o - INR b) <= INR n / (gamma_of kind gf * t).
Proof. intros. eapply narrow_exact; eauto. Qed.
Print Assumptions C67_narrow_partial.

(** C67: with the peaks and valleys in their usual places the width is positive, hence with every narrow coupling the dots
    are exchanged: [m] electrons in the first and [n - m] in the second dot. *)
Theorem C67_exchanged_partial label params rot lut kind gf res d a1 b1 a2 b2 v o lab n u l po m t :
  csd_config label params lut kind gf ->
  ideal_csd_geometric label params [a1; b1] [a2; b2] res rot lut kind gf = Ok d ->
  scan_pixel d (a1, b1) (a2, b2) v o lab -> fst o + snd o = INR n -> (1 <= n)%nat ->
  interdot_line params n u l -> nth_error params (n - 1) = Some po -> 0 < gamma_of kind gf ->
  0 < t -> ~ no_coupling (gamma_of kind gf) u l po -> above_edges u l po ->
  (forall k, (k < n)%nat -> t * width_across u l po <= Rabs (side u l po k (tct_view rot v))) ->
  past u l po n m (tct_view rot v) ->
  Rabs (fst o - INR m) <= INR n / (gamma_of kind gf * t) /\ Rabs (snd o - INR (n - m)) <= INR n / (gamma_of kind gf * t).
Proof. intros. eapply exchanged; eauto. Qed.
Print Assumptions C67_exchanged_partial.

(** C67: all transitions of the default configuration are in their usual places. *)
Theorem C67_default_places n u l po : (1 <= n)%nat -> interdot_line default_tcts n u l -> nth_error default_tcts (n - 1) = Some po ->
  above_edges u l po.
Proof. exact (default_edges n u l po). Qed.
Print Assumptions C67_default_places.

(** The line of the example of C67: without coupling the pixel at (-3/4, 1) is past no transition, the one at (3/4, 1)
    past the only one; with the coupling 1/100 the width is positive. *)
Example ex_zero_left : no_coupling (22/10) (0, 2) (0, 0) (first_tct 0) /\ past (0, 2) (0, 0) (first_tct 0) 1 0 (-3/4, 1) /\ past (0, 2) (0, 0) (first_tct 0) 1 1 (3/4, 1).
Proof.
  repeat split; try lia.
  - unfold no_coupling, width_across, cross, vec, coupling_vector, dist2. simpl. rewrite Rabs_pos_eq by lra.
    pose proof (sqrt_pos ((0 - 0) * ((0 - 0) * 1) + (2 - 0) * ((2 - 0) * 1))). lra.
  - intros k Hk. replace k with 0%nat by lia. unfold side, cross, vec, peak_point. simpl. lra.
  - intros k Hk. replace k with 0%nat by lia. unfold side, cross, vec, peak_point. simpl. lra.
Qed.
Example ex_zero_width : 0 < width_across (0, 2) (0, 0) (first_tct (1/100)).
Proof. unfold width_across, cross, vec, coupling_vector. simpl. lra. Qed.
Example ex_zero_edges : above_edges (0, 2) (0, 0) (first_tct (1/100)).
Proof. unfold above_edges. simpl. lra. Qed.
