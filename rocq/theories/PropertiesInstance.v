(** Properties of measurements of a simulation with geometric ideal data and a generic sensor. *)
From Verif Require Import RPrelude Arr ModelSupport ModelTct ModelCsd ModelDistortions ModelSensor ModelSimulation ModelInstance
  SpecTct SpecCsd SpecSensor SpecInstance ProofsCsd ProofsLabel ProofsInstance ExamplesCsd.
Local Open Scope R_scope.

(** C83: every measured value is the sum of the peaks at the potential of the pixel's voltages and
    occupations; the occupations are non-negative and add up to an integer below the number of TCTs. *)
Theorem C83_pixels {W} label x s ps lim1 lim2 a1 b1 a2 b2 v1 v2 res (w w' : W) m :
  gs_peaks s = Some ps -> ps <> [] -> config_ok label x ->
  measure (plain_config label lim1 lim2 x s) [a1; b1] [a2; b2] v1 v2 res w = (Ok m, w') ->
  forall v o lab y, measured_pixel m (a1, b1) (a2, b2) v o lab y ->
  y = Rsum (map (fun p => sensor_function p (affine (gs_offset s) (gs_gate s) (gs_dot s) v o)) ps) /\
  0 <= fst o /\ 0 <= snd o /\ exists n, (n < length (g_tcts x))%nat /\ fst o + snd o = INR n.
Proof. exact (measured_pixels label x s ps lim1 lim2 a1 b1 a2 b2 v1 v2 res w w' m). Qed.
Print Assumptions C83_pixels.

(** The image has as many pixels as requested, at the requested voltages. *)
Theorem C83_shape {W} label x s ps lim1 lim2 a1 b1 a2 b2 v1 v2 res (w w' : W) m :
  gs_peaks s = Some ps -> ps <> [] -> config_ok label x ->
  measure (plain_config label lim1 lim2 x s) [a1; b1] [a2; b2] v1 v2 res w = (Ok m, w') ->
  exists nc nr, measured_shape m = Some (nc, nr) /\
    (res_list res = [Z.of_nat nc] /\ nr = 1%nat \/ res_list res = [Z.of_nat nc; Z.of_nat nr]) /\
  forall i j, (i < nr)%nat -> (j < nc)%nat ->
  exists v o lab y, measured_pixel m (a1, b1) (a2, b2) v o lab y /\
    v = (pixel_voltage (a1, b1) nc j, match res_list res with [_] => pixel_voltage (a2, b2) nc j | _ => pixel_voltage (a2, b2) nr i end).
Proof. exact (measured_shape_ok label x s ps lim1 lim2 a1 b1 a2 b2 v1 v2 res w w' m). Qed.
Print Assumptions C83_shape.

(** A well-formed request within the limits succeeds unless the ideal data cannot be computed, and then
    the error is the one of the ideal data. *)
Theorem C83_outcome {W} label x s lim1 lim2 a1 b1 a2 b2 res (w : W) :
  config_ok label x -> well_formed_request [a1; b1] [a2; b2] (res_list res) -> res_list res <> [] ->
  Forall (fun n => (1 <= n)%Z) (res_list res) -> sweep_within lim1 a1 b1 -> sweep_within lim2 a2 b2 ->
  let r := measure (plain_config label lim1 lim2 x s) [a1; b1] [a2; b2] None None res w in
  match ideal_csd_geometric label (g_tcts x) [a1; b1] [a2; b2] res (g_rotation x) (g_lut x) (g_cdf x) (g_gamma x) with
  | Ok _ => exists m, r = (Ok m, w)
  | Err e => r = (Err e, w)
  end.
Proof. exact (measure_outcome label x s lim1 lim2 a1 b1 a2 b2 res w). Qed.
Print Assumptions C83_outcome.

(** Sweeping in the opposite direction measures the same values at the same voltages. *)
Theorem C83_reversed {W} label x s ps lim1 lim2 a1 b1 a2 b2 c1 e1 c2 e2 v1 v2 res (w w1 w2 : W) m m' :
  gs_peaks s = Some ps -> ps <> [] -> config_ok label x -> res_list res <> [1%Z] ->
  measure (plain_config label lim1 lim2 x s) [a1; b1] [a2; b2] v1 v2 res w = (Ok m, w1) ->
  measure (plain_config label lim1 lim2 x s) [c1; e1] [c2; e2] v1 v2 res w = (Ok m', w2) ->
  reversed_sweep res (a1, b1) (a2, b2) (c1, e1) (c2, e2) ->
  forall v o lab y, measured_pixel m (a1, b1) (a2, b2) v o lab y <-> measured_pixel m' (c1, e1) (c2, e2) v o lab y.
Proof. exact (measured_reversed label x s ps lim1 lim2 a1 b1 a2 b2 c1 e1 c2 e2 v1 v2 res w w1 w2 m m'). Qed.
Print Assumptions C83_reversed.

Example C83_example : exists m,
  measure (plain_config component_label None (Some (0, 2)) (mk_geometric (couple 0) 0 None Sigmoid None)
             (mk_generic (Some [mk_peak 0 (fun m x => x - m)]) (2, 3) (10, 20) 5))
    [-3/4; 3/4] [1; 1] None None (ResInt 2) tt = (Ok m, tt) /\
  exists l l', measured_pixel m (-3/4, 3/4) (1, 1) (-3/4, 1) (1, 0) l (39/2) /\
               measured_pixel m (-3/4, 3/4) (1, 1) (3/4, 1) (0, 1) l' (71/2).
Proof.
  destruct zero_swapped as (l & l' & E).
  set (x := mk_geometric (couple 0) 0 None Sigmoid None).
  set (s := mk_generic (Some [mk_peak 0 (fun m x => x - m)]) (2, 3) (10, 20) 5).
  assert (C : config_ok component_label x) by (apply couple_config; [lra|discriminate|simpl; lra]).
  destruct (measured_example component_label x s _ None (Some (0, 2)) (-3/4) (3/4) 1 1 (1, 0) (0, 1) l l' tt
              eq_refl ltac:(discriminate) C ltac:(exact I) ltac:(simpl; lra) E) as (m & Em & P).
  exists m. split; [exact Em|]. exists l, l'. split; apply P; (split; [auto|unfold affine, sum_peaks; cbn; lra]).
Qed.
