(** What the noise of measurements consists of. *)
From Verif Require Import RPrelude Arr ModelSupport ModelTct ModelCsd ModelJumps ModelDistortions ModelSensor ModelSimulation ModelInstance
  ModelNoise ModelScanInstance ModelScanNoise SpecSupport SpecTct SpecCsd SpecSensor SpecSimulation SpecDistortions SpecInstance SpecNoise SpecScanInstance SpecScanNoise
  SpecSums ProofsNoise ProofsSums ProofsSums2 ProofsLabel ExamplesCsd ExamplesNoise.
Local Open Scope R_scope.

(** C99: the numbers added to potential and response of the pixels are the sums of the numbers the distortions draw, one distortion after
    the other, first those of the potential. *)
Theorem C99_sums {G} (src : sources G) label pots resps lim1 lim2 x s ps occs a1 b1 a2 b2 v1 v2 res w w' m : sources_ok src ->
  gs_peaks s = Some ps -> ps <> [] -> config_ok label x ->
  measure (noisy_config src label lim1 lim2 x s occs pots resps) [a1; b1] [a2; b2] v1 v2 res w = (Ok m, w') ->
  exists sh g1 g2 z1 z2, let n := shape_size sh in let px := rtn_px_per_volt sh (a1, b1) (a2, b2) in
    requested res sh /\ (occs = [] -> g1 = w_rng w) /\
    adds_all src n px pots g1 z1 g2 /\ adds_all src n px resps g2 z2 (w_rng w') /\
    (forall k, (k < n)%nat -> exists v o y, numbered_pixel m (a1, b1) (a2, b2) k v o y) /\
    forall k v o y, numbered_pixel m (a1, b1) (a2, b2) k v o y ->
      y = peak_total ps (affine (gs_offset s) (gs_gate s) (gs_dot s) v o + nth k z1 0) + nth k z2 0.
Proof. intros Sok. exact (superposition_sums src Sok label pots resps lim1 lim2 x s ps occs a1 b1 a2 b2 v1 v2 res w w' m). Qed.
Print Assumptions C99_sums.

(** White noise with sigma 1/2 after white noise with sigma 1/4, for draws that are all 1 *)
Example C99_sums_example z g' : adds_all demo_src 2 (Err ValueError) [White (fixed_param (1 / 2)); White (fixed_param (1 / 4))] tt z g' ->
  nth 0 z 0 = 3 / 4 /\ nth 1 z 0 = 3 / 4.
Proof.
  intros (_ & z1 & g1 & z2 & (_ & -> & _) & (_ & z3 & g2 & z4 & (_ & -> & _) & (_ & -> & _) & E2) & E1). rewrite !E1, !E2. cbn. lra.
Qed.
(** ... and the measurement of [C99_example] *)
Example C99_sums_measured : exists m w' z1 z2 g2,
  measure (noisy_config demo_src component_label None (Some (0, 2)) (mk_geometric (couple 0) 0 None Sigmoid None)
             (mk_generic (Some [mk_peak 0 (fun m x => x - m)]) (2, 3) (10, 20) 5) [] [Pink (fixed_param (1 / 4)) 0] [White (fixed_param (1 / 2))])
    [-3/4; 3/4] [1; 1] None None (ResInt 2) fresh_world = (Ok m, w') /\
  adds_all demo_src 2 (rtn_px_per_volt (Shape1 2) (-3/4, 3/4) (1, 1)) [Pink (fixed_param (1 / 4)) 0] tt z1 g2 /\
  adds_all demo_src 2 (rtn_px_per_volt (Shape1 2) (-3/4, 3/4) (1, 1)) [White (fixed_param (1 / 2))] g2 z2 (w_rng w') /\ nth 1 z1 0 = 1 / 4 /\ nth 1 z2 0 = 1 / 2.
Proof.
  destruct noisy_couple as (m & w' & M & _).
  assert (C : config_ok component_label (mk_geometric (couple 0) 0 None Sigmoid None)) by (apply couple_config; [lra|discriminate|simpl; lra]).
  destruct (C99_sums demo_src component_label _ _ _ _ _ (mk_generic (Some [mk_peak 0 (fun m x => x - m)]) (2, 3) (10, 20) 5) [mk_peak 0 (fun m x => x - m)] _ _ _ _ _ _ _ _ _ _ _ demo_src_ok eq_refl ltac:(discriminate) C M)
    as (sh & g1 & g2 & z1 & z2 & Q & _ & A1 & A2 & _).
  assert (E : sh = Shape1 2) by (symmetry; apply (requested_unique (ResInt 2)); [reflexivity|exact Q]). subst sh. destruct g1.
  exists m, w', z1, z2, g2. split; [exact M|]. split; [exact A1|]. split; [exact A2|].
  destruct A1 as (_ & y1 & h1 & y2 & (-> & _) & (_ & -> & _) & E1). destruct A2 as (_ & y3 & h3 & y4 & (_ & -> & _) & (_ & -> & _) & E2).
  rewrite E1, E2. cbn. lra.
Qed.

(** C111, C113: the same for the extended sensor, whose distortions draw for the three potentials one after the other. *)
Theorem C111_sums {G} (src : sources G) label pots resps lim1 lim2 lims1 lims2 x s occs a1 b1 a2 b2 v1 v2 res w w' m : sources_ok src -> ss_deform s = [] ->
  measure_sensor_scan (noisy_scan_config src label lim1 lim2 lims1 lims2 x s occs pots resps) [a1; b1] [a2; b2] v1 v2 res w = (Ok m, w') ->
  exists z0 z1 z2 g zr o off, let sh := image_shape (sc_scan m) in
    requested res sh /\ adds3_all src (shape_size sh) (rtn_px_per_volt sh (a1, b1) (a2, b2)) pots (w_rng (fst w)) z0 z1 z2 g /\
    adds_all src (shape_size sh) (rtn_px_per_volt sh (a1, b1) (a1, b1)) resps g zr (w_rng (fst w')) /\
    plunger_occupation label x v1 v2 o /\
    (ss_rise s <> None -> exists full q, (points_exist s o -> full_point s o (plunger v1, plunger v1) full) /\
       pot_spec s o (plunger v1, plunger v1) full q /\ off = at_sensor q) /\
    forall k u y, scan_pixel (sc_scan m) (a1, b1) (a2, b2) k u y -> exists q, pot_spec s o (plunger v1, plunger v2) u q /\
      noisy_value s off q (nth k z0 0) (nth k z1 0) (nth k z2 0) (nth k zr 0) y.
Proof. intros Sok. exact (scan_sums src Sok label pots resps lim1 lim2 lims1 lims2 x s occs a1 b1 a2 b2 v1 v2 res w w' m). Qed.
Print Assumptions C111_sums.
Theorem C113_sums {G} (src : sources G) label pots resps lim1 lim2 lims1 lims2 x s occs a1 b1 a2 b2 v1 v2 res w w' m : sources_ok src -> config_ok label x -> ss_deform s = [] \/ a1 <> b1 \/ a2 <> b2 ->
  measure (noisy_scan_config src label lim1 lim2 lims1 lims2 (Some x) s occs pots resps) [a1; b1] [a2; b2] v1 v2 res w = (Ok m, w') ->
  exists sh g0 z0 z1 z2 g zr off, let px := rtn_px_per_volt sh (a1, b1) (a2, b2) in
    requested res sh /\ image_shape (m_csd m) = sh /\ shape_of_occ (m_occ m) = Some sh /\ (occs = [] -> g0 = w_rng (fst w)) /\
    adds3_all src (shape_size sh) px pots g0 z0 z1 z2 g /\ adds_all src (shape_size sh) px resps g zr (w_rng (fst w')) /\
    (ss_rise s <> None -> exists o1 pt q, first_occ (m_occ m) = Ok o1 /\ pot_spec s o1 (a1, a2) pt q /\
       (points_exist s o1 -> a1 = b1 \/ a2 = b2 -> full_point s o1 (a1, a2) pt) /\ off = at_sensor q) /\
    forall k v o y, csd_pixel (m_csd m) (m_occ m) (a1, b1) (a2, b2) k v o y -> exists q, pot_spec s o v (plunger v1, plunger v2) q /\
      noisy_value s off q (nth k z0 0) (nth k z1 0) (nth k z2 0) (nth k zr 0) y.
Proof. intros Sok. exact (csd_sums src Sok label pots resps lim1 lim2 lims1 lims2 x s occs a1 b1 a2 b2 v1 v2 res w w' m). Qed.
Print Assumptions C113_sums.

(** A generator whose states are counted: the draw in state i is i, and white noise draws for one image in one step. *)
Example C111_sums_example z0 z1 z2 g' :
  let src := mk_sources (fun _ g => (true, g)) (fun _ n g => (repeat 1%nat n, g)) (fun _ g => (2%nat, g)) (fun _ _ g => (1, g))
               (fun n g => (repeat (INR g) n, S g)) (fun n _ g => (repeat 1 n, g)) (fun _ _ => None) in
  adds3_all src 2 (Err ValueError) [White (fun g => (2, g)); Pink (fun g => (1 / 2, g)) 0] 1%nat z0 z1 z2 g' ->
  nth 1 z0 0 = 2 * 1 + 1 / 2 /\ nth 1 z1 0 = 2 * 2 + 1 / 2 /\ nth 1 z2 0 = 2 * 3 + 1 / 2 /\ g' = 4%nat.
Proof.
  intros src (_ & _ & _ & a0 & a1 & a2 & b0 & b1 & b2 & ga & gb & gc & (_ & -> & ->) & (_ & -> & ->) & (_ & -> & ->) &
    (_ & _ & _ & c0 & c1 & c2 & d0 & d1 & d2 & gd & ge & gf & (-> & ->) & (-> & ->) & (-> & ->) & (_ & _ & _ & -> & -> & -> & ->) & E2) & E1).
  destruct (E1 1%nat) as (-> & -> & ->). destruct (E2 1%nat) as (-> & -> & ->). cbn. repeat split; lra.
Qed.
Example C113_sums_example z0 z1 z2 g' : adds3_all demo_src 2 (Ok 4) [Telegraph 1 (fixed_param 0) (fixed_param 1) (fixed_param 5)] tt z0 z1 z2 g' -> nth 1 z0 0 = 0 /\ nth 0 z2 0 = 0.
Proof.
  intros (_ & _ & _ & a0 & a1 & a2 & b0 & b1 & b2 & ga & gb & gc & A0 & _ & A2 & (_ & _ & _ & -> & -> & -> & _) & E).
  cbn [adds] in A0, A2. cbn in A0, A2. destruct A0 as (k & Ek & [(_ & -> & _)|[W _]]), A2 as (k' & Ek' & [(_ & -> & _)|[W' _]]);
    injection Ek as <-; injection Ek' as <-; try (exfalso; lra).
  destruct (E 1%nat) as (-> & _). destruct (E 0%nat) as (_ & _ & ->). cbn. lra.
Qed.
