(** The noise of sensor scans and of diagrams with the extended sensor. *)
From Verif Require Import RPrelude Arr ModelSupport ModelTct ModelCsd ModelJumps ModelDistortions ModelSensor ModelSimulation ModelInstance
  ModelNoise ModelScanInstance ModelScanNoise SpecSupport SpecTct SpecCsd SpecSensor SpecSimulation SpecDistortions SpecInstance SpecNoise
  SpecScanInstance SpecScanNoise ProofsNoise ProofsScanNoise ProofsScanNoise2 SpecHeights SpecSums ProofsSums.
Local Open Scope R_scope.

Section P.
Context {G : Type}.
Variable src : sources G.
Hypothesis Sok : sources_ok src.

Lemma drawn3_all_adds sh l1 l2 ds : forall g z0 z1 z2 g', drawn3_all src ds sh l1 l2 g = Ok (z0, z1, z2, g') ->
  adds3_all src (shape_size sh) (rtn_px_per_volt sh l1 l2) ds g z0 z1 z2 g'.
Proof.
  induction ds as [|d ds IH]; intros g z0 z1 z2 g' E; cbn [drawn3_all adds3_all] in *.
  - injection E as <- <- <- <-. rewrite repeat_length. auto 10.
  - unfold drawn3 in E. destruct (drawn src d sh l1 l2 g) as [[a0 ga]|] eqn:Da; [|discriminate]. cbn [bind fst snd] in E.
    destruct (drawn src d sh l1 l2 ga) as [[a1 gb]|] eqn:Db; [|discriminate]. cbn [bind fst snd] in E.
    destruct (drawn src d sh l1 l2 gb) as [[a2 gc]|] eqn:Dc; [|discriminate]. cbn [bind fst snd] in E.
    destruct (drawn3_all src ds sh l1 l2 gc) as [[[[b0 b1] b2] gd]|] eqn:D; [|discriminate]. cbn [bind] in E. injection E as <- <- <- <-.
    destruct (drawn_adds src Sok _ _ _ _ _ _ _ Da) as [La Aa]. destruct (drawn_adds src Sok _ _ _ _ _ _ _ Db) as [Lb Ab].
    destruct (drawn_adds src Sok _ _ _ _ _ _ _ Dc) as [Lc Ac]. pose proof (IH _ _ _ _ _ D) as A.
    assert (L : length b0 = shape_size sh /\ length b1 = shape_size sh /\ length b2 = shape_size sh) by (destruct ds; cbn [adds3_all] in A; tauto).
    destruct L as (L0 & L1 & L2). rewrite !length_plus_pixels by congruence. repeat (split; [assumption|]).
    exists a0, a1, a2, b0, b1, b2, ga, gb, gc. repeat (split; [assumption|]).
    intros k. rewrite !nth_plus_pixels by congruence. auto.
Qed.

Variable label : arr2 nat -> arr2 nat.

Lemma scan_sums pots resps lim1 lim2 lims1 lims2 x s occs a1 b1 a2 b2 v1 v2 res w w' m : ss_deform s = [] ->
  measure_sensor_scan (noisy_scan_config src label lim1 lim2 lims1 lims2 x s occs pots resps) [a1; b1] [a2; b2] v1 v2 res w = (Ok m, w') ->
  exists z0 z1 z2 g zr o off, let sh := image_shape (sc_scan m) in
    requested res sh /\ adds3_all src (shape_size sh) (rtn_px_per_volt sh (a1, b1) (a2, b2)) pots (w_rng (fst w)) z0 z1 z2 g /\
    adds_all src (shape_size sh) (rtn_px_per_volt sh (a1, b1) (a1, b1)) resps g zr (w_rng (fst w')) /\
    plunger_occupation label x v1 v2 o /\
    (ss_rise s <> None -> exists full q, (points_exist s o -> full_point s o (plunger v1, plunger v1) full) /\
       pot_spec s o (plunger v1, plunger v1) full q /\ off = at_sensor q) /\
    forall k u y, scan_pixel (sc_scan m) (a1, b1) (a2, b2) k u y -> exists q, pot_spec s o (plunger v1, plunger v2) u q /\
      noisy_value s off q (nth k z0 0) (nth k z1 0) (nth k z2 0) (nth k zr 0) y.
Proof.
  intros Hd M. destruct (scan_values_drawn src Sok label pots resps _ _ _ _ _ _ _ _ _ _ _ _ _ _ _ _ _ Hd M)
    as (z0 & z1 & z2 & g & zr & o & off & Q & D3 & D & V).
  exists z0, z1, z2, g, zr, o, off. cbv zeta. split; [exact Q|]. split; [apply drawn3_all_adds, D3|]. split; [apply drawn_all_adds, D; exact Sok|exact V].
Qed.

Lemma csd_sums pots resps lim1 lim2 lims1 lims2 x s occs a1 b1 a2 b2 v1 v2 res w w' m : config_ok label x -> ss_deform s = [] \/ a1 <> b1 \/ a2 <> b2 ->
  measure (noisy_scan_config src label lim1 lim2 lims1 lims2 (Some x) s occs pots resps) [a1; b1] [a2; b2] v1 v2 res w = (Ok m, w') ->
  exists sh g0 z0 z1 z2 g zr off, let px := rtn_px_per_volt sh (a1, b1) (a2, b2) in
    requested res sh /\ image_shape (m_csd m) = sh /\ shape_of_occ (m_occ m) = Some sh /\ (occs = [] -> g0 = w_rng (fst w)) /\
    adds3_all src (shape_size sh) px pots g0 z0 z1 z2 g /\ adds_all src (shape_size sh) px resps g zr (w_rng (fst w')) /\
    (ss_rise s <> None -> exists o1 pt q, first_occ (m_occ m) = Ok o1 /\ pot_spec s o1 (a1, a2) pt q /\
       (points_exist s o1 -> a1 = b1 \/ a2 = b2 -> full_point s o1 (a1, a2) pt) /\ off = at_sensor q) /\
    forall k v o y, csd_pixel (m_csd m) (m_occ m) (a1, b1) (a2, b2) k v o y -> exists q, pot_spec s o v (plunger v1, plunger v2) q /\
      noisy_value s off q (nth k z0 0) (nth k z1 0) (nth k z2 0) (nth k zr 0) y.
Proof.
  intros C Hd M. destruct (csd_values_drawn src Sok label pots resps _ _ _ _ _ _ _ _ _ _ _ _ _ _ _ _ _ C Hd M)
    as (sh & g0 & z0 & z1 & z2 & g & zr & off & Q & S1 & S2 & O & D3 & D & V).
  exists sh, g0, z0, z1, z2, g, zr, off. cbv zeta. repeat (split; [assumption|]). split; [apply drawn3_all_adds, D3|]. split; [apply drawn_all_adds, D; exact Sok|exact V].
Qed.
End P.
