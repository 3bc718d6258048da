(** Proofs about the outcome of measurements with a SensorScanSensorGeneric object and distortions. *)
From Verif Require Import RPrelude Arr ModelSupport ModelTct ModelCsd ModelJumps ModelDistortions ModelSensor ModelSimulation ModelInstance
  ModelNoise ModelScanInstance ModelDefault ModelDefaultNoise ModelScanNoise SpecSupport SpecTct SpecCsd SpecSensor SpecSimulation SpecDistortions SpecInstance SpecNoise SpecDefaultNoise
  SpecScanInstance SpecScanNoise ProofsJumps ProofsCsd ProofsDriver ProofsScan ProofsDistortions ProofsSimulation ProofsInstance ProofsScanSensor ProofsLabelScan ProofsSensorMore ProofsNoise ProofsReplay ProofsSuccess ProofsDefault
  ProofsDefaultNoise ProofsScanInstance ProofsScanCsd ProofsScanNoise ProofsScanNoise2.
Local Open Scope R_scope.

Section Outcome.
Context {G : Type}.
Variable src : sources G.
Hypothesis Sok : sources_ok src.
Variable label : arr2 nat -> arr2 nat.
Notation world := (scan_world G).
Notation noisy := (noisy_scan_config src label).

Lemma three_drawn ds sh l1 l2 : Forall (fun d => forall g, exists z g', drawn src d sh l1 l2 g = Ok (z, g')) ds ->
  forall g, exists z0 z1 z2 g', drawn3_all src ds sh l1 l2 g = Ok (z0, z1, z2, g').
Proof.
  induction 1 as [|d ds Hd _ IH]; intros g; cbn [drawn3_all]; [eauto 6|].
  unfold drawn3. destruct (Hd g) as (z0 & g0 & ->). cbn [bind snd fst]. destruct (Hd g0) as (z1 & g1 & ->). cbn [bind snd fst].
  destruct (Hd g1) as (z2 & g2 & ->). cbn [bind snd fst]. destruct (IH g2) as (y0 & y1 & y2 & g3 & ->). cbn [bind]. eauto 6.
Qed.

(** Whether a sensor scan succeeds is decided by the noise. *)
Lemma noisy_scan_outcome lim1 lim2 lims1 lims2 x s occs pots resps a1 b1 a2 b2 v1 v2 res st m0 st' w : ss_deform s = [] ->
  measure_sensor_scan (scan_config label lim1 lim2 lims1 lims2 x s) [a1; b1] [a2; b2] v1 v2 res st = (Ok m0, st') ->
  let sh := image_shape (sc_scan m0) in
  let r := measure_sensor_scan (noisy lim1 lim2 lims1 lims2 x s occs pots resps) [a1; b1] [a2; b2] v1 v2 res w in
  match drawn3_all src pots sh (a1, b1) (a2, b2) (w_rng (fst w)) with
  | Err e => raised r e
  | Ok (_, _, _, g) => match drawn_all src resps sh (a1, b1) (a1, b1) g with Err e => raised r e | Ok _ => returned_scan r sh end
  end.
Proof.
  intros Hd M sh r. destruct (scan_inv _ _ _ _ _ _ _ _ _ _ _ _ _ _ _ M) as (l1 & l2 & o & occ0 & p & h & h1 & ps & h2 & E1 & E2 & _ & _ & Ep0 & _).
  injection E1 as A1 B1. injection E2 as A2 B2. assert (l1 = (a1, b1)) as -> by (destruct l1; cbn in *; congruence). assert (l2 = (a2, b2)) as -> by (destruct l2; cbn in *; congruence).
  clear A1 B1 A2 B2 Ep0 occ0 p h h1 ps h2 o.
  unfold measure_sensor_scan in M. destruct (check_sensor_scan (scan_config label lim1 lim2 lims1 lims2 x s) [a1; b1] [a2; b2] v1 v2 res) as [[l1 l2]|e] eqn:Ec; [|discriminate].
  assert (L : l1 = (a1, b1) /\ l2 = (a2, b2)).
  { apply check_scan_iff in Ec. destruct Ec as (_ & F1 & F2). injection F1 as -> ->. injection F2 as -> ->. split; apply surjective_pairing. }
  destruct L as [-> ->].
  destruct (occupations_same src label lim1 lim2 lims1 lims2 x s occs pots resps v1 v2 res) as (q & Q1 & Q2).
  unfold mbind at 1 in M. rewrite Q2 in M. destruct q as [[occ res']|e]; [|discriminate].
  cbn [scan_config sensor scan_object so_potential so_labels so_response sensor_potential_distortions sensor_response_distortions] in M.
  destruct (scan_potential s occ (volt_arg v1) (volt_arg v2) (sweep_arg (a1, b1)) (sweep_arg (a2, b2))) as [[p h]|e] eqn:Ep; [|unfold mbind in M; discriminate].
  assert (No : occ <> OccOther) by (intros ->; discriminate).
  destruct (get_sensor_scan_labels s h (volt_arg v1) (volt_arg v2) (sweep_arg (a1, b1)) (sweep_arg (a2, b2)) p) as [[L h1]|e] eqn:El.
  2:{ unfold mbind in M. unfold joined in M. rewrite join_split in M. cbn [bind] in M. rewrite El in M. discriminate. }
  destruct (scan_potential_pot _ _ _ _ _ _ _ _ Ep) as (Eh & Hn & (o0 & Ho0) & _).
  assert (Hf : first_occ (h_occ h) = Ok o0) by (rewrite Eh; exact Ho0).
  destruct (labels_hidden _ _ _ _ _ _ _ _ _ _ Hn Hf El) as (Ho2 & _ & _).
  assert (Sp : sh = pot_shape p).
  { destruct (response_any s h1 p o0 (or_introl Hd) Hn Ho2) as (off & im & h2 & Er & C & _). rewrite <- (combined_shape _ _ _ _ C). unfold sh.
    unfold mbind in M. unfold joined in M. rewrite join_split in M. cbn [bind] in M. rewrite El in M.
    unfold distort_potential, image_loop, images_loop, opt_list in M.
    destruct occ; [| |contradiction]; cbv beta iota delta [mbind ret] in M; unfold joined in M; rewrite join_split in M; cbn [bind] in M;
    rewrite Er in M; injection M as <- _; reflexivity. }
  clearbody sh. subst sh. assert (Rr : r = measure_sensor_scan (noisy lim1 lim2 lims1 lims2 x s occs pots resps) [a1; b1] [a2; b2] v1 v2 res w) by reflexivity. clearbody r. unfold measure_sensor_scan in Rr.
  change (check_sensor_scan (noisy lim1 lim2 lims1 lims2 x s occs pots resps) [a1; b1] [a2; b2] v1 v2 res) with
    (check_sensor_scan (scan_config label lim1 lim2 lims1 lims2 x s) [a1; b1] [a2; b2] v1 v2 res) in Rr.
  rewrite Ec in Rr. unfold mbind at 1 in Rr. rewrite Q1 in Rr.
  cbn [noisy_scan_config sensor sensor_potential_distortions sensor_response_distortions opt_list] in Rr.
  unfold mbind at 1 in Rr. rewrite (on_sensor_potential _ _ _ _ _ _ _ _ _ Ep) in Rr.
  unfold mbind at 1 in Rr. rewrite (on_sensor_potential _ _ _ _ _ _ _ _ _ Ep) in Rr. cbn [fst] in Rr.
  unfold mbind at 1 in Rr. rewrite (on_sensor_labels _ _ _ _ _ _ _ _ _ _ El) in Rr.
  pose proof (distort_spec src Sok (a1, b1) (a2, b2) pots occ p (fst w, Some h1) No) as D. cbn [fst] in D.
  destruct (drawn3_all src pots (pot_shape p) (a1, b1) (a2, b2) (w_rng (fst w))) as [[[[z0 z1] z2] g]|e].
  2:{ unfold mbind at 1 in Rr. destruct (distort_potential _ _ _ _ _ _) as [[P|e'] w2]; cbn [fst] in D; [discriminate|]. injection D as ->. eexists. exact Rr. }
  destruct D as (P & p' & Ed & J & Np & Ls). unfold mbind at 1 in Rr. rewrite Ed in Rr. unfold set_rng in Rr. cbn [fst snd] in Rr.
  destruct (response_any s h1 p' o0 (or_introl Hd) (noisy_nonempty _ _ _ _ _ Np Hn) Ho2) as (off & im & h2 & Er & C & _).
  unfold mbind at 1 in Rr. rewrite (on_sensor_response _ _ _ _ _ _ _ _ J Er) in Rr.
  assert (Si : image_shape im = pot_shape p) by (rewrite (combined_shape _ _ _ _ C); exact (proj1 Np)).
  pose proof (image_loop_spec src Sok (a1, b1) (a1, b1) resps im (mk_noise_world (w_sigma (fst w)) (w_jump (fst w)) g, Some h2)) as Dl. cbn [fst w_rng] in Dl. rewrite Si in Dl.
  destruct (drawn_all src resps (pot_shape p) (a1, b1) (a1, b1) g) as [[zr g']|e].
  2:{ unfold mbind at 1 in Rr. destruct (image_loop _ _ _ _ _) as [[P'|e'] w2]; cbn [fst] in Dl; [discriminate|]. injection Dl as ->. eexists. exact Rr. }
  destruct Dl as (Lr & im' & E' & Sh & Px). unfold mbind at 1 in Rr. rewrite E' in Rr. eexists. eexists. split; [exact Rr|]. cbn [sc_scan]. exact Sh.
Qed.

Definition given_within (lim : option (R * R)) (v : option R) : Prop :=
  match lim, v with None, _ => True | Some _, None => False | Some (lo, hi), Some x => lo <= x <= hi end.
Lemma noisy_csd_check lim1 lim2 lims1 lims2 x s occs pots resps a1 b1 a2 b2 v1 v2 res :
  well_formed_request [a1; b1] [a2; b2] (res_list res) -> sweep_within lim1 a1 b1 -> sweep_within lim2 a2 b2 ->
  given_within lims1 v1 -> given_within lims2 v2 -> (v1 = None <-> v2 = None) ->
  check_measure (noisy lim1 lim2 lims1 lims2 (Some x) s occs pots resps) [a1; b1] [a2; b2] v1 v2 res = Ok (get_csd_data label x, (a1, b1), (a2, b2)).
Proof.
  intros (c1 & d1 & c2 & d2 & E1 & E2 & Hl & H2) W1 W2 V1 V2 Vb. inversion E1; subst c1 d1. inversion E2; subst c2 d2.
  unfold check_measure, noisy_scan_config. cbn [ideal_csd_config option_map volt_limits_g1 volt_limits_g2 volt_limits_sensor_g1 volt_limits_sensor_g2].
  rewrite (inside_limits _ _ _ W1), (inside_limits _ _ _ W2).
  assert (Sv : forall lim v, given_within lim v -> sensor_volt_outside lim v = Ok false).
  { intros [[lo hi]|] [u|]; cbn; intros H; try contradiction; try reflexivity. rewrite !Rltb_false by lra. reflexivity. }
  rewrite (Sv _ _ V1), (Sv _ _ V2). cbn [orb raise_if bind].
  assert (Nb : xorb (is_none v1) (is_none v2) = false).
  { destruct v1, v2; cbn; try reflexivity; exfalso; [assert (Some r = None) by (apply Vb; reflexivity)|assert (Some r = None) by (apply Vb; reflexivity)]; discriminate. }
  rewrite Nb. cbn [raise_if].
  assert (T1 : too_long res = false).
  { destruct res as [n|l]; [reflexivity|]. cbn [res_list] in Hl. unfold too_long. apply Nat.ltb_ge. exact Hl. }
  rewrite T1. cbn [raise_if].
  destruct (ModelSimulation.is_2d res) eqn:D; [|reflexivity]. cbn [andb].
  destruct res as [n|l]; [discriminate|]. cbn [ModelSimulation.is_2d] in D. apply Nat.eqb_eq in D. cbn [res_list] in *.
  destruct (H2 D) as (N1 & N2 & F). unfold ModelSimulation.fixed_range. cbn [fst snd]. rewrite (Reqb_false a1 b1 N1), (Reqb_false a2 b2 N2).
  cbn [orb raise_if too_small].
  replace (existsb (fun n => (n <=? 1)%Z) l) with false; [reflexivity|]. symmetry.
  apply Bool.not_true_is_false. intros X. apply existsb_exists in X. destruct X as (n & I & L).
  rewrite Forall_forall in F. specialize (F n I). apply Z.leb_le in L. lia.
Qed.
Lemma noisy_csd_outcome lim1 lim2 lims1 lims2 x s occs pots resps a1 b1 a2 b2 v1 v2 res w d r0 n1 sh :
  ss_deform s = [] \/ a1 <> b1 \/ a2 <> b2 ->
  well_formed_request [a1; b1] [a2; b2] (res_list res) -> sweep_within lim1 a1 b1 -> sweep_within lim2 a2 b2 ->
  given_within lims1 v1 -> given_within lims2 v2 -> (v1 = None <-> v2 = None) ->
  ideal_of label x a1 b1 a2 b2 res = Ok d ->
  occupation_loop (map (occ_object src) occs) (get_csd_data label x) (a1, b1) (a2, b2) (csd_arrays d) (fst w) = (r0, n1) ->
  (forall ol, r0 = Ok ol -> fits ol sh) -> shape_size sh <> 0%nat ->
  let r := measure (noisy lim1 lim2 lims1 lims2 (Some x) s occs pots resps) [a1; b1] [a2; b2] v1 v2 res w in
  match r0 with
  | Err e => raised r e
  | Ok _ => match drawn3_all src pots sh (a1, b1) (a2, b2) (w_rng n1) with
            | Err e => raised r e
            | Ok (_, _, _, g) => match drawn_all src resps sh (a1, b1) (a2, b2) g with Err e => raised r e | Ok _ => returned_csd r sh end
            end
  end.
Proof.
  intros Hd Wf W1 W2 V1 V2 Vb Ed Eo Ft Hs r. assert (Rr : r = measure (noisy lim1 lim2 lims1 lims2 (Some x) s occs pots resps) [a1; b1] [a2; b2] v1 v2 res w) by reflexivity. clearbody r. unfold measure in Rr.
  rewrite (noisy_csd_check _ _ _ _ _ _ _ _ _ _ _ _ _ _ _ _ Wf W1 W2 V1 V2 Vb) in Rr.
  unfold mbind at 1 in Rr. unfold get_csd_data at 1 in Rr. cbn [fst snd] in Rr.
  change (ideal_csd_geometric label (g_tcts x) [a1; b1] [a2; b2] res (g_rotation x) (g_lut x) (g_cdf x) (g_gamma x)) with (ideal_of label x a1 b1 a2 b2 res) in Rr.
  rewrite Ed in Rr. cbn [bind] in Rr. unfold mbind at 1 in Rr.
  cbn [noisy_scan_config occupation_distortions opt_list sensor sensor_potential_distortions sensor_response_distortions] in Rr.
  rewrite (lifted_loop src occs _ (get_csd_data label x) (a1, b1) (a2, b2) _ (csd_lifts label x)) in Rr. unfold on_noise at 1 in Rr. rewrite Eo in Rr.
  destruct r0 as [ol|e]; [|eexists; exact Rr]. specialize (Ft ol eq_refl).
  change (so_scan (scan_sensor_object (G := G) s)) with true in Rr. cbv iota in Rr.
  assert (On : occ_nonempty (fst ol) /\ shape_of_occ (fst ol) = Some sh).
  { destruct ol as [[a|a|] [l|l]], sh as [n|rr c]; cbn in Ft; try contradiction; cbn [fst occ_nonempty shape_of_occ]; cbn in Hs.
    - destruct Ft as [-> _]. split; [lia|reflexivity].
    - destruct Ft as (-> & -> & _). split; [|reflexivity]. split; apply Nat.neq_0_lt_0; intros ->; apply Hs; lia. }
  destruct On as [On So].
  destruct (potential_accepts s (fst ol) (a1, b1) (a2, b2) v1 v2 On) as (p & h & Ep).
  assert (No : fst ol <> OccOther) by (intros E; rewrite E in Ep; discriminate).
  destruct (scan_potential_pot _ _ _ _ _ _ _ _ Ep) as (Eh & Hn & (o1 & Ho) & _).
  assert (Sp : pot_shape p = sh).
  { pose proof (csd_cell s (fst ol) v1 v2 (a1, b1) (a2, b2) p h Ep) as Q.
    destruct p as [a|a], (fst ol) as [b|b|]; try contradiction; cbn in So |- *; injection So as <-; [destruct Q; congruence|destruct Q as (? & ? & _); congruence]. }
  assert (G1 : h_g1 h = (a1, b1)) by (rewrite Eh; reflexivity). assert (G2 : h_g2 h = (a2, b2)) by (rewrite Eh; reflexivity).
  assert (Ho' : first_occ (h_occ h) = Ok o1) by (rewrite Eh; exact Ho).
  assert (U : undeformed s h).
  { destruct Hd as [Hd|Hd]; [left; exact Hd|]. right. rewrite G1, G2. unfold fixed. cbn [fst snd]. tauto. }
  unfold mbind at 1 in Rr. rewrite (on_sensor_potential _ _ _ _ _ _ _ _ _ Ep) in Rr. cbn [fst snd] in Rr.
  pose proof (distort_spec src Sok (a1, b1) (a2, b2) pots (fst ol) p (n1, Some h) No) as D. cbn [fst] in D. rewrite Sp in D.
  destruct (drawn3_all src pots sh (a1, b1) (a2, b2) (w_rng n1)) as [[[[z0 z1] z2] g]|e].
  2:{ unfold mbind at 1 in Rr. destruct (distort_potential _ _ _ _ _ _) as [[P|e'] w2]; cbn [fst] in D; [discriminate|]. injection D as ->. eexists. exact Rr. }
  destruct D as (P & p' & Edd & J & Np & Ls). unfold mbind at 1 in Rr. rewrite Edd in Rr. unfold set_rng in Rr. cbn [fst snd] in Rr.
  destruct (response_any s h p' o1 U (noisy_nonempty _ _ _ _ _ Np Hn) Ho') as (off & im & h2 & Er & C & _).
  unfold mbind at 1 in Rr. rewrite (on_sensor_response _ _ _ _ _ _ _ _ J Er) in Rr.
  assert (Si : image_shape im = sh) by (rewrite (combined_shape _ _ _ _ C), <- Sp; exact (proj1 Np)).
  pose proof (image_loop_spec src Sok (a1, b1) (a2, b2) resps im (mk_noise_world (w_sigma n1) (w_jump n1) g, Some h2)) as Dl. cbn [fst w_rng] in Dl. rewrite Si in Dl.
  destruct (drawn_all src resps sh (a1, b1) (a2, b2) g) as [[zr g']|e].
  2:{ unfold mbind at 1 in Rr. destruct (image_loop _ _ _ _ _) as [[P'|e'] w2]; cbn [fst] in Dl; [discriminate|]. injection Dl as ->. eexists. exact Rr. }
  destruct Dl as (Lr & im' & E' & Sh & Px). unfold mbind at 1 in Rr. rewrite E' in Rr. eexists. eexists. split; [exact Rr|]. cbn [m_occ m_csd]. split; [exact So|exact Sh].
Qed.
End Outcome.
