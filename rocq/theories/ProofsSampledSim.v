(** Proofs about measurements of sampled configurations. *)
From Verif Require Import RPrelude Arr ModelSupport ModelTct ModelCsd ModelJumps ModelDistortions ModelSampling ModelSensor ModelSimulation ModelInstance
  ModelNoise ModelConfig ModelConfigCsd ModelScanInstance ModelDefault ModelDefaultNoise ModelScanNoise ModelSampledSim
  SpecSupport SpecTct SpecCsd SpecSensor SpecSampling SpecConfig SpecConfigCsd SpecSimulation SpecDistortions SpecInstance SpecNoise SpecDefaultNoise SpecScanInstance SpecScanNoise SpecSampledSim
  ProofsJumps ProofsDistortions ProofsCsd ProofsOcc ProofsRegions ProofsDriver ProofsScan ProofsSimulation ProofsInstance ProofsScanSensor ProofsSensorMore ProofsNoise ProofsReplay ProofsSuccess ProofsDefault ProofsDefaultNoise
  ProofsScanInstance ProofsScanCsd ProofsScanNoise ProofsScanNoise2 ProofsScanNoise3 ProofsScanNoise4 ProofsConfig ProofsOrder ProofsCover ProofsConfigCsd.
Local Open Scope R_scope.

(** ** Outcome of a measurement with a generic sensor and limits for sensor gates *)
Section Outcome.
Context {G : Type}.
Variable src : sources G.
Hypothesis Sok : sources_ok src.
Variable label : arr2 nat -> arr2 nat.
Definition limited lim1 lim2 lims1 lims2 (x : geometric) (s : generic_sensor) (occs : list (occ_noise G)) (pots resps : list (image_noise G))
  : config (noise_world G) lead_mask response unit :=
  mk_config lim1 lim2 lims1 lims2 (Some (get_csd_data label x)) (generic_object s)
    (Some (map (occ_object src) occs)) (Some (map (image_object src) pots)) (Some (map (image_object src) resps)).

Lemma limited_check lim1 lim2 lims1 lims2 x s occs pots resps a1 b1 a2 b2 v1 v2 res :
  well_formed_request [a1; b1] [a2; b2] (res_list res) -> sweep_within lim1 a1 b1 -> sweep_within lim2 a2 b2 ->
  given_within lims1 v1 -> given_within lims2 v2 -> (v1 = None <-> v2 = None) ->
  check_measure (limited lim1 lim2 lims1 lims2 x s occs pots resps) [a1; b1] [a2; b2] v1 v2 res = Ok (get_csd_data label x, (a1, b1), (a2, b2)).
Proof.
  intros (c1 & d1 & c2 & d2 & E1 & E2 & Hl & H2) W1 W2 V1 V2 Vb. inversion E1; subst c1 d1. inversion E2; subst c2 d2.
  unfold check_measure, limited. cbn [ideal_csd_config volt_limits_g1 volt_limits_g2 volt_limits_sensor_g1 volt_limits_sensor_g2].
  rewrite (inside_limits _ _ _ W1), (inside_limits _ _ _ W2).
  assert (Sv : forall lim v, given_within lim v -> sensor_volt_outside lim v = Ok false).
  { intros [[lo hi]|] [u|]; cbn; intros H; try contradiction; try reflexivity. rewrite !Rltb_false by lra. reflexivity. }
  rewrite (Sv _ _ V1), (Sv _ _ V2). cbn [orb raise_if bind].
  assert (Nb : xorb (is_none v1) (is_none v2) = false).
  { destruct v1, v2; cbn; try reflexivity; exfalso; [assert (Some r = None) by (apply Vb; reflexivity)|assert (Some r = None) by (apply Vb; reflexivity)]; discriminate. }
  rewrite Nb. cbn [raise_if].
  assert (T1 : too_long res = false).
  { destruct res as [n|l]; [reflexivity|]. cbn [res_list] in Hl. unfold too_long. apply Nat.ltb_ge. exact Hl. }
  rewrite T1. cbn [raise_if].
  destruct (ModelSimulation.is_2d res) eqn:D; [|reflexivity]. cbn [andb].
  destruct res as [n|l]; [discriminate|]. cbn [ModelSimulation.is_2d] in D. apply Nat.eqb_eq in D. cbn [res_list] in *.
  destruct (H2 D) as (N1 & N2 & F). unfold ModelSimulation.fixed_range. cbn [fst snd]. rewrite (Reqb_false a1 b1 N1), (Reqb_false a2 b2 N2).
  cbn [orb raise_if too_small].
  replace (existsb (fun n => (n <=? 1)%Z) l) with false; [reflexivity|]. symmetry.
  apply Bool.not_true_is_false. intros X. apply existsb_exists in X. destruct X as (n & I & L).
  rewrite Forall_forall in F. specialize (F n I). apply Z.leb_le in L. lia.
Qed.
(** Without sensor voltages *)
Lemma limited_without lim1 lim2 l1 l2 x s occs pots resps a1 b1 a2 b2 v2 res w :
  sweep_within lim1 a1 b1 -> sweep_within lim2 a2 b2 ->
  measure (limited lim1 lim2 (Some l1) l2 x s occs pots resps) [a1; b1] [a2; b2] None v2 res w = (Err TypeError, w).
Proof.
  intros W1 W2. unfold measure, check_measure, limited. cbn [ideal_csd_config volt_limits_g1 volt_limits_g2 volt_limits_sensor_g1 volt_limits_sensor_g2].
  rewrite (inside_limits _ _ _ W1), (inside_limits _ _ _ W2). destruct l1. reflexivity.
Qed.
Lemma limited_outcome lim1 lim2 lims1 lims2 x s ps occs pots resps a1 b1 a2 b2 v1 v2 res w d r0 w1 sh :
  gs_peaks s = Some ps -> ps <> [] ->
  well_formed_request [a1; b1] [a2; b2] (res_list res) -> sweep_within lim1 a1 b1 -> sweep_within lim2 a2 b2 ->
  given_within lims1 v1 -> given_within lims2 v2 -> (v1 = None <-> v2 = None) ->
  ideal_of label x a1 b1 a2 b2 res = Ok d ->
  occupation_loop (map (occ_object src) occs) (get_csd_data label x) (a1, b1) (a2, b2) (csd_arrays d) w = (r0, w1) ->
  (forall ol, r0 = Ok ol -> fits ol sh) -> shape_size sh <> 0%nat ->
  (forall g, exists z g', drawn_all src pots sh (a1, b1) (a2, b2) g = Ok (z, g')) ->
  (forall g, exists z g', drawn_all src resps sh (a1, b1) (a2, b2) g = Ok (z, g')) ->
  let r := measure (limited lim1 lim2 lims1 lims2 x s occs pots resps) [a1; b1] [a2; b2] v1 v2 res w in
  match r0 with Err e => raised r e | Ok _ => returned r sh end.
Proof.
  intros Hp Hn Wf W1 W2 V1 V2 Vb Ed Eo Fa Hs D1 D2 r.
  assert (Rr : r = measure (limited lim1 lim2 lims1 lims2 x s occs pots resps) [a1; b1] [a2; b2] v1 v2 res w) by reflexivity. clearbody r. unfold measure in Rr.
  rewrite (limited_check _ _ _ _ _ _ _ _ _ _ _ _ _ _ _ _ Wf W1 W2 V1 V2 Vb) in Rr.
  unfold mbind at 1 in Rr. unfold get_csd_data at 1 in Rr. cbn [fst snd] in Rr.
  change (ideal_csd_geometric label (g_tcts x) [a1; b1] [a2; b2] res (g_rotation x) (g_lut x) (g_cdf x) (g_gamma x)) with (ideal_of label x a1 b1 a2 b2 res) in Rr.
  rewrite Ed in Rr. cbn [bind] in Rr.
  cbn [limited occupation_distortions opt_list sensor so_scan so_potential generic_object sensor_potential_distortions sensor_response_distortions so_response] in Rr.
  unfold mbind at 1 in Rr. rewrite Eo in Rr. destruct r0 as [ol|e]; [|eexists; exact Rr].
  specialize (Fa ol eq_refl). rename Fa into Ft.
  unfold mbind at 1 in Rr. cbn [sweep_arg as_limits fst snd] in Rr.
  assert (Ip : exists im, generic_potential s (fst ol) (a1, b1) (a2, b2) = Ok im /\ image_shape im = sh /\ shape_of_occ (fst ol) = Some sh).
  { destruct ol as [[a|a|] [l|l]], sh as [n|rr c]; cbn in Ft; try contradiction; cbn [fst generic_potential shape_of_occ].
    - destruct Ft as [-> _]. cbn in Hs. unfold raise_if. destruct (n =? 0)%nat eqn:E; [apply Nat.eqb_eq in E; lia|]. eexists. split; [reflexivity|]. auto.
    - destruct Ft as (-> & -> & _). cbn in Hs. unfold raise_if.
      assert (Z0 : ((rr =? 0)%nat || (c =? 0)%nat)%bool = false).
      { apply Bool.orb_false_iff. split; apply Nat.eqb_neq; intros ->; apply Hs; lia. }
      rewrite Z0. eexists. split; [reflexivity|]. auto. }
  destruct Ip as (im & Ei & Si & So). rewrite Ei in Rr. cbn [bind] in Rr.
  unfold mbind at 1 in Rr. unfold distort_potential in Rr. cbn [opt_list] in Rr.
  assert (K : (match fst ol with
               | OccOther => ret (PotOne (RImage im))
               | _ => do y <- image_loop (map (image_object src) pots) (a1, b1) (a2, b2) (RImage im); ret (PotOne y)
               end) = (do y <- image_loop (map (image_object src) pots) (a1, b1) (a2, b2) (RImage im); @ret (noise_world G) _ (PotOne y))).
  { destruct (fst ol); [reflexivity|reflexivity|discriminate]. }
  rewrite K in Rr. clear K. unfold mbind at 1 in Rr.
  destruct (D1 (w_rng w1)) as (z1 & g2 & Dr1).
  pose proof (loop_spec src Sok (a1, b1) (a2, b2) pots im w1) as L1. rewrite Si, Dr1 in L1. destruct L1 as (_ & im1 & E1 & Sh1 & _).
  rewrite E1 in Rr. unfold ret in Rr. unfold mbind at 1 in Rr.
  assert (Rs : generic_response s im1 = RImage (map_image (sum_peaks ps) im1)).
  { unfold generic_response. rewrite Hp. destruct ps; [congruence|reflexivity]. }
  rewrite Rs in Rr. unfold mbind at 1 in Rr.
  destruct (D2 g2) as (z2 & g3 & Dr2).
  pose proof (loop_spec src Sok (a1, b1) (a2, b2) resps (map_image (sum_peaks ps) im1) (mk_noise_world (w_sigma w1) (w_jump w1) g2)) as L2.
  assert (Sm : image_shape (map_image (sum_peaks ps) im1) = sh) by (rewrite <- Sh1; destruct im1; reflexivity).
  rewrite Sm in L2. cbn [w_rng w_sigma w_jump] in L2. rewrite Dr2 in L2. destruct L2 as (_ & im2 & E2 & Sh2 & _). rewrite E2 in Rr.
  do 3 eexists. split; [exact Rr|]. cbn [m_occ m_csd]. auto.
Qed.
End Outcome.

(** ** Pixels per volt of the telegraph noise *)
Lemma rtn_fine u1 u2 l1 l2 r c : fine u1 u2 0.0119 l1 l2 (Shape2 r c) -> exists k, rtn_px_per_volt (Shape2 r c) l1 l2 = Ok k /\ 45 <= k.
Proof.
  intros (_ & _ & _ & _ & Hr & Hc & D1 & D2 & P1 & P2). cbn [rtn_px_per_volt].
  destruct (fixed_gate_dec l1) as [[_ F1]|[-> _]]; [contradiction|]. destruct (fixed_gate_dec l2) as [[_ F2]|[-> _]]; [contradiction|].
  rewrite !div_range_ok by auto. cbn [bind]. eexists. split; [reflexivity|].
  assert (R1 : 0 < Rabs (snd l1 - fst l1)) by (apply Rabs_pos_lt; lra). assert (R2 : 0 < Rabs (snd l2 - fst l2)) by (apply Rabs_pos_lt; lra).
  set (x := Rabs (snd l1 - fst l1)) in *. set (y := Rabs (snd l2 - fst l2)) in *.
  assert (Ir : INR (r - 1) <= INR r) by (apply le_INR; lia). assert (Ic : INR (c - 1) <= INR c) by (apply le_INR; lia).
  destruct (Rle_or_lt x y) as [L|L].
  - apply Rle_trans with (INR r / x); [|apply Rmax_l]. apply Rmult_le_reg_r with x; [lra|]. replace (INR r / x * x) with (INR r) by (field; lra). lra.
  - apply Rle_trans with (INR c / y); [|apply Rmax_r]. apply Rmult_le_reg_r with y; [lra|]. replace (INR c / y * y) with (INR c) by (field; lra). lra.
Qed.

(** ** Sampled ideal data *)
Section Ideal.
Context {G : Type} (r : rng G) (fuel : nat).
Hypothesis U : uniform_ok r.
Variable label : arr2 nat -> arr2 nat.
Hypothesis Lab : forall m, is_labelling m (label m).
Notation fine := (fine (-0.06) (-0.06) 0.0119).

(** Scans below the upper ends of the limits succeed, wherever they begin. *)
Lemma sampled_scan_ok g x g1 a1 b1 a2 b2 nx ny : sample_ideal_csd r fuel label g = (Ok x, g1) ->
  a1 <= -0.06 -> b1 <= -0.06 -> a2 <= -0.06 -> b2 <= -0.06 -> a1 <> b1 -> a2 <> b2 -> (2 <= nx)%nat -> (2 <= ny)%nat ->
  Rabs (b1 - a1) <= 0.0119 * INR (nx - 1) -> Rabs (b2 - a2) <= 0.0119 * INR (ny - 1) ->
  exists occ lead, ideal_of label x a1 b1 a2 b2 (ResArray [Z.of_nat nx; Z.of_nat ny]) = Ok (Csd2 occ lead).
Proof.
  intros E A1 B1 A2 B2 N1 N2 Hx Hy P1 P2.
  destruct (sampled_last r fuel U label Lab _ _ _ E) as (p & d & n & F & H & B & -> & HF & Lo).
  unfold ideal_of. cbn [g_tcts g_lut g_rotation g_cdf g_gamma sampled_csd]. pose proof sqrt2_bounds as Q.
  assert (Srt : forall a b k, a <> b -> (2 <= k)%nat -> a <= -0.06 -> b <= -0.06 -> Rabs (b - a) <= 0.0119 * INR (k - 1) ->
    snd (np_sort (a, b)) + spacing (np_sort (a, b)) k / 2 <= -0.05405).
  { intros a b k N K Ha Hb P. assert (Pk : 0 < INR (k - 1)) by (apply lt_0_INR; lia).
    assert (Dv : forall d, d <= 0.0119 * INR (k - 1) -> d / INR (k - 1) <= 0.0119).
    { intros d' Hd. apply Rmult_le_reg_r with (INR (k - 1)); [auto|]. unfold Rdiv. rewrite Rmult_assoc, Rinv_l by lra. lra. }
    unfold spacing. destruct (Rle_lt_dec a b) as [L|L].
    - rewrite np_sort_asc by (simpl; lra). cbn [fst snd]. rewrite Rabs_pos_eq in P by lra. specialize (Dv _ P). lra.
    - rewrite np_sort_desc by (simpl; lra). unfold swap. cbn [fst snd]. rewrite Rabs_left in P by lra. specialize (Dv (a - b) ltac:(lra)). lra. }
  pose proof (Srt a1 b1 nx N1 Hx A1 B1 P1) as X. pose proof (Srt a2 b2 ny N2 Hy A2 B2 P2) as Y.
  assert (LT : length (stack p d n) = n) by apply stack_length.
  apply (scan_below_ok label (stack p d n) (moved (mult (n - 1) d) p) F a1 b1 a2 b2 nx ny (Some 1000%nat) Sigmoid None
    (covered_config p d n H ltac:(lia) label Lab)); auto.
  - rewrite LT. apply nth_stack. lia.
  - rewrite LT. exact HF.
  - intros q1 q2 W1 W2 _ _. set (x := (q1 - q2) / sqrt 2). set (y := (q1 + q2) / sqrt 2).
    assert (Ex : sqrt 2 * x = q1 - q2) by (unfold x; field; lra). assert (Ey : sqrt 2 * y = q1 + q2) by (unfold y; field; lra).
    specialize (Lo x).
    assert (G1 : y + x < -0.0764) by (assert (sqrt 2 * (y + x) = 2 * q1) by lra; nra).
    assert (G2 : y - x < -0.0764) by (assert (sqrt 2 * (y - x) = 2 * q2) by lra; nra).
    revert Lo. unfold Rabs. destruct (Rcase_abs x); lra.
Qed.
Lemma sampled_1d g x g1 a1 b1 a2 b2 res n : sample_ideal_csd r fuel label g = (Ok x, g1) -> res_list res = [Z.of_nat n] ->
  exists d, ideal_of label x a1 b1 a2 b2 res = Ok d.
Proof.
  intros E Hr. destruct (proj1 (sampled_ordered r fuel U label Lab _ _ _ E)) as (P & Len & K & _). destruct (gamma_known _ (g_gamma x) K) as [gm Hg].
  destruct (csd_1d label (g_tcts x) a1 b1 a2 b2 res n (g_rotation x) (g_lut x) (g_cdf x) (g_gamma x) gm P K Hg Hr) as (occ & lead & E' & _).
  eexists. exact E'.
Qed.
Lemma sampled_fits g x g1 a1 b1 a2 b2 res d sh : sample_ideal_csd r fuel label g = (Ok x, g1) ->
  ideal_of label x a1 b1 a2 b2 res = Ok d -> requested res sh -> fits (csd_arrays d) sh.
Proof.
  intros Es E Hr. pose proof (ideal_shape label x a1 b1 a2 b2 res d (proj1 (sampled_ordered r fuel U label Lab _ _ _ Es)) E) as H. destruct d as [occ lead|occ lead].
  - destruct H as (n & Hn & Ho & Hl). destruct sh as [m|rr c]; cbn [requested] in Hr; rewrite Hn in Hr; [|discriminate]. injection Hr as Hr. apply Nat2Z.inj in Hr. subst m. cbn. auto.
  - destruct H as (nx & ny & -> & _ & _ & H1 & H2 & H3 & H4). destruct sh as [m|rr c]; cbn [requested res_list] in Hr; [discriminate|]. injection Hr as Hx Hy.
    apply Nat2Z.inj in Hx, Hy. subst nx ny. cbn. auto.
Qed.
Lemma sampled_served {H} g x g1 (w : noise_world H) l1 l2 sh : sample_ideal_csd r fuel label g = (Ok x, g1) -> fine l1 l2 sh ->
  served (get_csd_data label x) w l1 l2 sh.
Proof.
  intros Es (A1 & B1 & A2 & B2 & Sh). destruct l1 as [a1 b1], l2 as [a2 b2]. cbn [fst snd] in *.
  assert (E : exists d, ideal_of label x a1 b1 a2 b2 (res_of sh) = Ok d).
  { destruct sh as [n|rr c]; cbn [res_of].
    - apply (sampled_1d g x g1 a1 b1 a2 b2 (ResInt (Z.of_nat n)) n Es). reflexivity.
    - destruct Sh as (Hr & Hc & D1 & D2 & P1 & P2).
      destruct (sampled_scan_ok g x g1 a1 b1 a2 b2 c rr Es A1 B1 A2 B2 D1 D2 Hc Hr P1 P2) as (occ & lead & E). eexists. exact E. }
  destruct E as [d E]. exists (csd_arrays d). split.
  - unfold get_csd_data. cbn [fst snd]. change (ideal_csd_geometric label (g_tcts x) [a1; b1] [a2; b2] (res_of sh) (g_rotation x) (g_lut x) (g_cdf x) (g_gamma x)) with (ideal_of label x a1 b1 a2 b2 (res_of sh)).
    rewrite E. reflexivity.
  - eapply sampled_fits; [exact Es|exact E|]. destruct sh; reflexivity.
Qed.
End Ideal.
