(** Proofs that the default configuration with its distortions can be measured. *)
From Verif Require Import RPrelude Arr ModelSupport ModelTct ModelCsd ModelJumps ModelDistortions ModelSensor ModelSimulation ModelInstance
  ModelNoise ModelConfig ModelDefault ModelDefaultNoise SpecSupport SpecTct SpecCsd SpecSensor SpecSimulation SpecDistortions SpecInstance SpecNoise
  ProofsJumps ProofsDistortions ProofsCsd ProofsOcc ProofsRegions ProofsDriver ProofsScan ProofsInstance ProofsNoise ProofsReplay ProofsSuccess ProofsDefault SpecDefaultNoise.
Local Open Scope R_scope.

Section Outcome.
Context {G : Type}.
Variable src : sources G.
Hypothesis Sok : sources_ok src.
Variable label : arr2 nat -> arr2 nat.
Notation world := (noise_world G).

Lemma noisy_check lim1 lim2 x s occs pots resps a1 b1 a2 b2 res :
  well_formed_request [a1; b1] [a2; b2] (res_list res) -> sweep_within lim1 a1 b1 -> sweep_within lim2 a2 b2 ->
  check_measure (noisy_config src label lim1 lim2 x s occs pots resps) [a1; b1] [a2; b2] None None res = Ok (get_csd_data label x, (a1, b1), (a2, b2)).
Proof.
  intros (c1 & d1 & c2 & d2 & E1 & E2 & Hl & H2) W1 W2. inversion E1; subst c1 d1. inversion E2; subst c2 d2.
  unfold check_measure, noisy_config. cbn [ideal_csd_config volt_limits_g1 volt_limits_g2 volt_limits_sensor_g1 volt_limits_sensor_g2].
  rewrite (inside_limits _ _ _ W1), (inside_limits _ _ _ W2). cbn [orb raise_if sensor_volt_outside bind is_none xorb].
  assert (T1 : too_long res = false).
  { destruct res as [n|l]; [reflexivity|]. cbn [res_list] in Hl. unfold too_long. apply Nat.ltb_ge. exact Hl. }
  rewrite T1. cbn [raise_if].
  destruct (ModelSimulation.is_2d res) eqn:D; [|reflexivity]. cbn [andb].
  destruct res as [n|l]; [discriminate|]. cbn [ModelSimulation.is_2d] in D. apply Nat.eqb_eq in D. cbn [res_list] in *.
  destruct (H2 D) as (N1 & N2 & F). unfold ModelSimulation.fixed_range. cbn [fst snd]. rewrite (Reqb_false a1 b1 N1), (Reqb_false a2 b2 N2).
  cbn [orb raise_if too_small].
  replace (existsb (fun n => (n <=? 1)%Z) l) with false; [reflexivity|]. symmetry.
  apply Bool.not_true_is_false. intros X. apply existsb_exists in X. destruct X as (n & I & L).
  rewrite Forall_forall in F. specialize (F n I). apply Z.leb_le in L. lia.
Qed.

(** The outcome of a measurement, given those of its steps. *)
Lemma noisy_ok lim1 lim2 x s ps occs pots resps a1 b1 a2 b2 res w d ol w1 sh :
  gs_peaks s = Some ps -> ps <> [] ->
  well_formed_request [a1; b1] [a2; b2] (res_list res) -> sweep_within lim1 a1 b1 -> sweep_within lim2 a2 b2 ->
  ideal_of label x a1 b1 a2 b2 res = Ok d ->
  occupation_loop (map (occ_object src) occs) (get_csd_data label x) (a1, b1) (a2, b2) (csd_arrays d) w = (Ok ol, w1) ->
  fits ol sh -> shape_size sh <> 0%nat ->
  (forall g, exists z g', drawn_all src pots sh (a1, b1) (a2, b2) g = Ok (z, g')) ->
  (forall g, exists z g', drawn_all src resps sh (a1, b1) (a2, b2) g = Ok (z, g')) ->
  exists m im w', measure (noisy_config src label lim1 lim2 x s occs pots resps) [a1; b1] [a2; b2] None None res w = (Ok m, w') /\
    shape_of_occ (m_occ m) = Some sh /\ m_csd m = RImage im /\ image_shape im = sh.
Proof.
  intros Hp Hn Wf W1 W2 Ed Eo Ft Hs D1 D2. unfold measure.
  rewrite (noisy_check _ _ _ _ _ _ _ _ _ _ _ _ Wf W1 W2).
  unfold mbind at 1. unfold get_csd_data at 1. cbn [fst snd].
  change (ideal_csd_geometric label (g_tcts x) [a1; b1] [a2; b2] res (g_rotation x) (g_lut x) (g_cdf x) (g_gamma x)) with (ideal_of label x a1 b1 a2 b2 res).
  rewrite Ed. cbn [bind].
  cbn [noisy_config occupation_distortions opt_list sensor so_scan so_potential generic_object sensor_potential_distortions sensor_response_distortions so_response].
  unfold mbind at 1. rewrite Eo. unfold mbind at 1. cbn [sweep_arg as_limits fst snd].
  assert (Ip : exists im, generic_potential s (fst ol) (a1, b1) (a2, b2) = Ok im /\ image_shape im = sh /\ shape_of_occ (fst ol) = Some sh).
  { destruct ol as [[a|a|] [l|l]], sh as [n|r c]; cbn in Ft; try contradiction; cbn [fst generic_potential shape_of_occ].
    - destruct Ft as [-> _]. cbn in Hs. unfold raise_if. destruct (n =? 0)%nat eqn:E; [apply Nat.eqb_eq in E; lia|]. eexists. split; [reflexivity|]. auto.
    - destruct Ft as (-> & -> & _). cbn in Hs. unfold raise_if.
      assert (Z0 : ((r =? 0)%nat || (c =? 0)%nat)%bool = false).
      { apply Bool.orb_false_iff. split; apply Nat.eqb_neq; intros ->; apply Hs; lia. }
      rewrite Z0. eexists. split; [reflexivity|]. auto. }
  destruct Ip as (im & Ei & Si & So). rewrite Ei. cbn [bind].
  unfold mbind at 1. unfold distort_potential. cbn [opt_list].
  assert (K : (match fst ol with
               | OccOther => ret (PotOne (RImage im))
               | _ => do y <- image_loop (map (image_object src) pots) (a1, b1) (a2, b2) (RImage im); ret (PotOne y)
               end) = (do y <- image_loop (map (image_object src) pots) (a1, b1) (a2, b2) (RImage im); @ret (noise_world G) _ (PotOne y))).
  { destruct (fst ol); [reflexivity|reflexivity|discriminate]. }
  rewrite K. clear K. unfold mbind at 1.
  destruct (D1 (w_rng w1)) as (z1 & g2 & Dr1).
  pose proof (loop_spec src Sok (a1, b1) (a2, b2) pots im w1) as L1. rewrite Si, Dr1 in L1. destruct L1 as (_ & im1 & -> & Sh1 & _).
  unfold ret. unfold mbind at 1.
  assert (Rs : generic_response s im1 = RImage (map_image (sum_peaks ps) im1)).
  { unfold generic_response. rewrite Hp. destruct ps; [congruence|reflexivity]. }
  rewrite Rs. unfold mbind at 1.
  destruct (D2 g2) as (z2 & g3 & Dr2).
  pose proof (loop_spec src Sok (a1, b1) (a2, b2) resps (map_image (sum_peaks ps) im1) (mk_noise_world (w_sigma w1) (w_jump w1) g2)) as L2.
  assert (Sm : image_shape (map_image (sum_peaks ps) im1) = sh) by (rewrite <- Sh1; destruct im1; reflexivity).
  rewrite Sm in L2. cbn [w_rng w_sigma w_jump] in L2. rewrite Dr2 in L2. destruct L2 as (_ & im2 & -> & Sh2 & _).
  do 3 eexists. split; [reflexivity|]. cbn [m_occ m_csd]. auto.
Qed.
Lemma noisy_fails lim1 lim2 x s occs pots resps a1 b1 a2 b2 res w d e w1 :
  well_formed_request [a1; b1] [a2; b2] (res_list res) -> sweep_within lim1 a1 b1 -> sweep_within lim2 a2 b2 ->
  ideal_of label x a1 b1 a2 b2 res = Ok d ->
  occupation_loop (map (occ_object src) occs) (get_csd_data label x) (a1, b1) (a2, b2) (csd_arrays d) w = (Err e, w1) ->
  measure (noisy_config src label lim1 lim2 x s occs pots resps) [a1; b1] [a2; b2] None None res w = (Err e, w1).
Proof.
  intros Wf W1 W2 Ed Eo. unfold measure.
  rewrite (noisy_check _ _ _ _ _ _ _ _ _ _ _ _ Wf W1 W2).
  unfold mbind at 1. unfold get_csd_data at 1. cbn [fst snd].
  change (ideal_csd_geometric label (g_tcts x) [a1; b1] [a2; b2] res (g_rotation x) (g_lut x) (g_cdf x) (g_gamma x)) with (ideal_of label x a1 b1 a2 b2 res).
  rewrite Ed. cbn [bind].
  cbn [noisy_config occupation_distortions opt_list].
  unfold mbind at 1. rewrite Eo. reflexivity.
Qed.

(** ** Noise that can be drawn *)
Lemma telegraph_drawn ratio scale std height sh l1 l2 g k : rtn_px_per_volt sh l1 l2 = Ok k -> (forall g, 1 <= fst (scale g) * k) ->
  exists z g', drawn src (Telegraph ratio scale std height) sh l1 l2 g = Ok (z, g').
Proof.
  intros Hk Hs. cbn [drawn]. destruct (src_binomial src ratio g) as [act g1]. destruct act; cbn [negb]; [|eauto].
  specialize (Hs g1). destruct (scale g1) as [sv g2]. cbn [fst] in Hs. rewrite Hk. cbn [bind]. destruct (std g2) as [sd g3]. destruct (height g3) as [h g4].
  rewrite Reqb_false by lra. rewrite Rltb_false by lra. destruct (src_geometric src _ _ _) as [ls g5]. destruct (block_noise _ _ _ _ _) as [z g6]. eauto.
Qed.
Lemma white_drawn sigma sh l1 l2 g : (forall g, 0 <= fst (sigma g)) -> exists z g', drawn src (White sigma) sh l1 l2 g = Ok (z, g').
Proof.
  intros H. cbn [drawn]. specialize (H g). destruct (sigma g) as [sg g1]. cbn [fst] in H. rewrite Rltb_false by lra. destruct (src_standard src _ _) as [z g2]. eauto.
Qed.
Lemma pink_drawn sigma fmin sh l1 l2 g : exists z g', drawn src (Pink sigma fmin) sh l1 l2 g = Ok (z, g').
Proof. cbn [drawn]. destruct (sigma g) as [sg g1]. destruct (src_powerlaw src _ _ _) as [z g2]. eauto. Qed.
Lemma all_drawn ds sh l1 l2 : Forall (fun d => forall g, exists z g', drawn src d sh l1 l2 g = Ok (z, g')) ds ->
  forall g, exists z g', drawn_all src ds sh l1 l2 g = Ok (z, g').
Proof.
  induction 1 as [|d ds Hd _ IH]; intros g; cbn [drawn_all]; [eauto|].
  destruct (Hd g) as (z & g1 & ->). cbn [bind fst snd]. destruct (IH g1) as (z' & g2 & ->). cbn [bind fst snd]. eauto.
Qed.
Lemma default_draws white pink sh l1 l2 k : (forall g, 0 <= fst (white g)) -> rtn_px_per_volt sh l1 l2 = Ok k -> 45 <= k ->
  (forall g, exists z g', drawn_all src (default_potential pink) sh l1 l2 g = Ok (z, g')) /\
  (forall g, exists z g', drawn_all src (default_response white) sh l1 l2 g = Ok (z, g')).
Proof.
  intros Hw Hk Hb. split; apply all_drawn; apply Forall_cons; [|apply Forall_cons; [|apply Forall_nil]| |apply Forall_cons; [|apply Forall_nil]]; intros g.
  - apply pink_drawn.
  - eapply telegraph_drawn; [exact Hk|]. intros g'. cbn [given fst]. lra.
  - eapply telegraph_drawn; [exact Hk|]. intros g'. cbn [given fst]. lra.
  - apply white_drawn, Hw.
Qed.

(** ** Jumps along a gate that is not swept *)
Lemma jumps_fail k axis ratio scale lam ol sh l1 l2 gen w e : fits ol sh -> fst (src_binomial src ratio (w_rng w)) = true ->
  jump_px_per_volt axis sh l1 l2 = Err e ->
  od_noise (occ_object src (Jumps k axis ratio scale lam)) (fst ol) (snd ol) l1 l2 gen false w = (Err e, w).
Proof.
  intros Hf Hb Hq. destruct ol as [occ lead]. cbn [fst snd occ_object jumps_object od_noise].
  assert (Hs : exists s, jump_scan occ lead = Some s /\ scan_shape s = sh).
  { destruct occ as [a|a|], lead as [l|l], sh as [n|r c]; cbn in Hf; try contradiction; (eexists; split; [reflexivity|]); cbn; [destruct Hf; congruence|destruct Hf as (?&?&_); congruence]. }
  destruct Hs as (s & Es & Sh). rewrite Es, Sh. unfold jump_draw. cbn [andb]. destruct (src_binomial src ratio (w_rng w)) as [act g1]. cbn [fst] in Hb. subst act. cbn [negb].
  destruct (scale g1) as [sv g2]. destruct (lam g2) as [lv g3]. rewrite Hq. reflexivity.
Qed.
Lemma jumps_inactive k axis ratio scale lam ol sh l1 l2 gen w : fits ol sh -> fst (src_binomial src ratio (w_rng w)) = false ->
  exists w', od_noise (occ_object src (Jumps k axis ratio scale lam)) (fst ol) (snd ol) l1 l2 gen false w = (Ok (ol, ol), w') /\
    w_sigma w' = w_sigma w /\ w_rng w' = snd (src_binomial src ratio (w_rng w)).
Proof.
  intros Hf Hb. destruct ol as [occ lead]. cbn [fst snd occ_object jumps_object od_noise].
  assert (Hs : exists s, jump_scan occ lead = Some s /\ scan_shape s = sh).
  { destruct occ as [a|a|], lead as [l|l], sh as [n|r c]; cbn in Hf; try contradiction; (eexists; split; [reflexivity|]); cbn; [destruct Hf; congruence|destruct Hf as (?&?&_); congruence]. }
  destruct Hs as (s & Es & Sh). rewrite Es, Sh. unfold jump_draw. cbn [andb]. destruct (src_binomial src ratio (w_rng w)) as [act g1]. cbn [fst snd] in *. subst act. cbn [negb].
  eexists. split; [reflexivity|]. auto.
Qed.
End Outcome.

(** ** Ideal data of the default configuration *)
Section Default.
Context {G : Type}.
Variable src : sources G.
Hypothesis Sok : sources_ok src.
Variable label : arr2 nat -> arr2 nat.
Hypothesis Lab : forall m, is_labelling m (label m).
Notation world := (noise_world G).
Notation fine := (fine (snd limits_g1) (snd limits_g2) 0.004).

Lemma ideal_fits a1 b1 a2 b2 res d sh : ideal_of label default_csd a1 b1 a2 b2 res = Ok d -> requested res sh -> fits (csd_arrays d) sh.
Proof.
  intros E Hr. pose proof (ideal_shape label default_csd a1 b1 a2 b2 res d (default_config label Lab) E) as H. destruct d as [occ lead|occ lead].
  - destruct H as (n & Hn & Ho & Hl). destruct sh as [m|r c]; cbn [requested] in Hr; rewrite Hn in Hr; [|discriminate]. injection Hr as Hr. apply Nat2Z.inj in Hr. subst m. cbn. auto.
  - destruct H as (nx & ny & -> & _ & _ & H1 & H2 & H3 & H4). destruct sh as [m|r c]; cbn [requested res_list] in Hr; [discriminate|]. injection Hr as Hx Hy.
    apply Nat2Z.inj in Hx, Hy. subst nx ny. cbn. auto.
Qed.
Lemma default_1d a1 b1 a2 b2 res n : res_list res = [Z.of_nat n] -> exists d, ideal_of label default_csd a1 b1 a2 b2 res = Ok d.
Proof.
  intros Hr. destruct (default_config label Lab) as (P & Len & K & _). destruct (gamma_known _ (g_gamma default_csd) K) as [g Hg].
  destruct (csd_1d label (g_tcts default_csd) a1 b1 a2 b2 res n (g_rotation default_csd) (g_lut default_csd) (g_cdf default_csd) (g_gamma default_csd) g P K Hg Hr) as (occ & lead & E & _).
  eexists. exact E.
Qed.
Lemma default_served (w : world) l1 l2 sh : fine l1 l2 sh -> served (get_csd_data label default_csd) w l1 l2 sh.
Proof.
  intros (A1 & B1 & A2 & B2 & Sh). destruct l1 as [a1 b1], l2 as [a2 b2]. cbn [fst snd] in *.
  assert (E : exists d, ideal_of label default_csd a1 b1 a2 b2 (res_of sh) = Ok d).
  { destruct sh as [n|r c]; cbn [res_of].
    - apply (default_1d a1 b1 a2 b2 (ResInt (Z.of_nat n)) n). reflexivity.
    - destruct Sh as (Hr & Hc & D1 & D2 & P1 & P2).
      destruct (default_scan_ok label Lab a1 b1 a2 b2 c r D1 D2 Hc Hr A1 B1 A2 B2 P1 P2) as (occ & lead & E). eexists. exact E. }
  destruct E as [d E]. exists (csd_arrays d). split.
  - unfold get_csd_data. cbn [fst snd]. change (ideal_csd_geometric label (g_tcts default_csd) [a1; b1] [a2; b2] (res_of sh) (g_rotation default_csd) (g_lut default_csd) (g_cdf default_csd) (g_gamma default_csd)) with (ideal_of label default_csd a1 b1 a2 b2 (res_of sh)).
    rewrite E. reflexivity.
  - eapply ideal_fits; [exact E|]. destruct sh; reflexivity.
Qed.

(** Pixels per volt of the telegraph noise *)
Lemma rtn_2d l1 l2 r c : fine l1 l2 (Shape2 r c) -> exists k, rtn_px_per_volt (Shape2 r c) l1 l2 = Ok k /\ 45 <= k.
Proof.
  intros (_ & _ & _ & _ & Hr & Hc & D1 & D2 & P1 & P2). cbn [rtn_px_per_volt].
  destruct (fixed_gate_dec l1) as [[_ F1]|[-> _]]; [contradiction|]. destruct (fixed_gate_dec l2) as [[_ F2]|[-> _]]; [contradiction|].
  rewrite !div_range_ok by auto. cbn [bind]. eexists. split; [reflexivity|].
  assert (R1 : 0 < Rabs (snd l1 - fst l1)) by (apply Rabs_pos_lt; lra). assert (R2 : 0 < Rabs (snd l2 - fst l2)) by (apply Rabs_pos_lt; lra).
  set (x := Rabs (snd l1 - fst l1)) in *. set (y := Rabs (snd l2 - fst l2)) in *.
  assert (Ir : INR (r - 1) <= INR r) by (apply le_INR; lia). assert (Ic : INR (c - 1) <= INR c) by (apply le_INR; lia).
  destruct (Rle_or_lt x y) as [L|L].
  - apply Rle_trans with (INR r / x); [|apply Rmax_l]. apply Rmult_le_reg_r with x; [lra|]. replace (INR r / x * x) with (INR r) by (field; lra). lra.
  - apply Rle_trans with (INR c / y); [|apply Rmax_r]. apply Rmult_le_reg_r with y; [lra|]. replace (INR c / y * y) with (INR c) by (field; lra). lra.
Qed.
Lemma rtn_1d l1 l2 n : (fst l1 <> snd l1 \/ fst l2 <> snd l2) -> Rabs (snd l1 - fst l1) <= 0.155 -> Rabs (snd l2 - fst l2) <= 0.155 -> (7 <= n)%nat ->
  exists k, rtn_px_per_volt (Shape1 n) l1 l2 = Ok k /\ 45 <= k.
Proof.
  intros D P1 P2 Hn. cbn [rtn_px_per_volt]. rewrite !range_abs. set (x := Rabs (snd l1 - fst l1)) in *. set (y := Rabs (snd l2 - fst l2)) in *.
  assert (M : 0 < Rmax x y).
  { destruct D as [D|D]; [apply Rlt_le_trans with x; [apply Rabs_pos_lt; lra|apply Rmax_l]|apply Rlt_le_trans with y; [apply Rabs_pos_lt; lra|apply Rmax_r]]. }
  rewrite Reqb_false by lra. eexists. split; [reflexivity|].
  assert (U : Rmax x y <= 0.155) by (apply Rmax_lub; assumption).
  assert (N : 7 <= INR n) by (replace 7 with (INR 7) by (simpl; lra); apply le_INR; exact Hn).
  apply Rmult_le_reg_r with (Rmax x y); [lra|]. replace (INR n / Rmax x y * Rmax x y) with (INR n) by (field; lra). nra.
Qed.

Variables (kernel : R -> Z -> R) (radius : R -> nat) (pink white : param G).
Hypothesis White : forall g, 0 <= fst (white g).
Notation cfg := (default_noisy src label kernel radius pink white).

Lemma sweep_fine a1 b1 a2 b2 : sweep_within (Some limits_g1) a1 b1 -> sweep_within (Some limits_g2) a2 b2 ->
  a1 <= snd limits_g1 /\ b1 <= snd limits_g1 /\ a2 <= snd limits_g2 /\ b2 <= snd limits_g2 /\ Rabs (b1 - a1) <= 0.155 /\ Rabs (b2 - a2) <= 0.155.
Proof.
  cbn [sweep_within snd limits_g1 limits_g2]. intros S1 S2. unfold limits_g1, limits_g2 in *. cbn [sweep_within snd] in *. repeat split; try lra; apply Rabs_le; lra.
Qed.
Lemma default_noisy_ok a1 b1 a2 b2 res sh w d : well_formed_request [a1; b1] [a2; b2] (res_list res) ->
  sweep_within (Some limits_g1) a1 b1 -> sweep_within (Some limits_g2) a2 b2 ->
  requested res sh -> ideal_of label default_csd a1 b1 a2 b2 res = Ok d -> fine (a1, b1) (a2, b2) sh ->
  (exists k, rtn_px_per_volt sh (a1, b1) (a2, b2) = Ok k /\ 45 <= k) ->
  (fst (src_binomial src 0.01 (w_rng w)) = true -> a2 <> b2) -> (a1 = b1 -> forall g, fst (src_binomial src (0.01 / 6) g) = false) ->
  exists m im w', measure cfg [a1; b1] [a2; b2] None None res w = (Ok m, w') /\
    shape_of_occ (m_occ m) = Some sh /\ m_csd m = RImage im /\ image_shape im = sh.
Proof.
  intros Wf S1 S2 Hr Ed F (k & Hk & Hb) J2 J1.
  destruct (default_draws src white pink sh (a1, b1) (a2, b2) k White Hk Hb) as [Dp Dr].
  destruct (triple_success src Sok (snd limits_g1) (snd limits_g2) 0.004 (get_csd_data label default_csd) default_served 0 1 2 (given (0.75 * 0.03 / 100)) kernel radius
    0.01 (0.01 / 6) (given (100 * 0.03 / 100)) (given (6 * 0.03 / 100)) (given (100 * 0.03 / 100)) (given (6 * 0.03 / 100)) ltac:(discriminate)
    w (a1, b1) (a2, b2) sh (csd_arrays d) F J2 J1 (ideal_fits _ _ _ _ _ _ _ Ed Hr)) as (ol & w1 & Eo & Ft).
  assert (Sz : shape_size sh <> 0%nat). { destruct F as (_ & _ & _ & _ & Sh). destruct sh; cbn [shape_size]; [lia|]. nia. }
  eapply noisy_ok; eauto; [reflexivity|discriminate].
Qed.
Lemma default_noisy_2d a1 b1 a2 b2 nx ny w : a1 <> b1 -> a2 <> b2 -> (2 <= nx)%nat -> (2 <= ny)%nat ->
  sweep_within (Some limits_g1) a1 b1 -> sweep_within (Some limits_g2) a2 b2 ->
  Rabs (b1 - a1) <= 0.004 * INR (nx - 1) -> Rabs (b2 - a2) <= 0.004 * INR (ny - 1) ->
  exists m im w', measure cfg [a1; b1] [a2; b2] None None (ResArray [Z.of_nat nx; Z.of_nat ny]) w = (Ok m, w') /\
    shape_of_occ (m_occ m) = Some (Shape2 ny nx) /\ m_csd m = RImage im /\ image_shape im = Shape2 ny nx.
Proof.
  intros N1 N2 Hx Hy S1 S2 P1 P2. destruct (sweep_fine _ _ _ _ S1 S2) as (A1 & B1 & A2 & B2 & _).
  destruct (default_scan_ok label Lab a1 b1 a2 b2 nx ny N1 N2 Hx Hy A1 B1 A2 B2 P1 P2) as (occ & lead & E).
  assert (F : fine (a1, b1) (a2, b2) (Shape2 ny nx)) by (unfold ProofsSuccess.fine; cbn [fst snd]; auto 12).
  eapply default_noisy_ok; eauto.
  - exists a1, b1, a2, b2. split; [reflexivity|]. split; [reflexivity|]. split; [simpl; lia|]. intros _. split; [auto|]. split; [auto|]. repeat constructor; lia.
  - reflexivity.
  - exact (rtn_2d _ _ _ _ F).
  - contradiction.
Qed.
Lemma request_1d a1 b1 a2 b2 res n : res_list res = [Z.of_nat n] -> well_formed_request [a1; b1] [a2; b2] (res_list res).
Proof. intros ->. exists a1, b1, a2, b2. split; [reflexivity|]. split; [reflexivity|]. split; [simpl; lia|]. discriminate. Qed.
Lemma default_noisy_1d a1 b1 a2 b2 res n w : res_list res = [Z.of_nat n] -> (7 <= n)%nat -> (a1 <> b1 \/ a2 <> b2) ->
  sweep_within (Some limits_g1) a1 b1 -> sweep_within (Some limits_g2) a2 b2 ->
  (fst (src_binomial src 0.01 (w_rng w)) = true -> a2 <> b2) -> (a1 = b1 -> forall g, fst (src_binomial src (0.01 / 6) g) = false) ->
  exists m im w', measure cfg [a1; b1] [a2; b2] None None res w = (Ok m, w') /\
    shape_of_occ (m_occ m) = Some (Shape1 n) /\ m_csd m = RImage im /\ image_shape im = Shape1 n.
Proof.
  intros Hr Hn D S1 S2 J2 J1. destruct (sweep_fine _ _ _ _ S1 S2) as (A1 & B1 & A2 & B2 & P1 & P2).
  destruct (default_1d a1 b1 a2 b2 res n Hr) as [d E].
  assert (F : fine (a1, b1) (a2, b2) (Shape1 n)) by (unfold ProofsSuccess.fine; cbn [fst snd]; repeat split; auto; lia).
  eapply default_noisy_ok; eauto.
  - exact (request_1d _ _ _ _ _ _ Hr).
  - apply rtn_1d; auto.
Qed.
Lemma zero_range n l : fst l = snd l -> div_range n l = Err ValueError.
Proof. intros H. unfold div_range. rewrite range_abs, H, Rminus_diag_eq, Rabs_R0 by reflexivity. rewrite Reqb_true by reflexivity. reflexivity. Qed.
Lemma default_g1_fails a1 b1 v2 res n w : res_list res = [Z.of_nat n] -> (0 < n)%nat -> a1 <> b1 ->
  sweep_within (Some limits_g1) a1 b1 -> sweep_within (Some limits_g2) v2 v2 ->
  fst (src_binomial src 0.01 (w_rng w)) = true ->
  exists w', measure cfg [a1; b1] [v2; v2] None None res w = (Err ValueError, w').
Proof.
  intros Hr Hn D S1 S2 J. destruct (sweep_fine _ _ _ _ S1 S2) as (A1 & B1 & A2 & B2 & P1 & P2).
  destruct (default_1d a1 b1 v2 v2 res n Hr) as [d E].
  assert (F : fine (a1, b1) (v2, v2) (Shape1 n)) by (unfold ProofsSuccess.fine; cbn [fst snd]; repeat split; auto).
  pose proof (ideal_fits _ _ _ _ _ _ (Shape1 n) E Hr) as Ft.
  destruct (blur_fine _ _ _ _ _ _ F) as [q Q].
  destruct (blur_success src 0 (given (0.75 * 0.03 / 100)) kernel radius (csd_arrays d) (Shape1 n) (a1, b1) (v2, v2) (get_csd_data label default_csd) false w q Ft Q ltac:(discriminate)) as (ol1 & sg & g1 & E1 & Ft1 & _ & G1).
  specialize (G1 eq_refl). cbn [given snd] in G1. subst g1.
  eexists. eapply noisy_fails; eauto; [exact (request_1d _ _ _ _ _ _ Hr)|].
  unfold default_occupation. cbn [map occupation_loop]. unfold mbind at 1. rewrite E1.
  unfold mbind at 1. cbn [fst snd]. erewrite jumps_fail; [reflexivity|exact Ft1|exact J|]. cbn [jump_px_per_volt Z.eqb]. apply zero_range. reflexivity.
Qed.
End Default.

(** ** As stated *)
Section Stated.
Context {G : Type}.
Variable src : sources G.
Variables (label : arr2 nat -> arr2 nat) (kernel : R -> Z -> R) (radius : R -> nat) (pink white : param G).
Notation cfg := (default_noisy src label kernel radius pink white).

Lemma white_positive : white_range white -> forall g, 0 <= fst (white g).
Proof. intros H g. destruct (H g) as [L _]. apply Rle_trans with 1e-10; [lra|exact L]. Qed.
Lemma measured_2d a1 b1 a2 b2 nx ny w :
  sources_ok src -> (forall m, is_labelling m (label m)) -> white_range white ->
  a1 <> b1 -> a2 <> b2 -> (2 <= nx)%nat -> (2 <= ny)%nat ->
  sweep_within (Some limits_g1) a1 b1 -> sweep_within (Some limits_g2) a2 b2 ->
  Rabs (b1 - a1) <= 0.004 * INR (nx - 1) -> Rabs (b2 - a2) <= 0.004 * INR (ny - 1) ->
  returned (measure cfg [a1; b1] [a2; b2] None None (ResArray [Z.of_nat nx; Z.of_nat ny]) w) (Shape2 ny nx).
Proof. intros Sok Lab Hw. exact (default_noisy_2d src Sok label Lab kernel radius pink white (white_positive Hw) a1 b1 a2 b2 nx ny w). Qed.
Lemma measured_both a1 b1 a2 b2 res n w :
  sources_ok src -> (forall m, is_labelling m (label m)) -> white_range white ->
  res_list res = [Z.of_nat n] -> (7 <= n)%nat -> a1 <> b1 -> a2 <> b2 ->
  sweep_within (Some limits_g1) a1 b1 -> sweep_within (Some limits_g2) a2 b2 ->
  returned (measure cfg [a1; b1] [a2; b2] None None res w) (Shape1 n).
Proof.
  intros Sok Lab Hw Hr Hn D1 D2 S1 S2. apply (default_noisy_1d src Sok label Lab kernel radius pink white (white_positive Hw)); auto. contradiction.
Qed.
Lemma measured_first a1 b1 v2 res n w :
  sources_ok src -> (forall m, is_labelling m (label m)) -> white_range white ->
  res_list res = [Z.of_nat n] -> (7 <= n)%nat -> a1 <> b1 ->
  sweep_within (Some limits_g1) a1 b1 -> sweep_within (Some limits_g2) v2 v2 ->
  let r := measure cfg [a1; b1] [v2; v2] None None res w in
  if fst (src_binomial src 0.01 (w_rng w)) then raised r ValueError else returned r (Shape1 n).
Proof.
  intros Sok Lab Hw Hr Hn D1 S1 S2 r. destruct (fst (src_binomial src 0.01 (w_rng w))) eqn:B.
  - apply (default_g1_fails src label Lab kernel radius pink white a1 b1 v2 res n w); auto. lia.
  - apply (default_noisy_1d src Sok label Lab kernel radius pink white (white_positive Hw)); auto; [congruence|contradiction].
Qed.
End Stated.
