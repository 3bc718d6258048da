(** The noise added by lists of distortions. *)
From Verif Require Import RPrelude Arr ModelSupport ModelTct ModelCsd ModelJumps ModelDistortions ModelSensor ModelSimulation ModelInstance
  ModelNoise SpecSupport SpecTct SpecCsd SpecSensor SpecDistortions SpecInstance SpecNoise ProofsJumps ProofsDistortions ProofsInstance ProofsNoise
  SpecHeights ProofsHeights ProofsAfter SpecSums.
Local Open Scope R_scope.

Section P.
Context {G : Type}.
Variable src : sources G.
Hypothesis Sok : sources_ok src.

Lemma drawn_adds d sh l1 l2 g z g' : drawn src d sh l1 l2 g = Ok (z, g') -> length z = shape_size sh /\
  adds src (shape_size sh) (rtn_px_per_volt sh l1 l2) d g z g'.
Proof.
  destruct Sok as (Sg & Ss & Sp). destruct d as [sigma fmin|sigma|ratio scale std height]; cbn [drawn adds].
  - destruct (sigma g) as [sg g1]. cbn [fst snd]. pose proof (Sp (shape_size sh) fmin g1) as L.
    destruct (src_powerlaw src (shape_size sh) fmin g1) as [y g2]. cbn [fst snd] in *. intros E. injection E as <- <-.
    split; [now rewrite map_length|]. split; [|reflexivity]. apply map_ext. intros; ring.
  - destruct (sigma g) as [sg g1]. cbn [fst snd]. destruct (Rltb_spec sg 0) as [N|N]; [discriminate|]. pose proof (Ss (shape_size sh) g1) as L.
    destruct (src_standard src (shape_size sh) g1) as [y g2]. cbn [fst snd] in *. intros E. injection E as <- <-.
    split; [now rewrite map_length|]. split; [lra|]. split; [|reflexivity]. apply map_ext. intros; ring.
  - destruct (src_binomial src ratio g) as [[|] g1]; cbn [negb fst snd].
    2: { intros E. injection E as <- <-. split; [apply repeat_length|auto]. }
    destruct (scale g1) as [sv g2]. destruct (rtn_px_per_volt sh l1 l2) as [k|]; [|discriminate]. cbn [bind fst snd].
    destruct (std g2) as [sd g3]. cbn [fst snd]. destruct (height g3) as [h g4]. cbn [fst snd].
    destruct (Reqb_spec (sv * k) 0) as [Z|Z].
    { intros E. injection E as <- <-. split; [apply repeat_length|]. exists k. split; [reflexivity|]. left. auto. }
    destruct (Rltb_spec (sv * k) 1) as [O|O]; [discriminate|].
    destruct (Sg (1 / (sv * k)) (shape_size sh) g4) as [L Pos].
    destruct (src_geometric src (1 / (sv * k)) (shape_size sh) g4) as [ls g5] eqn:Eg. cbn [fst snd] in *.
    pose proof (block_noise_heights 0 (src_normal src h sd) ls (shape_size sh) g5 Pos L) as Q.
    pose proof (block_noise_after 0 (src_normal src h sd) ls (shape_size sh) g5 Pos L) as (b & B1 & B2 & B3).
    destruct (block_noise 0 (src_normal src h sd) ls (shape_size sh) g5) as [y g6]. intros E. injection E as <- <-. cbn [fst] in Q.
    split; [apply Q|]. exists k. split; [reflexivity|]. right. split; [lra|]. rewrite Eg. split; [exact Q|]. exists b. auto.
Qed.

Lemma drawn_all_adds sh l1 l2 ds : forall g z g', drawn_all src ds sh l1 l2 g = Ok (z, g') ->
  adds_all src (shape_size sh) (rtn_px_per_volt sh l1 l2) ds g z g'.
Proof.
  induction ds as [|d ds IH]; intros g z g' E; cbn [drawn_all adds_all] in *.
  - injection E as <- <-. split; [apply repeat_length|auto].
  - destruct (drawn src d sh l1 l2 g) as [[z1 g1]|] eqn:D; [|discriminate]. cbn [bind fst snd] in E.
    destruct (drawn_all src ds sh l1 l2 g1) as [[z2 g2]|] eqn:D2; [|discriminate]. cbn [bind fst snd] in E. injection E as <- <-.
    destruct (drawn_adds _ _ _ _ _ _ _ D) as [L1 A1]. pose proof (IH _ _ _ D2) as A2.
    assert (L2 : length z2 = shape_size sh) by (destruct ds; apply A2).
    split; [rewrite length_plus_pixels; congruence|]. exists z1, g1, z2. split; [exact A1|]. split; [exact A2|].
    intros k. apply nth_plus_pixels. congruence.
Qed.

Variable label : arr2 nat -> arr2 nat.

Lemma superposition_drawn pots resps :
  forall lim1 lim2 x s ps occs a1 b1 a2 b2 v1 v2 res w w' m,
  gs_peaks s = Some ps -> ps <> [] -> config_ok label x ->
  measure (noisy_config src label lim1 lim2 x s occs pots resps) [a1; b1] [a2; b2] v1 v2 res w = (Ok m, w') ->
  exists sh g1 g2 z1 z2, requested res sh /\ (occs = [] -> g1 = w_rng w) /\
    drawn_all src pots sh (a1, b1) (a2, b2) g1 = Ok (z1, g2) /\ drawn_all src resps sh (a1, b1) (a2, b2) g2 = Ok (z2, w_rng w') /\
    (forall k, (k < shape_size sh)%nat -> exists v o y, numbered_pixel m (a1, b1) (a2, b2) k v o y) /\
    forall k v o y, numbered_pixel m (a1, b1) (a2, b2) k v o y ->
      y = peak_total ps (affine (gs_offset s) (gs_gate s) (gs_dot s) v o + nth k z1 0) + nth k z2 0.
Proof.
  intros lim1 lim2 x s ps occs a1 b1 a2 b2 v1 v2 res w w' m Hp Hn C M.
  destruct (noisy_inv src label _ _ _ _ _ _ _ _ _ _ _ _ _ _ _ M) as (c1 & e1 & c2 & e2 & d & ol & w1 & im & im' & w2 & Q1 & Q2 & Ed & Eo & Ei & Ep & Er & Mo & Ml).
  injection Q1 as <- <-. injection Q2 as <- <-.
  destruct (ideal_requested label _ _ _ _ _ _ _ C Ed) as (sh & Hs & Hr).
  destruct (potential_values _ _ _ _ _ Ei) as (Hs' & V).
  assert (Hi : image_shape im = sh).
  { pose proof (loop_shape src _ _ _ _ _ _ _ _ Eo) as L. congruence. }
  pose proof (loop_spec src Sok (a1, b1) (a2, b2) pots im w1) as L1. rewrite Hi in L1.
  destruct (drawn_all src pots sh (a1, b1) (a2, b2) (w_rng w1)) as [[z1 g2]|] eqn:D1.
  2: { rewrite Ep in L1. discriminate. }
  destruct L1 as (Len1 & im1 & E1 & Sh1 & P1). rewrite Ep in E1. injection E1 as <- ->.
  assert (Rs : generic_response s im' = RImage (map_image (sum_peaks ps) im')).
  { unfold generic_response. rewrite Hp. destruct ps; [congruence|reflexivity]. }
  rewrite Rs in Er. pose proof (loop_spec src Sok (a1, b1) (a2, b2) resps (map_image (sum_peaks ps) im') (mk_noise_world (w_sigma w1) (w_jump w1) g2)) as L2.
  assert (Sm : image_shape (map_image (sum_peaks ps) im') = sh) by (rewrite <- Sh1; destruct im'; reflexivity).
  rewrite Sm in L2. cbn [w_rng w_sigma w_jump] in L2.
  destruct (drawn_all src resps sh (a1, b1) (a2, b2) g2) as [[z2 g3]|] eqn:D2.
  2: { rewrite Er in L2. discriminate. }
  destruct L2 as (Len2 & im2 & E2 & Sh2 & P2). rewrite Er in E2. injection E2 as Em ->.
  exists sh, (w_rng w1), g2, z1, z2. split; [exact Hr|]. split.
  { intros O. destruct (loop_nil src _ _ _ _ _ _ _ _ O Eo) as [_ ->]. reflexivity. }
  split; [exact D1|]. split; [exact D2|].
  assert (Ho : shape_of_occ (m_occ m) = Some sh) by (rewrite Mo, Hs'; congruence).
  split.
  { intros k Hk. eapply numbered_exists; [exact Em| |]; rewrite Sh2; auto. }
  intros k v o y N. destruct (numbered_value _ _ _ _ _ _ _ _ Em N) as (sh' & Hsh & Hk & ->). rewrite Ho in Hsh. injection Hsh as <-.
  rewrite P2, nth_plus_pixels by (rewrite length_pixels, Sm; symmetry; exact Len2). f_equal.
  rewrite pixels_map. rewrite (nth_indep _ 0 (sum_peaks ps 0)) by (rewrite map_length, length_pixels, Sh1; exact Hk).
  rewrite map_nth, P1, nth_plus_pixels by (rewrite length_pixels, Hi; symmetry; exact Len1).
  replace (nth k (pixels im) 0) with (affine (gs_offset s) (gs_gate s) (gs_dot s) v o); [reflexivity|].
  unfold numbered_pixel in N. rewrite Em, Mo in N. destruct (fst ol) as [a|a|].
  - destruct im2; [|contradiction]. destruct N as (Hk' & _ & -> & -> & _). symmetry. apply V. exact Hk'.
  - destruct im2; [contradiction|]. destruct N as (i & j & Hi' & Hj & -> & _ & -> & -> & _). symmetry. apply V; auto.
  - destruct im2; contradiction.
Qed.

Lemma superposition_sums pots resps :
  forall lim1 lim2 x s ps occs a1 b1 a2 b2 v1 v2 res w w' m,
  gs_peaks s = Some ps -> ps <> [] -> config_ok label x ->
  measure (noisy_config src label lim1 lim2 x s occs pots resps) [a1; b1] [a2; b2] v1 v2 res w = (Ok m, w') ->
  exists sh g1 g2 z1 z2, let n := shape_size sh in let px := rtn_px_per_volt sh (a1, b1) (a2, b2) in
    requested res sh /\ (occs = [] -> g1 = w_rng w) /\
    adds_all src n px pots g1 z1 g2 /\ adds_all src n px resps g2 z2 (w_rng w') /\
    (forall k, (k < n)%nat -> exists v o y, numbered_pixel m (a1, b1) (a2, b2) k v o y) /\
    forall k v o y, numbered_pixel m (a1, b1) (a2, b2) k v o y ->
      y = peak_total ps (affine (gs_offset s) (gs_gate s) (gs_dot s) v o + nth k z1 0) + nth k z2 0.
Proof.
  intros lim1 lim2 x s ps occs a1 b1 a2 b2 v1 v2 res w w' m Hp Hn C M.
  destruct (superposition_drawn pots resps _ _ _ _ _ _ _ _ _ _ _ _ _ _ _ _ Hp Hn C M) as (sh & g1 & g2 & z1 & z2 & Q & O & D1 & D2 & N & V).
  exists sh, g1, g2, z1, z2. cbv zeta. split; [exact Q|]. split; [exact O|]. split; [apply drawn_all_adds, D1|]. split; [apply drawn_all_adds, D2|]. auto.
Qed.
End P.
