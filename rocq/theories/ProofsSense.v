(** Proofs about charge sensing. *)
From Verif Require Import RPrelude Arr ModelSupport ModelTct ModelCsd ModelSensor ModelSimulation ModelInstance ModelSampling ModelConfig ModelConfigCsd ModelDefault
  SpecSupport SpecTct SpecCsd SpecSensor SpecInstance SpecSampling SpecConfig SpecConfigCsd SpecEnter SpecSampledSim SpecSense
  ProofsSupport ProofsOcc ProofsInstance ProofsDefault ProofsConfig ProofsShape ProofsConfigCsd ProofsEnter2.
Local Open Scope R_scope.

Lemma dist2_fst p q : Rabs (fst p - fst q) <= dist2 p q.
Proof.
  unfold dist2. rewrite <- sqrt_Rsqr_abs. apply sqrt_le_1_alt. unfold Rsqr. pose proof (pow2_ge_0 (snd p - snd q)). lra.
Qed.
Lemma dist2_snd p q : Rabs (snd p - snd q) <= dist2 p q.
Proof.
  unfold dist2. rewrite <- sqrt_Rsqr_abs. apply sqrt_le_1_alt. unfold Rsqr. pose proof (pow2_ge_0 (fst p - fst q)). lra.
Qed.
Lemma view_near rot v v' b delta : dist2 (tct_view rot v) b <= delta -> dist2 (tct_view rot v') b <= delta ->
  Rabs (fst v - fst v') <= 2 * delta /\ Rabs (snd v - snd v') <= 2 * delta.
Proof.
  intros D D'. set (B := rotate_point rot b).
  assert (Eb : b = rotate_point (- rot) B).
  { unfold B, rotate_point. cbn [fst snd]. rewrite cos_neg, sin_neg. destruct b as [x y]. cbn [fst snd].
    pose proof (sin2_cos2 rot) as Q. unfold Rsqr in Q.
    f_equal; [transitivity (x * (sin rot * sin rot + cos rot * cos rot))|transitivity (y * (sin rot * sin rot + cos rot * cos rot))]; try ring; rewrite Q; ring. }
  unfold tct_view in D, D'. rewrite Eb, rotate_dist in D, D'.
  pose proof (dist2_fst v B). pose proof (dist2_snd v B). pose proof (dist2_fst v' B). pose proof (dist2_snd v' B).
  split.
  - replace (fst v - fst v') with ((fst v - fst B) - (fst v' - fst B)) by ring.
    eapply Rle_trans; [apply Rabs_triang|]. rewrite Rabs_Ropp. lra.
  - replace (snd v - snd v') with ((snd v - snd B) - (snd v' - snd B)) by ring.
    eapply Rle_trans; [apply Rabs_triang|]. rewrite Rabs_Ropp. lra.
Qed.

(** the difference of two potentials *)
Lemma drop_bound off gate dot (v v' o o' : R * R) (n delta e : R) (right : bool) :
  fst o + snd o = n -> fst o' + snd o' = n - 1 ->
  Rabs (fst v - fst v') <= delta -> Rabs (snd v - snd v') <= delta ->
  Rabs (fst o - fst o' - (if right then 1 else 0)) <= e ->
  Rabs (affine off gate dot v' o' - affine off gate dot v o + entered right dot)
    <= e * Rabs (fst dot - snd dot) + delta * (Rabs (fst gate) + Rabs (snd gate)).
Proof.
  intros S1 S2 D1 D2 E. unfold affine, entered.
  set (x := fst o - fst o' - (if right then 1 else 0)) in *.
  replace (_ + _) with (- (x * (fst dot - snd dot)) - (fst gate * (fst v - fst v') + snd gate * (snd v - snd v'))).
  2: { assert (E2 : snd o = n - fst o) by lra. assert (E3 : snd o' = n - 1 - fst o') by lra.
       rewrite E2, E3. unfold x. destruct right; ring. }
  eapply Rle_trans; [apply Rabs_triang|]. rewrite !Rabs_Ropp.
  assert (A1 : Rabs (x * (fst dot - snd dot)) <= e * Rabs (fst dot - snd dot)).
  { rewrite Rabs_mult. apply Rmult_le_compat_r; [apply Rabs_pos|exact E]. }
  assert (A2 : Rabs (fst gate * (fst v - fst v')) <= delta * Rabs (fst gate)).
  { rewrite Rabs_mult, Rmult_comm. apply Rmult_le_compat_r; [apply Rabs_pos|exact D1]. }
  assert (A3 : Rabs (snd gate * (snd v - snd v')) <= delta * Rabs (snd gate)).
  { rewrite Rabs_mult, Rmult_comm. apply Rmult_le_compat_r; [apply Rabs_pos|exact D2]. }
  pose proof (Rabs_triang (fst gate * (fst v - fst v')) (snd gate * (snd v - snd v'))). lra.
Qed.

Section M.
Context {W : Type} (label : arr2 nat -> arr2 nat).

Lemma measured_drop x s ps lim1 lim2 a1 b1 a2 b2 u1 u2 res (w1 w2 : W) m a1' b1' a2' b2' u1' u2' res' (w1' w2' : W) m'
    v o lab y v' o' lab' y' n delta e (right : bool) :
  gs_peaks s = Some ps -> ps <> [] -> config_ok label x ->
  measure (plain_config label lim1 lim2 x s) [a1; b1] [a2; b2] u1 u2 res w1 = (Ok m, w2) -> measured_pixel m (a1, b1) (a2, b2) v o lab y ->
  measure (plain_config label lim1 lim2 x s) [a1'; b1'] [a2'; b2'] u1' u2' res' w1' = (Ok m', w2') -> measured_pixel m' (a1', b1') (a2', b2') v' o' lab' y' ->
  fst o + snd o = n -> fst o' + snd o' = n - 1 ->
  Rabs (fst v - fst v') <= delta -> Rabs (snd v - snd v') <= delta ->
  Rabs (fst o - fst o' - (if right then 1 else 0)) <= e ->
  exists drop, potential_drop ps y y' drop /\
    Rabs (drop + entered right (gs_dot s)) <= e * Rabs (fst (gs_dot s) - snd (gs_dot s)) + delta * (Rabs (fst (gs_gate s)) + Rabs (snd (gs_gate s))).
Proof.
  intros Hp Hn C M P M' P' S1 S2 D1 D2 E.
  destruct (measured_pixels label x s ps lim1 lim2 a1 b1 a2 b2 u1 u2 res w1 w2 m Hp Hn C M v o lab y P) as [Y _].
  destruct (measured_pixels label x s ps lim1 lim2 a1' b1' a2' b2' u1' u2' res' w1' w2' m' Hp Hn C M' v' o' lab' y' P') as [Y' _].
  set (mu := affine (gs_offset s) (gs_gate s) (gs_dot s) v o) in *. set (mu' := affine (gs_offset s) (gs_gate s) (gs_dot s) v' o') in *.
  exists (mu' - mu). split.
  - exists mu. split; [exact Y|]. replace (mu + (mu' - mu)) with mu' by ring. exact Y'.
  - exact (drop_bound (gs_offset s) (gs_gate s) (gs_dot s) v v' o o' n delta e right S1 S2 D1 D2 E).
Qed.

Lemma default_drop lim1 lim2 a1 b1 a2 b2 u1 u2 res (w1 w2 : W) m a1' b1' a2' b2' u1' u2' res' (w1' w2' : W) m'
    v o lab y v' o' lab' y' n k (right : bool) t b :
  (forall x, is_labelling x (label x)) ->
  measure (plain_config label lim1 lim2 default_csd default_sensor_v1) [a1; b1] [a2; b2] u1 u2 res w1 = (Ok m, w2) -> measured_pixel m (a1, b1) (a2, b2) v o lab y ->
  measure (plain_config label lim1 lim2 default_csd default_sensor_v1) [a1'; b1'] [a2'; b2'] u1' u2' res' w1' = (Ok m', w2') -> measured_pixel m' (a1', b1') (a2', b2') v' o' lab' y' ->
  fst o + snd o = INR n -> fst o' + snd o' = INR n - 1 -> on_branch default_tcts n k right t b ->
  dist2 (tct_view (- (PI / 4)) v) b <= 5/100000 -> dist2 (tct_view (- (PI / 4)) v') b <= 5/100000 ->
  1/3 <= t -> outer right n k \/ t <= 2/3 ->
  exists drop, potential_drop (map lorentz_peak default_peaks) y y' drop /\
    if right then 0.000375 <= drop <= 0.000521 else 0.000219 <= drop <= 0.000365.
Proof.
  intros Lab M P M' P' S1 S2 Br D D' T1 T2.
  pose proof (default_config label Lab) as C.
  assert (Hn : map lorentz_peak default_peaks <> []) by discriminate.
  destruct (measured_is_scan label default_csd default_sensor_v1 _ lim1 lim2 a1 b1 a2 b2 u1 u2 res w1 w2 m eq_refl Hn C M) as (d & I & Q).
  destruct (measured_is_scan label default_csd default_sensor_v1 _ lim1 lim2 a1' b1' a2' b2' u1' u2' res' w1' w2' m' eq_refl Hn C M') as (d' & I' & Q').
  destruct (proj1 (Q _ _ _ _) P) as [Sp _]. destruct (proj1 (Q' _ _ _ _) P') as [Sp' _].
  destruct (default_jump label res res' d d' a1 b1 a2 b2 a1' b1' a2' b2' v v' o o' lab lab' n k right t b (1/3) (1/3) Lab I Sp I' Sp' S1 S2 Br D D'
    ltac:(left; split; reflexivity) T1 ltac:(destruct T2; [left; assumption|right; lra])) as [J _].
  destruct (view_near _ _ _ _ _ D D') as [V1 V2].
  destruct (measured_drop default_csd default_sensor_v1 _ lim1 lim2 a1 b1 a2 b2 u1 u2 res w1 w2 m a1' b1' a2' b2' u1' u2' res' w1' w2' m'
    v o lab y v' o' lab' y' (INR n) (2 * (5/100000)) (1/3) right eq_refl Hn C M P M' P' S1 S2 V1 V2 J) as (drop & Pd & B).
  exists drop. split; [exact Pd|]. cbn [gs_dot gs_gate default_sensor_v1 fst snd] in B. unfold entered in B.
  rewrite (Rabs_left (-0.00044775 - -0.0002922)) in B by lra. rewrite (Rabs_pos_eq 0.08949), (Rabs_pos_eq 0.116395) in B by lra.
  apply Rabs_le_inv in B. destruct right; cbn [fst snd] in B; lra.
Qed.

Lemma sampled_drop {G} (r : rng G) choice x c s lim1 lim2 a1 b1 a2 b2 u1 u2 res (w1 w2 : W) m a1' b1' a2' b2' u1' u2' res' (w1' w2' : W) m'
    v o lab y v' o' lab' y' n k (right : bool) t b :
  uniform_ok r -> choice_ok choice -> (forall x, is_labelling x (label x)) -> sampled r choice label x c -> sc_sensor c = SampledGeneric s ->
  measure (plain_config label lim1 lim2 x s) [a1; b1] [a2; b2] u1 u2 res w1 = (Ok m, w2) -> measured_pixel m (a1, b1) (a2, b2) v o lab y ->
  measure (plain_config label lim1 lim2 x s) [a1'; b1'] [a2'; b2'] u1' u2' res' w1' = (Ok m', w2') -> measured_pixel m' (a1', b1') (a2', b2') v' o' lab' y' ->
  fst o + snd o = INR n -> fst o' + snd o' = INR n - 1 -> (n < length (g_tcts x))%nat -> on_branch (g_tcts x) n k right t b ->
  dist2 (tct_view (g_rotation x) v) b <= 1/100000 -> dist2 (tct_view (g_rotation x) v') b <= 1/100000 ->
  1/2 <= t -> outer right n k \/ t = 1/2 ->
  exists ps drop, gs_peaks s = Some ps /\ potential_drop ps y y' drop /\
    0.4 * - entered right (gs_dot s) <= drop <= 1.6 * - entered right (gs_dot s) /\ 0.00002 < drop.
Proof.
  intros U Ch Lab Smp Es M P M' P' S1 S2 Len Br D D' T1 T2.
  destruct Smp as (fuel & fuel' & kind & q & comp & steep & g & g1 & E).
  destruct (config_result r choice fuel _ kind q comp steep g x c g1 E) as (Hq & (g2 & g3 & Ex & Em) & _).
  rewrite Es in Em. destruct Em as [_ Em].
  destruct (sampled_ordered r fuel' U label Lab _ _ _ Ex) as [C _].
  destruct (generic_shape r choice fuel q comp steep _ _ _ U Ch Hq Em) as (ls & ps & Hp & Sh & Arms & Ls & _).
  assert (Hn : ps <> []) by (intros ->; inversion Sh; subst; simpl in Ls; lia).
  destruct (measured_is_scan label x s _ lim1 lim2 a1 b1 a2 b2 u1 u2 res w1 w2 m Hp Hn C M) as (d & I & Q).
  destruct (measured_is_scan label x s _ lim1 lim2 a1' b1' a2' b2' u1' u2' res' w1' w2' m' Hp Hn C M') as (d' & I' & Q').
  destruct (proj1 (Q _ _ _ _) P) as [Sp _]. destruct (proj1 (Q' _ _ _ _) P') as [Sp' _].
  destruct (sampled_jump r fuel' label _ x _ res res' d d' a1 b1 a2 b2 a1' b1' a2' b2' v v' o o' lab lab' n k right t b U Lab Ex I Sp I' Sp' S1 S2 Len Br D D' T1 T2) as [J _].
  destruct (view_near _ _ _ _ _ D D') as [V1 V2].
  destruct (measured_drop x s _ lim1 lim2 a1 b1 a2 b2 u1 u2 res w1 w2 m a1' b1' a2' b2' u1' u2' res' w1' w2' m'
    v o lab y v' o' lab' y' (INR n) (2 * (1/100000)) (49/100) right Hp Hn C M P M' P' S1 S2 V1 V2 J) as (drop & Pd & B).
  exists ps, drop. split; [exact Hp|]. split; [exact Pd|].
  destruct Arms as (G1 & G2 & A1 & A2 & A3 & A4 & A5).
  set (e1 := fst (gs_dot s)) in *. set (e2 := snd (gs_dot s)) in *. set (h1 := fst (gs_gate s)) in *. set (h2 := snd (gs_gate s)) in *.
  assert (P1 : 0 < h1) by (destruct comp; lra). assert (P2 : 0 < h2) by lra.
  rewrite (Rabs_pos_eq h1), (Rabs_pos_eq h2) in B by lra.
  apply Rabs_le_inv in B. unfold entered in *. fold e1 e2 in B |- *.
  assert (Ab : Rabs (e1 - e2) <= - e1 /\ Rabs (e1 - e2) <= - e2) by (unfold Rabs; destruct (Rcase_abs (e1 - e2)); lra).
  clearbody e1 e2 h1 h2. destruct right; lra.
Qed.
End M.
