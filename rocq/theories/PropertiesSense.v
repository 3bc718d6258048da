(** C142: an electron that enters a dot lowers the sensor potential by the lever arm of this dot. *)
From Verif Require Import RPrelude Arr ModelSupport ModelTct ModelCsd ModelSensor ModelSimulation ModelInstance ModelSampling ModelConfig ModelDefault
  SpecSupport SpecTct SpecCsd SpecSensor SpecInstance SpecSampling SpecConfig SpecEnter SpecSampledSim SpecSense
  ProofsLabel ProofsInstance ProofsSense ExamplesCsd PropertiesEnter.
Local Open Scope R_scope.

(** Any configuration: two measured pixels, the first with one electron more than the second, which is in dot 1 ([right]) or 2 up to [e]. *)
Theorem C142_drop {W} label x s ps lim1 lim2 a1 b1 a2 b2 u1 u2 res (w1 w2 : W) m a1' b1' a2' b2' u1' u2' res' (w1' w2' : W) m'
    v o lab y v' o' lab' y' n delta e (right : bool) :
  gs_peaks s = Some ps -> ps <> [] -> config_ok label x ->
  measure (plain_config label lim1 lim2 x s) [a1; b1] [a2; b2] u1 u2 res w1 = (Ok m, w2) -> measured_pixel m (a1, b1) (a2, b2) v o lab y ->
  measure (plain_config label lim1 lim2 x s) [a1'; b1'] [a2'; b2'] u1' u2' res' w1' = (Ok m', w2') -> measured_pixel m' (a1', b1') (a2', b2') v' o' lab' y' ->
  fst o + snd o = n -> fst o' + snd o' = n - 1 ->
  Rabs (fst v - fst v') <= delta -> Rabs (snd v - snd v') <= delta ->
  Rabs (fst o - fst o' - (if right then 1 else 0)) <= e ->
  exists drop, potential_drop ps y y' drop /\
    Rabs (drop + entered right (gs_dot s)) <= e * Rabs (fst (gs_dot s) - snd (gs_dot s)) + delta * (Rabs (fst (gs_gate s)) + Rabs (snd (gs_gate s))).
Proof. exact (measured_drop label x s ps lim1 lim2 a1 b1 a2 b2 u1 u2 res w1 w2 m a1' b1' a2' b2' u1' u2' res' w1' w2' m' v o lab y v' o' lab' y' n delta e right). Qed.
Print Assumptions C142_drop.

(** Default configuration: across the middle third of every branch of every transition the size of the drop tells which dot got the electron. *)
Theorem C142_default {W} label lim1 lim2 a1 b1 a2 b2 u1 u2 res (w1 w2 : W) m a1' b1' a2' b2' u1' u2' res' (w1' w2' : W) m'
    v o lab y v' o' lab' y' n k (right : bool) t b :
  (forall x, is_labelling x (label x)) ->
  measure (plain_config label lim1 lim2 default_csd default_sensor_v1) [a1; b1] [a2; b2] u1 u2 res w1 = (Ok m, w2) -> measured_pixel m (a1, b1) (a2, b2) v o lab y ->
  measure (plain_config label lim1 lim2 default_csd default_sensor_v1) [a1'; b1'] [a2'; b2'] u1' u2' res' w1' = (Ok m', w2') -> measured_pixel m' (a1', b1') (a2', b2') v' o' lab' y' ->
  fst o + snd o = INR n -> fst o' + snd o' = INR n - 1 -> on_branch default_tcts n k right t b ->
  dist2 (tct_view (- (PI / 4)) v) b <= 5/100000 -> dist2 (tct_view (- (PI / 4)) v') b <= 5/100000 ->
  1/3 <= t -> outer right n k \/ t <= 2/3 ->
  exists drop, potential_drop (map lorentz_peak default_peaks) y y' drop /\
    if right then 0.000375 <= drop <= 0.000521 else 0.000219 <= drop <= 0.000365.
Proof. exact (default_drop label lim1 lim2 a1 b1 a2 b2 u1 u2 res w1 w2 m a1' b1' a2' b2' u1' u2' res' w1' w2' m' v o lab y v' o' lab' y' n k right t b). Qed.
Print Assumptions C142_default.

(** Sampled configurations with a generic sensor: at the middle of every branch the potential drops by at least 20 microvolts, and by 0.4 to 1.6
    times the lever arm of the dot that gets the electron. *)
Theorem C142_sampled {W G} label (r : rng G) choice x c s lim1 lim2 a1 b1 a2 b2 u1 u2 res (w1 w2 : W) m a1' b1' a2' b2' u1' u2' res' (w1' w2' : W) m'
    v o lab y v' o' lab' y' n k (right : bool) t b :
  uniform_ok r -> choice_ok choice -> (forall x, is_labelling x (label x)) -> sampled r choice label x c -> sc_sensor c = SampledGeneric s ->
  measure (plain_config label lim1 lim2 x s) [a1; b1] [a2; b2] u1 u2 res w1 = (Ok m, w2) -> measured_pixel m (a1, b1) (a2, b2) v o lab y ->
  measure (plain_config label lim1 lim2 x s) [a1'; b1'] [a2'; b2'] u1' u2' res' w1' = (Ok m', w2') -> measured_pixel m' (a1', b1') (a2', b2') v' o' lab' y' ->
  fst o + snd o = INR n -> fst o' + snd o' = INR n - 1 -> (n < length (g_tcts x))%nat -> on_branch (g_tcts x) n k right t b ->
  dist2 (tct_view (g_rotation x) v) b <= 1/100000 -> dist2 (tct_view (g_rotation x) v') b <= 1/100000 ->
  1/2 <= t -> outer right n k \/ t = 1/2 ->
  exists ps drop, gs_peaks s = Some ps /\ potential_drop ps y y' drop /\
    0.4 * - entered right (gs_dot s) <= drop <= 1.6 * - entered right (gs_dot s) /\ 0.00002 < drop.
Proof. exact (sampled_drop label r choice x c s lim1 lim2 a1 b1 a2 b2 u1 u2 res w1 w2 m a1' b1' a2' b2' u1' u2' res' w1' w2' m' v o lab y v' o' lab' y' n k right t b). Qed.
Print Assumptions C142_sampled.

(** A measurement of two pixels across the right branch of the first TCT with a sensor that returns its potential. *)
Example C142_example : exists m o o' l l' y y' drop,
  let s := mk_generic (Some [mk_peak 0 (fun m x => x - m)]) (-2, -1) (1/10, 1/10) 0 in
  measure (plain_config component_label None None (mk_geometric (couple (1/4)) 0 None Sigmoid None) s) [1; 1] [-3/2; -1/2] None None (ResInt 2) tt = (Ok m, tt) /\
  measured_pixel m (1, 1) (-3/2, -1/2) (1, -3/2) o' l' y' /\ measured_pixel m (1, 1) (-3/2, -1/2) (1, -1/2) o l y /\
  y' - y = drop /\ 1.7 <= drop <= 2.3.
Proof.
  destruct C139_example as (o & o' & l & l' & E & S1 & S2 & B).
  set (x := mk_geometric (couple (1/4)) 0 None Sigmoid None).
  set (s := mk_generic (Some [mk_peak 0 (fun m x => x - m)]) (-2, -1) (1/10, 1/10) 0).
  assert (C : config_ok component_label x) by (apply couple_config; [lra|discriminate|simpl; lra]).
  destruct (measured_example component_label x s _ None None 1 1 (-3/2) (-1/2) o' o l' l tt eq_refl ltac:(discriminate) C I I E) as (m & Em & P).
  pose proof (P (1, -3/2) o' l' _ (conj (or_introl (conj eq_refl (conj eq_refl eq_refl))) eq_refl)) as P1.
  pose proof (P (1, -1/2) o l _ (conj (or_intror (conj eq_refl (conj eq_refl eq_refl))) eq_refl)) as P2.
  do 8 eexists. cbv zeta. split; [exact Em|]. split; [exact P1|]. split; [exact P2|]. split; [reflexivity|].
  destruct (measured_pixels component_label x s _ None None 1 1 (-3/2) (-1/2) None None (ResInt 2) tt tt m eq_refl ltac:(discriminate) C Em _ _ _ _ P1) as (_ & N1 & N2 & _).
  unfold sum_peaks, affine, s. cbn [map Rsum fold_right sensor_function peak_fun mu0 gs_dot gs_gate gs_offset fst snd]. apply Rabs_le_inv in B.
  unfold sensor_function. cbn [map Rsum fold_right peak_fun mu0 fst snd]. lra.
Qed.
