(** Proofs about the warnings of a simulation. *)
From Coq Require Import FunctionalExtensionality.
From Verif Require Import RPrelude Arr ModelSupport ModelTct ModelCsd ModelJumps ModelDistortions ModelSampling ModelConfig ModelConfigCsd ModelSensor ModelSimulation ModelInstance ModelNoise
  ModelScanInstance ModelDefault ModelDefaultNoise ModelScanNoise ModelSampledSim ModelWarnings SpecSupport SpecSensor SpecSimulation SpecSampling SpecConfig SpecSampledSim SpecWarnings
  ProofsScanSensor ProofsSensorMore.
Local Open Scope R_scope.

(** ** Negative responses *)
Lemma existsb_none {A} (f : A -> bool) l : (forall x, In x l -> f x = false) -> existsb f l = false.
Proof. intros H. induction l as [|a l IH]; [reflexivity|]. cbn [existsb]. rewrite (H a) by now left. apply IH. intros x I. apply H. now right. Qed.
Lemma negative_false x : 0 <= x -> negative x = false.
Proof. intros H. unfold negative. apply Rltb_false, H. Qed.

Lemma sum_nonneg ps mu : Forall (fun p => forall m mu, 0 <= peak_fun p m mu) ps -> 0 <= sum_peaks ps mu.
Proof.
  intros F. unfold sum_peaks. induction F as [|p ps H F IH]; cbn [map Rsum]; [lra|].
  pose proof (H (mu0 p) mu). unfold sensor_function at 1. lra.
Qed.
Lemma deformed_nonneg deform dist mu ps : Forall (fun p => forall m mu, 0 <= peak_fun p m mu) ps -> 0 <= deformed_total deform dist ps mu.
Proof.
  intros F. unfold deformed_total. generalize 0%nat as k. induction F as [|p ps H F IH]; intros k; cbn [length seq combine map fold_right fst snd]; [lra|].
  apply Rplus_le_le_0_compat; [apply H|apply IH].
Qed.
Lemma dots_nonneg s h p dots ps h' : nonnegative_sensor s -> dot_response s h p = Ok (dots, ps, h') -> forall d, In d dots -> 0 <= d.
Proof.
  intros (_ & _ & l & El & F). unfold dot_response. destruct (_ && _).
  - destruct (calc_point _ _ _ _ _) as [mid|]; [|discriminate]. cbn [bind]. destruct (scan_pixels h p) as [px|]; [|discriminate]. cbn [bind].
    rewrite peak_scan_spec. intros E. injection E as <- _ _. intros d I. apply in_map_iff in I. destruct I as (mw & <- & _).
    unfold deformed_dot. rewrite El. apply deformed_nonneg, F.
  - rewrite El. destruct (ss_rise s) as [rise|].
    + destruct (first_occ _); [|discriminate]. cbn [bind]. destruct (calc_point _ _ _ _ _) as [pt|]; [|discriminate]. cbn [bind].
      destruct (scan_potential _ _ _ _ _ _) as [[q hq]|]; [|discriminate]. cbn [bind fst snd]. destruct q as [b|b]; [|discriminate].
      intros E. injection E as <- _ _. intros d I. apply in_map_iff in I. destruct I as (q & <- & _).
      apply Rle_trans with (2 := Rmax_l _ _). apply sum_nonneg, F.
    + intros E. injection E as <- _ _. intros d I. apply in_map_iff in I. destruct I as (q & <- & _). apply sum_nonneg, F.
Qed.
Lemma never_negative s h p : nonnegative_sensor s ->
  response_warnings s h p = if negb (length (ss_deform s) =? 0)%nat && negb (equal_ends (h_g1 h) && equal_ends (h_g2 h)) then [DeformedSweep] else [].
Proof.
  intros N. unfold response_warnings. destruct (dot_response s h p) as [[[dots ps] h']|] eqn:E; [|apply app_nil_r].
  pose proof N as (B1 & B2 & _). rewrite !existsb_none; [apply app_nil_r| | |].
  - intros q _. apply negative_false, B2.
  - intros q _. apply negative_false, B1.
  - intros d I. apply negative_false, (dots_nonneg _ _ _ _ _ _ N E d I).
Qed.
Lemma warned_negative s h p im ps h' i j x : scan_response s h p = Ok (im, ps, h') -> img_pix im i j x -> x < 0 ->
  In NegativeResponse (response_warnings s h p).
Proof.
  intros H I X. unfold response_warnings. apply in_or_app. right. unfold scan_response in H.
  destruct (dot_response s h p) as [[[dots ps'] h1]|] eqn:E; [|discriminate]. cbn [bind] in H. unfold raise_if in H.
  destruct (_ =? _)%nat; [discriminate|]. injection H as <- _ _.
  destruct (_ || _) eqn:B; [now left|]. exfalso. apply Bool.orb_false_iff in B. destruct B as [B B2]. apply Bool.orb_false_iff in B. destruct B as [B0 B1].
  assert (Z : forall y, In y (map (fun dq : R * three => series (fst dq) (get_value (ss_barrier1 s) (at_barrier1 (snd dq)))
                                                         (get_value (ss_barrier2 s) (at_barrier2 (snd dq)))) (combine dots (pot_list p))) -> 0 <= y).
  { intros y Iy. apply in_map_iff in Iy. destruct Iy as ([d q] & <- & Iy). cbn [fst snd].
    pose proof (in_combine_l _ _ _ _ Iy) as I1. pose proof (in_combine_r _ _ _ _ Iy) as I2.
    assert (P : forall (A : Type) (f : A -> R) (l : list A) a, existsb (fun z => negative (f z)) l = false -> In a l -> 0 <= f a).
    { intros A f l a F Ia. apply Rnot_lt_le. intros L. assert (existsb (fun z => negative (f z)) l = true); [|congruence].
      apply existsb_exists. exists a. split; [exact Ia|]. unfold negative. apply Rltb_true, L. }
    apply (series_of_laws d (get_value (ss_barrier1 s) (at_barrier1 q)) (get_value (ss_barrier2 s) (at_barrier2 q))); [| | |apply series_of_series].
    - exact (P R (fun z => z) dots d B0 I1).
    - exact (P three (fun q => get_value (ss_barrier1 s) (at_barrier1 q)) _ q B1 I2).
    - exact (P three (fun q => get_value (ss_barrier2 s) (at_barrier2 q)) _ q B2 I2). }
  revert I. set (l := map _ _) in *. assert (N : forall k, 0 <= nth k l 0). { intros k. destruct (nth_in_or_default k l 0) as [T|T]; [exact (Z _ T)|rewrite T; lra]. }
  destruct p as [a|a]; cbn [reshape img_pix].
  - intros (_ & _ & ->). exact (Rlt_not_le _ _ X (N _)).
  - intros (_ & _ & ->). exact (Rlt_not_le _ _ X (N _)).
Qed.

(** ** A simulation that records its warnings returns the same *)
Section Same.
Context {W L I K : Type}.
Variables (at_potential : occupation -> volts -> volts -> list warning) (at_response : potential I -> W -> list warning).

Definition sim {A B} (Q : A -> B -> Prop) (m' : action (logged W) A) (m : action W B) : Prop :=
  forall w log, same_outcome Q (fst (m' (w, log))) (fst (m w)) /\ fst (snd (m' (w, log))) = snd (m w).
Lemma sim_bind {A B A2 B2} (Q : A -> B -> Prop) (Q2 : A2 -> B2 -> Prop) m' m k' k : sim Q m' m -> (forall a b, Q a b -> sim Q2 (k' a) (k b)) ->
  sim Q2 (mbind m' k') (mbind m k).
Proof.
  intros H Hk w log. unfold mbind. destruct (H w log) as [S E]. destruct (m' (w, log)) as [[a|e] [w' log']], (m w) as [[b|e2] w2]; cbn [fst snd] in S, E; try contradiction; subst.
  - apply Hk, S.
  - split; [exact S|reflexivity].
Qed.
Lemma sim_ret {A B} (Q : A -> B -> Prop) a b : Q a b -> sim Q (ret a) (ret b).
Proof. intros H w log. split; [exact H|reflexivity]. Qed.
Lemma outcome_refl {A} (r : result A) : same_outcome eq r r.
Proof. destruct r; reflexivity. Qed.
Lemma sim_quietly {A} (m : action W A) : sim eq (quietly m) m.
Proof. intros w log. unfold quietly. cbn [fst snd]. destruct (m w) as [r w']. cbn [fst snd]. split; [apply outcome_refl|reflexivity]. Qed.
Lemma sim_warn {A} ws (m : action W A) : sim eq (warn_then ws m) m.
Proof. intros w log. unfold warn_then. apply sim_quietly. Qed.

Definition sim_gen (gen' : generator (logged W) L) (gen : generator W L) : Prop := forall l1 l2 res, sim eq (gen' l1 l2 res) (gen l1 l2 res).
Lemma without_log_gen gen' gen log : sim_gen gen' gen -> without_log gen' log = gen.
Proof.
  intros H. unfold without_log. do 4 (apply functional_extensionality; intro). match goal with |- _ = gen ?a ?b ?c ?d => destruct (H a b c d log) as [S E] end.
  destruct (gen' _ _ _ _) as [r' [w' log']], (gen _ _ _ _) as [r w]. cbn [fst snd] in *. subst. f_equal.
  destruct r', r; cbn in S; try contradiction; congruence.
Qed.
Lemma sim_occ d gen' gen occ lead l1 l2 freeze : sim_gen gen' gen ->
  sim eq (od_noise (logged_occ d) occ lead l1 l2 gen' freeze) (od_noise d occ lead l1 l2 gen freeze).
Proof. intros H w log. cbn [logged_occ od_noise]. cbn [snd]. rewrite (without_log_gen _ _ log H). apply sim_quietly. Qed.
Lemma sim_with_noise d gen' gen : sim_gen gen' gen -> sim_gen (with_noise gen' (logged_occ d)) (with_noise gen d).
Proof.
  intros H l1 l2 res. unfold with_noise. eapply sim_bind; [apply H|]. intros a b <-.
  eapply sim_bind; [apply sim_occ, H|]. intros r r' <-. apply sim_ret. reflexivity.
Qed.
Lemma sim_loop ds : forall gen' gen l1 l2 ol, sim_gen gen' gen -> sim eq (occupation_loop (map logged_occ ds) gen' l1 l2 ol) (occupation_loop ds gen l1 l2 ol).
Proof.
  induction ds as [|d ds IH]; intros gen' gen l1 l2 ol H; cbn [map occupation_loop]; [apply sim_ret; reflexivity|].
  eapply sim_bind; [apply sim_occ, H|]. intros r r' <-. apply IH, sim_with_noise, H.
Qed.
Lemma sim_image ds : forall l1 l2 (x : I), sim eq (image_loop (map (@logged_image W I) ds) l1 l2 x) (image_loop ds l1 l2 x).
Proof.
  induction ds as [|d ds IH]; intros l1 l2 x; cbn [map image_loop]; [apply sim_ret; reflexivity|].
  eapply sim_bind; [apply sim_quietly|]. intros r r' <-. apply IH.
Qed.
Lemma sim_each d : forall l1 l2 (xs : list I), sim eq (each_image (@logged_image W I d) l1 l2 xs) (each_image d l1 l2 xs).
Proof.
  intros l1 l2 xs. induction xs as [|x xs IH]; cbn [each_image]; [apply sim_ret; reflexivity|].
  eapply sim_bind; [apply sim_quietly|]. intros r r' <-. eapply sim_bind; [apply IH|]. intros y y' <-. apply sim_ret. reflexivity.
Qed.
Lemma sim_images ds : forall l1 l2 (xs : list I), sim eq (images_loop (map (@logged_image W I) ds) l1 l2 xs) (images_loop ds l1 l2 xs).
Proof.
  induction ds as [|d ds IH]; intros l1 l2 xs; cbn [map images_loop]; [apply sim_ret; reflexivity|].
  eapply sim_bind; [apply sim_each|]. intros r r' <-. apply IH.
Qed.
Lemma opt_map {A B} (f : A -> B) o : opt_list (option_map (map f) o) = map f (opt_list o).
Proof. destruct o; reflexivity. Qed.
Lemma sim_distort ds l1 l2 occ (p : potential I) :
  sim eq (distort_potential (option_map (map (@logged_image W I)) ds) l1 l2 occ p) (distort_potential ds l1 l2 occ p).
Proof.
  unfold distort_potential. rewrite opt_map. destruct occ, p; try (apply sim_ret; reflexivity);
  (eapply sim_bind; [first [apply sim_image|apply sim_images]|]; intros r r' <-; apply sim_ret; reflexivity).
Qed.

Lemma same_measure (c : config W L I K) s1 s2 v1 v2 res :
  sim same_diagram (measure (logged_config c at_potential at_response) s1 s2 v1 v2 res) (measure c s1 s2 v1 v2 res).
Proof.
  intros w log. unfold measure.
  assert (C : match check_measure c s1 s2 v1 v2 res with
              | Ok (gen, l1, l2) => exists gen', check_measure (logged_config c at_potential at_response) s1 s2 v1 v2 res = Ok (gen', l1, l2) /\ sim_gen gen' gen
              | Err e => check_measure (logged_config c at_potential at_response) s1 s2 v1 v2 res = Err e
              end).
  { unfold check_measure. cbn [logged_config ideal_csd_config volt_limits_g1 volt_limits_g2 volt_limits_sensor_g1 volt_limits_sensor_g2].
    destruct (ideal_csd_config c) as [gen|]; cbn [option_map]; [|reflexivity].
    destruct s1 as [|a1 [|b1 [|? ?]]]; try reflexivity. destruct s2 as [|a2 [|b2 [|? ?]]]; try reflexivity.
    unfold raise_if. destruct (_ || _); [reflexivity|]. destruct (sensor_volt_outside _ v1) as [out1|]; [|reflexivity]. cbn [bind].
    destruct (if out1 then _ else _) as [out|]; [|reflexivity]. cbn [bind]. destruct out; [reflexivity|].
    destruct (xorb _ _); [reflexivity|]. destruct (too_long res); [reflexivity|]. destruct (_ && _); [reflexivity|]. destruct (_ && _); [reflexivity|].
    exists (logged_generator gen). split; [reflexivity|]. intros l1 l2 r. apply sim_quietly. }
  destruct (check_measure c s1 s2 v1 v2 res) as [[[gen l1] l2]|e].
  - destruct C as (gen' & -> & Sg). refine (_ w log).
    eapply sim_bind; [apply Sg|]. intros a b <-. cbn [logged_config occupation_distortions sensor_potential_distortions sensor_response_distortions sensor].
    rewrite !opt_map. eapply sim_bind; [apply sim_loop, Sg|]. intros ol ol' <-.
    eapply sim_bind; [cbn [logged_sensor so_potential so_scan]; apply sim_warn|]. intros p p' <-.
    eapply sim_bind; [apply sim_distort|]. intros q q' <-.
    eapply sim_bind; [cbn [logged_sensor so_response]; apply sim_warn|]. intros r r' <-.
    eapply sim_bind; [apply sim_image|]. intros y y' <-.
    intros u lg. split; [cbn; repeat split|reflexivity].
  - rewrite C. split; reflexivity.
Qed.
Lemma sim_lift {A B} (Q : A -> B -> Prop) r r' : same_outcome Q r r' -> sim Q (fun w => (r, w)) (fun w => (r', w)).
Proof. intros H w log. split; [exact H|reflexivity]. Qed.
Lemma sim_occupations (c : config W L I K) v1 v2 res :
  sim eq (scan_occupations (logged_config c at_potential at_response) v1 v2 res) (scan_occupations c v1 v2 res).
Proof.
  unfold scan_occupations. cbn [logged_config ideal_csd_config]. destruct (ideal_csd_config c) as [gen|]; cbn [option_map]; [|apply sim_lift, outcome_refl].
  destruct v1 as [x1|]; [|apply sim_lift, outcome_refl]. destruct v2 as [x2|]; [|apply sim_lift, outcome_refl].
  eapply sim_bind; [apply sim_quietly|]. intros a b <-. destruct res as [n|l]; [|apply sim_lift, outcome_refl].
  intros w log. split; reflexivity.
Qed.
Lemma same_sensor_scan (c : config W L I K) s1 s2 v1 v2 res :
  sim same_scan (measure_sensor_scan (logged_config c at_potential at_response) s1 s2 v1 v2 res) (measure_sensor_scan c s1 s2 v1 v2 res).
Proof.
  intros w log. unfold measure_sensor_scan.
  replace (check_sensor_scan (logged_config c at_potential at_response) s1 s2 v1 v2 res) with (check_sensor_scan c s1 s2 v1 v2 res) by reflexivity.
  destruct (check_sensor_scan c s1 s2 v1 v2 res) as [[l1 l2]|e]; [|split; reflexivity]. refine (_ w log).
  eapply sim_bind; [apply sim_occupations|]. intros [occ res'] [? ?] E. injection E as <- <-.
  cbn [logged_config sensor_potential_distortions sensor_response_distortions sensor]. rewrite !opt_map.
  eapply sim_bind; [cbn [logged_sensor so_potential]; apply sim_warn|]. intros p p' <-.
  eapply sim_bind; [cbn [logged_sensor so_potential]; apply sim_warn|]. intros pu pu' <-.
  eapply sim_bind; [cbn [logged_sensor so_labels]; apply sim_quietly|]. intros la la' <-.
  eapply sim_bind; [apply sim_distort|]. intros q q' <-.
  eapply sim_bind; [cbn [logged_sensor so_response]; apply sim_warn|]. intros r r' <-.
  eapply sim_bind; [apply sim_image|]. intros y y' <-.
  intros u lg. split; [cbn; split; reflexivity|reflexivity].
Qed.
End Same.

(** ** Which warnings are given *)
Section Given.
Context {G : Type}.
Notation world := (logged (scan_world G)).
(** What the sensor remembers and the warnings *)
Definition memory (w : world) : option hidden := snd (fst w).
Definition steady {A} (m : action world A) : Prop := forall w, memory (snd (m w)) = memory w /\ snd (snd (m w)) = snd w.
Lemma steady_bind {A B} (m : action world A) (k : A -> action world B) : steady m -> (forall a, steady (k a)) -> steady (mbind m k).
Proof.
  intros H Hk w. unfold mbind. destruct (H w) as [E1 E2]. destruct (m w) as [[a|e] w']; cbn [snd] in *; [|split; assumption].
  destruct (Hk a w') as [F1 F2]. split; congruence.
Qed.
Lemma steady_ret {A} (a : A) : steady (ret a).
Proof. intros w. split; reflexivity. Qed.
Lemma steady_pure {A} (r : result A) : steady (fun w => (r, w)).
Proof. intros w. split; reflexivity. Qed.
Lemma steady_noise {A} (m : action (noise_world G) A) : steady (quietly (on_noise m)).
Proof. intros [[n st] log]. unfold quietly, on_noise, memory. cbn [fst snd]. destruct (m n) as [r n']. split; reflexivity. Qed.
Variable src : sources G.
Lemma steady_occ ds : forall gen l1 l2 ol, steady (occupation_loop (map logged_occ (map (scan_occ_object src) ds)) gen l1 l2 ol).
Proof.
  induction ds as [|d ds IH]; intros gen l1 l2 ol; cbn [map occupation_loop]; [apply steady_ret|].
  apply steady_bind; [|intros r; apply IH]. intros [[n st] log]. cbn [logged_occ od_noise scan_occ_object]. unfold quietly, memory. cbn [fst snd].
  unfold on_noise. cbn [fst snd]. destruct (od_noise _ _ _ _ _ _ _ _) as [r n']. split; reflexivity.
Qed.
Lemma steady_image ds : forall l1 l2 x, steady (image_loop (map (@logged_image (scan_world G) image) (map (scan_image_object src) ds)) l1 l2 x).
Proof.
  induction ds as [|d ds IH]; intros l1 l2 x; cbn [map image_loop]; [apply steady_ret|].
  apply steady_bind; [apply steady_noise|intros r; apply IH].
Qed.
Lemma steady_each d : forall l1 l2 xs, steady (each_image (@logged_image (scan_world G) image (scan_image_object src d)) l1 l2 xs).
Proof.
  intros l1 l2 xs. induction xs as [|x xs IH]; cbn [each_image]; [apply steady_ret|].
  apply steady_bind; [apply steady_noise|intros r; apply steady_bind; [apply IH|intros y; apply steady_ret]].
Qed.
Lemma steady_images ds : forall l1 l2 xs, steady (images_loop (map (@logged_image (scan_world G) image) (map (scan_image_object src) ds)) l1 l2 xs).
Proof.
  induction ds as [|d ds IH]; intros l1 l2 xs; cbn [map images_loop]; [apply steady_ret|].
  apply steady_bind; [apply steady_each|intros r; apply IH].
Qed.
Lemma steady_distort ds l1 l2 occ p :
  steady (distort_potential (option_map (map (@logged_image (scan_world G) image)) (Some (map (scan_image_object src) ds))) l1 l2 occ p).
Proof.
  unfold distort_potential. cbn [option_map opt_list]. destruct occ, p; try apply steady_ret;
  (apply steady_bind; [first [apply steady_image|apply steady_images]|]; intros r; apply steady_ret).
Qed.

Variables (label : arr2 nat -> arr2 nat) (lim1 lim2 lims1 lims2 : option (R * R)) (x : option geometric) (s : scan_sensor)
  (occs : list (occ_noise G)) (pots resps : list (image_noise G)).
Notation conf := (with_warnings s (noisy_scan_config src label lim1 lim2 lims1 lims2 x s occs pots resps)).

Lemma potential_step occ v1 v2 ww (u : scan_world G) log :
  so_potential (sensor conf) occ v1 v2 ww (u, log) =
  match scan_potential s occ v1 v2 (fst (match ww with Some q => q | None => (VNone, VNone) end)) (snd (match ww with Some q => q | None => (VNone, VNone) end)) with
  | Ok (p, h) => (Ok (PotMany (split_potentials p)), ((fst u, Some h), log ++ potential_warnings s occ v1 v2))
  | Err e => (Err e, (u, log ++ potential_warnings s occ v1 v2))
  end.
Proof.
  cbn [with_warnings logged_config sensor logged_sensor so_potential noisy_scan_config scan_sensor_object scan_object]. unfold warn_then, quietly, on_sensor. cbn [fst snd].
  destruct (match ww with Some q => q | None => (VNone, VNone) end) as [w1 w2]. cbn [fst snd]. destruct (scan_potential _ _ _ _ _ _) as [[p h]|e]; [reflexivity|].
  destruct u; reflexivity.
Qed.
Lemma response_log p (u : scan_world G) log : snd (snd (so_response (sensor conf) p (u, log))) = log ++ sensor_warnings s p u.
Proof.
  cbn [with_warnings logged_config sensor logged_sensor so_response]. unfold warn_then, quietly. cbn [fst snd]. destruct (so_response _ _ _) as [r u']. reflexivity.
Qed.
Lemma sensor_quiet p (u : scan_world G) : nonnegative_sensor s ->
  (ss_deform s = [] \/ match snd u with Some h => equal_ends (h_g1 h) = true /\ equal_ends (h_g2 h) = true | None => True end) -> sensor_warnings s p u = [].
Proof.
  intros N H. unfold sensor_warnings. destruct (snd u) as [h|]; [|reflexivity]. destruct (joined p) as [q|]; [|reflexivity]. rewrite never_negative by exact N.
  destruct H as [->|[-> ->]]; [reflexivity|]. destruct (negb _); reflexivity.
Qed.
Lemma checked_generator s1 s2 v1 v2 res gen l1 l2 : check_measure conf s1 s2 v1 v2 res = Ok (gen, l1, l2) ->
  s1 = [fst l1; snd l1] /\ s2 = [fst l2; snd l2] /\ forall k1 k2 r, steady (gen k1 k2 r).
Proof.
  unfold check_measure. cbn [with_warnings logged_config noisy_scan_config ideal_csd_config volt_limits_g1 volt_limits_g2 volt_limits_sensor_g1 volt_limits_sensor_g2].
  destruct x as [y|]; cbn [option_map]; [|discriminate].
  destruct s1 as [|a1 [|b1 [|? ?]]]; try discriminate. destruct s2 as [|a2 [|b2 [|? ?]]]; try discriminate.
  unfold raise_if. destruct (_ || _); [discriminate|]. destruct (sensor_volt_outside _ v1) as [out1|]; [|discriminate]. cbn [bind].
  destruct (if out1 then _ else _) as [out|]; [|discriminate]. cbn [bind]. destruct out; [discriminate|].
  destruct (xorb _ _); [discriminate|]. destruct (too_long res); [discriminate|]. destruct (_ && _); [discriminate|]. destruct (_ && _); [discriminate|].
  intros E. injection E as <- <- <-. split; [reflexivity|]. split; [reflexivity|]. intros k1 k2 r [u log]. split; reflexivity.
Qed.
Lemma occupations_steady v1 v2 res : steady (scan_occupations conf v1 v2 res).
Proof.
  unfold scan_occupations. cbn [with_warnings logged_config noisy_scan_config ideal_csd_config]. destruct x as [y|]; cbn [option_map]; [|apply steady_pure].
  destruct v1; [|apply steady_pure]. destruct v2; [|apply steady_pure]. apply steady_bind; [intros [u log]; split; reflexivity|].
  intros a. destruct res; [|apply steady_pure]. apply steady_pure.
Qed.
Lemma no_deform_potential occ v1 v2 : ss_deform s = [] -> potential_warnings s occ v1 v2 = [].
Proof. intros E. unfold potential_warnings. rewrite E. destruct occ; reflexivity. Qed.
Lemma not_swept_potential occ v1 v2 : potential_warnings s occ (volt_arg v1) (volt_arg v2) = [].
Proof. unfold potential_warnings. destruct v1, v2, occ; cbn; rewrite ?Bool.andb_false_r; reflexivity. Qed.

Lemma conf_occ : opt_list (occupation_distortions conf) = map logged_occ (map (scan_occ_object src) occs).
Proof. reflexivity. Qed.
Lemma conf_pot : sensor_potential_distortions conf = option_map (map (@logged_image (scan_world G) image)) (Some (map (scan_image_object src) pots)).
Proof. reflexivity. Qed.
Lemma conf_resp : opt_list (sensor_response_distortions conf) = map (@logged_image (scan_world G) image) (map (scan_image_object src) resps).
Proof. reflexivity. Qed.
Lemma end_log {A B} (m : action world A) (f : A -> world -> result B) w :
  steady m -> snd (snd (mbind m (fun a u => (f a u, u)) w)) = snd w.
Proof. intros H. unfold mbind. destruct (H w) as [_ E]. destruct (m w) as [[a|e] u]; exact E. Qed.
(** From the potential on; [same] says what the sensor remembers when the response is computed *)
Lemma response_part {B} l1 l2 k1 k2 occ p (f : image -> world -> result B) (u : scan_world G) log :
  (exists p' u', mbind (distort_potential (sensor_potential_distortions conf) l1 l2 occ p) (fun p' =>
     mbind (so_response (sensor conf) p') (fun r => mbind (image_loop (opt_list (sensor_response_distortions conf)) k1 k2 r)
       (fun csd w => (f csd w, w)))) (u, log) =
     mbind (so_response (sensor conf) p') (fun r => mbind (image_loop (opt_list (sensor_response_distortions conf)) k1 k2 r)
       (fun csd w => (f csd w, w))) (u', log) /\ snd u' = snd u /\
     snd (snd (mbind (so_response (sensor conf) p') (fun r => mbind (image_loop (opt_list (sensor_response_distortions conf)) k1 k2 r)
       (fun csd w => (f csd w, w))) (u', log))) = log ++ sensor_warnings s p' u') \/
  (exists e w', mbind (distort_potential (sensor_potential_distortions conf) l1 l2 occ p) (fun p' =>
     mbind (so_response (sensor conf) p') (fun r => mbind (image_loop (opt_list (sensor_response_distortions conf)) k1 k2 r)
       (fun csd w => (f csd w, w)))) (u, log) = (Err e, w') /\ snd w' = log).
Proof.
  rewrite conf_pot. destruct (steady_distort pots l1 l2 occ p (u, log)) as [M E].
  remember (distort_potential (option_map (map logged_image) (Some (map (scan_image_object src) pots))) l1 l2 occ p (u, log)) as ddd eqn:Ed in M, E. symmetry in Ed. destruct ddd as [[p'|e] [u' log']]; cbn [snd fst] in *.
  - left. unfold memory in M. cbn [fst] in M. subst log'. exists p', u'. split; [unfold mbind at 1; rewrite Ed; reflexivity|]. split; [exact M|].
    pose proof (response_log p' u' log) as Q. unfold mbind at 1. destruct (so_response (sensor conf) p' (u', log)) as [[r|e] w2]; cbn [snd] in Q; [|exact Q].
    rewrite end_log; [exact Q|]. rewrite conf_resp. apply steady_image.
  - right. exists e, (u', log'). split; [unfold mbind at 1; rewrite Ed; reflexivity|exact E].
Qed.

Lemma measure_quiet s1 s2 v1 v2 res w : ss_deform s = [] -> nonnegative_sensor s -> snd (snd (measure conf s1 s2 v1 v2 res w)) = snd w.
Proof.
  intros D N. unfold measure. destruct (check_measure conf s1 s2 v1 v2 res) as [[[gen l1] l2]|e] eqn:C; [|reflexivity].
  destruct (checked_generator _ _ _ _ _ _ _ _ C) as (_ & _ & Sg). clear C. unfold mbind at 1.
  destruct (Sg l1 l2 res w) as [_ E]. destruct (gen l1 l2 res w) as [[ideal|e] w1]; cbn [snd] in E; [|exact E]. rewrite <- E. clear E.
  rewrite conf_occ. unfold mbind at 1.
  destruct (steady_occ occs gen l1 l2 ideal w1) as [_ E]. destruct (occupation_loop _ _ _ _ _ w1) as [[ol|e] [u2 log]]; cbn [snd] in E; [|exact E]. rewrite <- E. clear E.
  unfold mbind at 1. rewrite potential_step, no_deform_potential, app_nil_r by exact D.
  destruct (scan_potential _ _ _ _ _ _) as [[p h]|e]; [|reflexivity].
  match goal with |- snd (snd (?m _)) = _ => set (act := m) end.
  destruct (response_part l1 l2 l1 l2 (fst ol) (PotMany (split_potentials p))
    (fun csd w' => Ok (mk_measurement csd (fst ol) (snd ol) (mk_metadata l1 l2 v1 v2 res conf w'))) (fst u2, Some h) log) as [(p' & u' & E1 & E2 & E3)|(e & w' & E1 & E2)].
  - match type of E1 with _ = ?r => change (act (fst u2, Some h, log) = r) in E1 end. rewrite E1, E3, (sensor_quiet p' u' N) by (left; exact D). apply app_nil_r.
  - match type of E1 with _ = ?r => change (act (fst u2, Some h, log) = r) in E1 end. rewrite E1. exact E2.
Qed.
Lemma equal_ends_iff l : equal_ends l = true <-> fst l = snd l.
Proof. unfold equal_ends. destruct (Reqb_spec (fst l) (snd l)); split; congruence. Qed.
Lemma potential_shape occ v1 v2 w1 w2 p h : scan_potential s occ v1 v2 w1 w2 = Ok (p, h) -> h_g1 h = as_limits v1 /\ h_g2 h = as_limits v2 /\ occ <> OccOther.
Proof.
  unfold scan_potential, raise_if. destruct occ; [| |discriminate]; destruct (_ && _); try discriminate; destruct (_ : bool); try discriminate; intros E; injection E as _ <-; repeat split; discriminate.
Qed.
Lemma measure_deformed a1 b1 a2 b2 v1 v2 res w m w' : ss_deform s <> [] ->
  measure conf [a1; b1] [a2; b2] v1 v2 res w = (Ok m, w') ->
  exists rest, snd w' = snd w ++ DeformedPlunger :: rest /\ (a1 <> b1 \/ a2 <> b2 <-> In DeformedSweep rest) /\ (nonnegative_sensor s -> rest = [] \/ rest = [DeformedSweep]).
Proof.
  intros D. unfold measure. destruct (check_measure conf _ _ v1 v2 res) as [[[gen l1] l2]|e] eqn:C; [|discriminate].
  destruct (checked_generator _ _ _ _ _ _ _ _ C) as (L1 & L2 & Sg). clear C. injection L1 as La1 Lb1. injection L2 as La2 Lb2. unfold mbind at 1.
  destruct (Sg l1 l2 res w) as [_ E]. destruct (gen l1 l2 res w) as [[ideal|e] w1]; cbn [snd] in E; [|discriminate]. rewrite <- E. clear E.
  rewrite conf_occ. unfold mbind at 1.
  destruct (steady_occ occs gen l1 l2 ideal w1) as [_ E]. destruct (occupation_loop _ _ _ _ _ w1) as [[ol|e] [u2 log]]; cbn [snd] in E; [|discriminate]. rewrite <- E. clear E.
  unfold mbind at 1. rewrite potential_step.
  destruct (scan_potential _ _ _ _ _ _) as [[p h]|e] eqn:P; [|discriminate]. destruct (potential_shape _ _ _ _ _ _ _ P) as (H1 & H2 & O).
  assert (W1 : potential_warnings s (fst ol) (sweep_arg l1) (sweep_arg l2) = [DeformedPlunger]).
  { unfold potential_warnings. destruct (ss_deform s); [contradiction|]. destruct (fst ol); [reflexivity|reflexivity|contradiction]. }
  rewrite W1. match goal with |- ?m _ = _ -> _ => set (act := m) end.
  destruct (response_part l1 l2 l1 l2 (fst ol) (PotMany (split_potentials p))
    (fun csd w' => Ok (mk_measurement csd (fst ol) (snd ol) (mk_metadata l1 l2 v1 v2 res conf w'))) (fst u2, Some h) (log ++ [DeformedPlunger])) as [(p' & u' & E1 & E2 & E3)|(e & w2 & E1 & E2)].
  - match type of E1 with _ = ?r => change (act (fst u2, Some h, log ++ [DeformedPlunger]) = r) in E1 end. rewrite E1. intros M. rewrite M in E3. cbn [snd] in E3. exists (sensor_warnings s p' u'). rewrite E3, <- app_assoc. split; [reflexivity|]. clear E1 E3.
    assert (J : exists q, joined p' = Ok q). { unfold mbind in M. cbn [with_warnings logged_config sensor logged_sensor so_response noisy_scan_config scan_sensor_object scan_object] in M.
      unfold warn_then, quietly, on_sensor in M. cbn [fst snd] in M. rewrite E2 in M. cbn [snd] in M. destruct (joined p') as [q|]; [exists q; reflexivity|discriminate]. }
    destruct J as [q J]. unfold sensor_warnings. rewrite E2, J. cbn [snd]. split.
    + unfold response_warnings. destruct (ss_deform s) as [|d ds] eqn:Ed; [contradiction|]. cbn [length Nat.eqb negb andb]. rewrite H1, H2. cbn [sweep_arg as_limits].
      rewrite in_app_iff.
      assert (T : In DeformedSweep (match dot_response s h q with Ok (dots, _, _) =>
         if existsb negative dots || existsb (fun q => negative (get_value (ss_barrier1 s) (at_barrier1 q))) (pot_list q) ||
         existsb (fun q => negative (get_value (ss_barrier2 s) (at_barrier2 q))) (pot_list q) then [NegativeResponse] else [] | Err _ => [] end) <-> False).
      { split; [|contradiction]. destruct (dot_response s h q) as [[[dots ?] ?]|]; [|contradiction]. destruct (_ || _); [intros [?|[]]; discriminate|contradiction]. }
      rewrite T. subst. destruct (equal_ends (fst l1, snd l1)) eqn:Q1; [|split; [intros _; left; now left|intros _; left; intros Q; assert (equal_ends (fst l1, snd l1) = true) by (apply equal_ends_iff; exact Q); congruence]].
      destruct (equal_ends (fst l2, snd l2)) eqn:Q2; cbn [andb negb].
      * apply equal_ends_iff in Q1, Q2. cbn in Q1, Q2. split; [intros [?|?]; contradiction|intros [[]|[]]].
      * split; [intros _; left; now left|intros _; right; intros Q; assert (equal_ends (fst l2, snd l2) = true) by (apply equal_ends_iff; exact Q); congruence].
    + intros N. rewrite never_negative by exact N. destruct (_ && _); auto.
  - match type of E1 with _ = ?r => change (act (fst u2, Some h, log ++ [DeformedPlunger]) = r) in E1 end. rewrite E1. discriminate.
Qed.

(** ** Sensor scans *)
Lemma held v : equal_ends (as_limits (volt_arg v)) = true.
Proof. apply equal_ends_iff. destruct v; reflexivity. Qed.
Lemma labels_step v1 v2 w1 w2 p (u : scan_world G) log :
  let r := so_labels (sensor conf) (volt_arg v1) (volt_arg v2) w1 w2 p (u, log) in
  snd (snd r) = log /\ forall L, fst r = Ok L -> exists h, snd (fst (snd r)) = Some h /\ equal_ends (h_g1 h) = true /\ equal_ends (h_g2 h) = true.
Proof.
  cbv zeta. cbn [with_warnings logged_config sensor logged_sensor so_labels noisy_scan_config scan_sensor_object scan_object]. unfold quietly, on_sensor. cbn [fst snd].
  destruct (snd u) as [h|]; [|split; [reflexivity|discriminate]].
  destruct (joined p) as [q|]; cbn [bind]; [|split; [reflexivity|discriminate]].
  destruct (get_sensor_scan_labels s h (volt_arg v1) (volt_arg v2) w1 w2 q) as [[L h']|] eqn:E; cbn [fst snd]; (split; [reflexivity|]); [|discriminate].
  intros L' _. exists h'. split; [reflexivity|]. unfold get_sensor_scan_labels in E. destruct (first_occ (h_occ h)) as [occ|]; [|discriminate]. cbn [bind] in E.
  unfold raise_if in E. destruct (negb _); [discriminate|]. destruct (calc_point _ _ _ _ _) as [pt|]; [|discriminate]. cbn [bind] in E.
  destruct (scan_potential _ _ _ _ _ _) as [[p2 h2]|] eqn:P; [|discriminate]. destruct (potential_shape _ _ _ _ _ _ _ P) as (H1 & H2 & _). cbn [bind fst snd] in E.
  destruct p2; [|discriminate]. cbn [bind] in E. destruct (subscript w1); [|discriminate]. destruct (subscript w2); [|discriminate]. cbn [bind] in E.
  match type of E with bind ?d _ = _ => destruct d as [dists|]; [|discriminate] end. cbn [bind] in E. destruct (ss_peaks s); [|discriminate].
  match type of E with bind ?d _ = _ => destruct d as [mask|]; [|discriminate] end. cbn [bind] in E. injection E as _ <-. rewrite H1, H2. split; apply held.
Qed.
Lemma scan_quiet s1 s2 v1 v2 res w : nonnegative_sensor s -> snd (snd (measure_sensor_scan conf s1 s2 v1 v2 res w)) = snd w.
Proof.
  intros N. unfold measure_sensor_scan. destruct (check_sensor_scan conf s1 s2 v1 v2 res) as [[l1 l2]|e]; [|reflexivity]. unfold mbind at 1.
  destruct (occupations_steady v1 v2 res w) as [_ E]. destruct (scan_occupations conf v1 v2 res w) as [[[occ res']|e] [u log]]; cbn [snd] in E; [|exact E]. rewrite <- E. clear E.
  unfold mbind at 1. rewrite potential_step, not_swept_potential, app_nil_r. cbn [fst snd]. destruct (scan_potential _ _ _ _ _ _) as [[p h]|e]; [|reflexivity].
  unfold mbind at 1. rewrite potential_step, not_swept_potential, app_nil_r. cbn [fst snd]. destruct (scan_potential _ _ _ _ _ _) as [[p2 h2]|e]; [|reflexivity].
  unfold mbind at 1. pose proof (labels_step v1 v2 (sweep_arg l1) (sweep_arg l2) (PotMany (split_potentials p2)) (fst u, Some h2) log) as Q. cbv zeta in Q. cbn [fst] in Q |- *.
  destruct (so_labels _ _ _ _ _ _ _) as [[L|e] [u3 log3]]; cbn [fst snd] in Q |- *; destruct Q as [-> Q]; [|reflexivity].
  destruct (Q L eq_refl) as (h3 & M3 & G1 & G2).
  match goal with |- snd (snd (?m _)) = _ => set (act := m) end.
  destruct (response_part l1 l2 l1 l1 occ (PotMany (split_potentials p))
    (fun scan w' => Ok (mk_sensor_scan scan L (mk_metadata l1 l2 v1 v2 res' conf w'))) u3 log) as [(p' & u' & E1 & E2 & E3)|(e & w' & E1 & E2)].
  - match type of E1 with _ = ?r => change (act (u3, log) = r) in E1 end. rewrite E1, E3, (sensor_quiet p' u' N); [apply app_nil_r|]. right. rewrite E2, M3. split; assumption.
  - match type of E1 with _ = ?r => change (act (u3, log) = r) in E1 end. rewrite E1. exact E2.
Qed.
End Given.
