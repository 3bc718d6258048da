(** Proofs that measurements depend on earlier ones through the random generators only. *)
From Coq Require Import FunctionalExtensionality.
From Verif Require Import RPrelude Arr ModelSupport ModelTct ModelCsd ModelJumps ModelDistortions ModelSensor ModelSimulation ModelInstance
  ModelNoise ModelScanInstance ModelScanNoise SpecHistory SpecNoise ProofsNoise ProofsReplay ProofsScanNoise.
Local Open Scope R_scope.

(** ** Runs of an action in two worlds *)
Section Same.
Context {W : Type}.
Definition same {A} (P Q : W -> W -> Prop) (m : action W A) : Prop :=
  forall w w', P w w' ->
  match m w, m w' with
  | (Ok a, w1), (Ok a', w1') => a = a' /\ Q w1 w1'
  | (Err e, _), (Err e', _) => e = e'
  | _, _ => False
  end.
Lemma same_bind {A B} P Q T (m : action W A) (k : A -> action W B) : same P Q m -> (forall a, same Q T (k a)) -> same P T (mbind m k).
Proof.
  intros Hm Hk w w' H. specialize (Hm w w' H). unfold mbind.
  destruct (m w) as [[a|e] w1], (m w') as [[a'|e'] w1']; try contradiction; [|exact Hm].
  destruct Hm as [-> Q']. exact (Hk a' w1 w1' Q').
Qed.
Lemma same_ret {A} P (a : A) : same P P (ret a).
Proof. intros w w' H. split; auto. Qed.
Lemma same_pure {A} P (r : result A) : same P P (fun w => (r, w)).
Proof. intros w w' H. destruct r; auto. Qed.
(** The last step of a measurement records the world. *)
Definition yields {A} (P : W -> W -> Prop) (V : result A * W -> result A * W -> Prop) (m : action W A) : Prop :=
  forall w w', P w w' -> V (m w) (m w').
Lemma yields_bind {A B} P Q (V : result B * W -> result B * W -> Prop) (m : action W A) (k : A -> action W B) :
  (forall e w w', V (Err e, w) (Err e, w')) -> same P Q m -> (forall a, yields Q V (k a)) -> yields P V (mbind m k).
Proof.
  intros He Hm Hk w w' H. specialize (Hm w w' H). unfold mbind.
  destruct (m w) as [[a|e] w1], (m w') as [[a'|e'] w1']; try contradiction.
  - destruct Hm as [-> Q']. exact (Hk a' w1 w1' Q').
  - subst e'. apply He.
Qed.
Lemma same_image_loop {I} P (ds : list (img_distortion W I)) l1 l2 : (forall d, In d ds -> forall x, same P P (d x l1 l2)) ->
  forall x, same P P (image_loop ds l1 l2 x).
Proof.
  induction ds as [|d ds IH]; intros H x; cbn [image_loop]; [apply same_ret|].
  apply same_bind with (Q := P); [apply H; left; reflexivity|]. intros y. apply IH. intros d' Hd. apply H. right. exact Hd.
Qed.
Lemma same_each {I} P (d : img_distortion W I) l1 l2 : (forall x, same P P (d x l1 l2)) -> forall xs, same P P (each_image d l1 l2 xs).
Proof.
  intros H. induction xs as [|x xs IH]; cbn [each_image]; [apply same_ret|].
  apply same_bind with (Q := P); [apply H|]. intros y. apply same_bind with (Q := P); [exact IH|]. intros ys. apply same_ret.
Qed.
Lemma same_images_loop {I} P (ds : list (img_distortion W I)) l1 l2 : (forall d, In d ds -> forall x, same P P (d x l1 l2)) ->
  forall xs, same P P (images_loop ds l1 l2 xs).
Proof.
  induction ds as [|d ds IH]; intros H xs; cbn [images_loop]; [apply same_ret|].
  apply same_bind with (Q := P); [apply same_each, H; left; reflexivity|]. intros y. apply IH. intros d' Hd. apply H. right. exact Hd.
Qed.
Lemma same_distort {I} P (ds : list (img_distortion W I)) l1 l2 occ p : (forall d, In d ds -> forall x, same P P (d x l1 l2)) ->
  same P P (distort_potential (Some ds) l1 l2 occ p).
Proof.
  intros H. unfold distort_potential. cbn [opt_list]. destruct occ, p; try apply same_ret;
  (apply same_bind with (Q := P); [first [apply same_image_loop|apply same_images_loop]; exact H|intros y; apply same_ret]).
Qed.
End Same.

(** ** Occupation distortions *)
Section History.
Context {G : Type}.
Variable src : sources G.
Notation world := (noise_world G).

Definition jump_alike (a b : jump_state) : Prop := js_activated a = js_activated b /\ (js_activated a = Some true -> js_noise a = js_noise b).
(** What a frozen object reads is the same in both worlds. *)
Definition alike_for (w w' : world) (d : occ_noise G) : Prop :=
  match d with
  | Blur k _ _ _ => w_sigma w k = w_sigma w' k
  | Jumps k _ _ _ _ => jump_alike (w_jump w k) (w_jump w' k)
  end.
Definition alike (ks : list (occ_noise G)) (w w' : world) : Prop := forall d, In d ks -> alike_for w w' d.
Definition near (ks : list (occ_noise G)) (w w' : world) : Prop := alike ks w w' /\ w_rng w = w_rng w'.
Definition determined (ks : list (occ_noise G)) (gen : generator world lead_mask) : Prop :=
  (forall l1 l2 res w r w1, gen l1 l2 res w = (Ok r, w1) -> w1 = w) /\
  (forall l1 l2 res w w', alike ks w w' -> fst (gen l1 l2 res w') = fst (gen l1 l2 res w)).
Lemma agree_alike ks w w' : agree (map key_of ks) w w' -> alike ks w w'.
Proof.
  intros A d Hd. destruct (A (key_of d) (in_map key_of ks d Hd)) as [Q1 Q2]. destruct d; cbn in *; [exact Q1|]. rewrite Q2. split; auto.
Qed.
Lemma determined_reads ks gen : determined ks gen -> reads (map key_of ks) gen.
Proof. intros [P D]. split; [exact P|]. intros. apply D, agree_alike. assumption. Qed.
Lemma alike_cons d ks w w' : alike (d :: ks) w w' -> alike ks w w'.
Proof. intros H i Hi. apply H. right. exact Hi. Qed.
Lemma generated1_alike ks gen w w' : determined ks gen -> alike ks w w' -> generated1 gen w' = generated1 gen w.
Proof.
  intros [_ D] A. do 3 (apply functional_extensionality; intro). unfold generated1. rewrite (D _ _ _ w w' A). reflexivity.
Qed.
Lemma generated2_alike ks gen w w' : determined ks gen -> alike ks w w' -> generated2 gen w' = generated2 gen w.
Proof.
  intros [_ D] A. do 3 (apply functional_extensionality; intro). unfold generated2. rewrite (D _ _ _ w w' A). reflexivity.
Qed.
Lemma run_calls_alike ks gen : determined ks gen -> forall calls w w', alike ks w w' ->
  match run_calls gen calls w, run_calls gen calls w' with
  | (Ok _, w1), (Ok _, w1') => w1 = w /\ w1' = w'
  | (Err e, _), (Err e', _) => e = e'
  | _, _ => False
  end.
Proof.
  intros [P D]. induction calls as [|[[l1 l2] res] t IH]; intros w w' A; cbn [run_calls]; [split; reflexivity|].
  unfold mbind. specialize (D l1 l2 res w w' A).
  destruct (gen l1 l2 res w) as [[r|e] w1] eqn:E; destruct (gen l1 l2 res w') as [[r'|e'] w1'] eqn:E'; cbn in D; try discriminate.
  - apply P in E, E'. subst. apply IH, A.
  - congruence.
Qed.
(** The jumps that are applied in alike worlds. *)
Lemma apply_alike ks gen axis noise s lead l1 l2 w w' : determined ks gen -> alike ks w w' ->
  let run := fun v => (do _ <- run_calls gen (jump_calls axis noise (scan_shape s) l1 l2);
                fun w2 : world => (let? s' := jump_apply is_nan None (src_empty src) true (generated1 gen v) (generated2 gen v) axis noise s l1 l2 in
                           Ok (scan_jump s' lead, scan_jump s' lead), w2)) v in
  match run w, run w' with
  | (Ok r, w1), (Ok r', w1') => r = r' /\ w1 = w /\ w1' = w'
  | (Err e, _), (Err e', _) => e = e'
  | _, _ => False
  end.
Proof.
  intros D A. cbv zeta. unfold mbind. pose proof (run_calls_alike ks gen D (jump_calls axis noise (scan_shape s) l1 l2) w w' A) as H.
  rewrite (generated1_alike ks gen w w' D A), (generated2_alike ks gen w w' D A).
  destruct (run_calls gen _ w) as [[u|e] w1], (run_calls gen _ w') as [[u'|e'] w1']; try contradiction; [|exact H].
  destruct H as [-> ->]. destruct (jump_apply _ _ _ _ _ _ _ _ _ _ _); cbn [bind]; auto.
Qed.
Lemma frozen_alike d ks gen occ lead l1 l2 : determined ks gen -> forall w w', alike (d :: ks) w w' ->
  fst (od_noise (occ_object src d) occ lead l1 l2 gen true w') = fst (od_noise (occ_object src d) occ lead l1 l2 gen true w).
Proof.
  intros D w w' A. pose proof (A d (or_introl eq_refl)) as As.
  destruct d as [k sigma kernel radius|k axis ratio scale lam]; cbn [occ_object od_noise blur_object jumps_object alike_for] in *.
  - destruct (occ_scan occ) as [s|]; [|reflexivity]. rewrite <- As. unfold blur_noise_function.
    destruct (w_sigma w k) as [sg|]; cbn [bind]; [|reflexivity]. destruct (Rltb 0 sg); [|reflexivity].
    destruct (blur_px_per_volt _ _ _); cbn [bind]; reflexivity.
  - destruct As as [Ja Jn]. destruct (jump_scan occ lead) as [s|]; [|reflexivity]. unfold jump_draw. rewrite <- Ja.
    destruct (js_activated (w_jump w k)) as [[|]|] eqn:Ea; cbn [andb negb]; [|reflexivity|reflexivity].
    specialize (Jn eq_refl). rewrite <- Jn. destruct (js_noise (w_jump w k)) as [n|] eqn:En; [|reflexivity].
    rewrite !set_same, !world_eta. pose proof (apply_alike ks gen axis n s lead l1 l2 w w' D (alike_cons _ _ _ _ A)) as H. cbv beta zeta in H.
    destruct (mbind _ _ w) as [[r|e] w1], (mbind _ _ w') as [[r'|e'] w1']; try contradiction; cbn [fst]; [destruct H as [-> _]; reflexivity|congruence].
Qed.
Lemma with_noise_determined d ks gen : determined ks gen -> determined (d :: ks) (with_noise gen (occ_object src d)).
Proof.
  intros D. split.
  - intros l1 l2 res w r w1. exact (proj1 (with_noise_reads src d (map key_of ks) gen (determined_reads ks gen D)) l1 l2 res w r w1).
  - intros l1 l2 res w w' A. unfold with_noise, mbind. pose proof (proj2 D l1 l2 res w w' (alike_cons _ _ _ _ A)) as Q.
    destruct (gen l1 l2 res w) as [[ol|e] w2] eqn:E; destruct (gen l1 l2 res w') as [[ol'|e'] w2'] eqn:E'; cbn in Q; try discriminate; [|injection Q as ->; reflexivity].
    injection Q as ->. apply (proj1 D) in E, E'. subst.
    pose proof (frozen_alike d ks gen (fst ol) (snd ol) l1 l2 D w w' A) as Q.
    destruct (od_noise (occ_object src d) _ _ _ _ _ _ w) as [[p|] w3], (od_noise (occ_object src d) _ _ _ _ _ _ w') as [[p'|] w3']; cbn in Q |- *; congruence.
Qed.
(** The random generator and all objects called so far are alike after an object was called. *)
Lemma active_alike d ks gen occ lead l1 l2 : determined ks gen ->
  same (near ks) (near (d :: ks)) (od_noise (occ_object src d) occ lead l1 l2 gen false).
Proof.
  intros D w w' [A E]. destruct d as [k sigma kernel radius|k axis ratio scale lam]; cbn [occ_object od_noise blur_object jumps_object].
  - destruct (occ_scan occ) as [s|]; [|reflexivity]. unfold blur_noise_function. cbn [bind]. rewrite <- E.
    destruct (sigma (w_rng w)) as [sg g1].
    assert (N : near (Blur k sigma kernel radius :: ks) (mk_noise_world (set_key (w_sigma w) k (Some sg)) (w_jump w) g1)
                  (mk_noise_world (set_key (w_sigma w') k (Some sg)) (w_jump w') g1)).
    { split; [|reflexivity]. intros d [<-|Hd]; cbn; [rewrite !set_own; reflexivity|].
      specialize (A d Hd). destruct d as [i ? ? ?|i ? ? ? ?]; cbn in *; [|exact A]. unfold set_key. destruct (i =? k)%nat; auto. }
    destruct (Rltb 0 sg); [|split; [reflexivity|exact N]].
    destruct (blur_px_per_volt _ _ _); cbn [bind]; [|reflexivity]. split; [reflexivity|exact N].
  - destruct (jump_scan occ lead) as [s|]; [|reflexivity].
    assert (N : forall a b g, jump_alike a b -> near (Jumps k axis ratio scale lam :: ks) (mk_noise_world (w_sigma w) (set_key (w_jump w) k a) g)
                  (mk_noise_world (w_sigma w') (set_key (w_jump w') k b) g)).
    { intros a b g J. split; [|reflexivity]. intros d [<-|Hd]; cbn; [rewrite !set_own; exact J|].
      specialize (A d Hd). destruct d as [i ? ? ?|i ? ? ? ?]; cbn in *; [exact A|]. unfold set_key. destruct (i =? k)%nat; auto. }
    unfold jump_draw. cbn [andb]. rewrite <- E. destruct (src_binomial src ratio (w_rng w)) as [[|] g1]; cbn [negb].
    2: { split; [reflexivity|]. apply N. split; [reflexivity|discriminate]. }
    destruct (scale g1) as [sv g2]. destruct (lam g2) as [lv g3]. destruct (jump_px_per_volt _ _ _ _) as [kk|]; [|reflexivity]. cbn [bind].
    destruct (jump_size _ _) as [size|]; [|reflexivity]. cbn [bind]. destruct (generate_dot_jumps_blockwise _ _ _ _ _) as [noise g4].
    specialize (N (mk_jump_state (Some true) (Some noise)) (mk_jump_state (Some true) (Some noise)) g4 (conj eq_refl (fun _ => eq_refl))).
    pose proof (apply_alike ks gen axis noise s lead l1 l2 _ _ D (alike_cons _ _ _ _ (proj1 N))) as H. cbv beta zeta in H.
    destruct (mbind _ _ _) as [[r|e] w1], (mbind _ _ _) as [[r'|e'] w1']; try contradiction; [|exact H].
    destruct H as (-> & -> & ->). split; [reflexivity|exact N].
Qed.
Lemma loop_alike ds : forall ks gen l1 l2 ol, determined ks gen ->
  same (near ks) (near (rev ds ++ ks)) (occupation_loop (map (occ_object src) ds) gen l1 l2 ol).
Proof.
  induction ds as [|d ds IH]; intros ks gen l1 l2 ol D; cbn [map occupation_loop rev]; [apply same_ret|].
  apply same_bind with (Q := near (d :: ks)); [apply active_alike, D|].
  intros r. rewrite <- app_assoc. apply IH, with_noise_determined, D.
Qed.
Lemma csd_determined label x : determined [] (get_csd_data (W := world) label x).
Proof. split; [intros l1 l2 res w r w1 E; inversion E; reflexivity|reflexivity]. Qed.
Definition twin (w w' : world) : Prop := w_rng w = w_rng w'.
Lemma same_weaken {W A} (P Q P' Q' : W -> W -> Prop) (m : action W A) : (forall w w', P' w w' -> P w w') -> (forall w w', Q w w' -> Q' w w') ->
  same P Q m -> same P' Q' m.
Proof.
  intros HP HQ H w w' E. specialize (H w w' (HP w w' E)). destruct (m w) as [[a|e] w1], (m w') as [[a'|e'] w1']; try contradiction; [|exact H].
  destruct H as [Ha Hq]. split; [exact Ha|apply HQ, Hq].
Qed.
Lemma loop_twin label x ds l1 l2 ol : same twin twin (occupation_loop (map (occ_object src) ds) (get_csd_data label x) l1 l2 ol).
Proof.
  apply (same_weaken (near []) (near (rev ds ++ []))).
  - intros w w' E. split; [intros d []|exact E].
  - intros w w' [_ E]. exact E.
  - apply loop_alike, csd_determined.
Qed.
Lemma object_twin d x l1 l2 : same twin twin (image_object src d x l1 l2).
Proof.
  intros w w' E. unfold image_object. destruct x as [im|]; [|reflexivity]. rewrite <- E.
  destruct (image_noise_function src d im l1 l2 (w_rng w)) as [[im' g']|]; [|reflexivity]. split; reflexivity.
Qed.
Lemma objects_twin ds l1 l2 : forall d, In d (map (image_object src) ds) -> forall x, same twin twin (d x l1 l2).
Proof. intros d Hd x. apply in_map_iff in Hd. destruct Hd as (d0 & <- & _). apply object_twin. Qed.

(** ** Measurements with SensorGeneric *)
Lemma csd_pure {W} (P : W -> W -> Prop) label x l1 l2 res : same P P (get_csd_data label x l1 l2 res).
Proof. apply same_pure. Qed.
Lemma generic_potential_same {W} (P : W -> W -> Prop) s occ v1 v2 o : same P P (so_potential (generic_object s) occ v1 v2 o).
Proof. cbn [generic_object so_potential]. apply same_pure. Qed.
Lemma generic_response_same {W} (P : W -> W -> Prop) s p : same P P (so_response (generic_object s) p).
Proof. cbn [generic_object so_response]. apply same_pure. Qed.
Lemma measure_twin label lim1 lim2 x s occs pots resps s1 s2 v1 v2 res w w' : w_rng w = w_rng w' ->
  let c := noisy_config src label lim1 lim2 x s occs pots resps in
  same_diagram w_rng (measure c s1 s2 v1 v2 res w) (measure c s1 s2 v1 v2 res w').
Proof.
  intros E c. unfold measure.
  assert (C : forall gen l1 l2, check_measure c s1 s2 v1 v2 res = Ok (gen, l1, l2) -> gen = get_csd_data label x).
  { intros gen l1 l2. unfold check_measure, c, noisy_config. cbn [ideal_csd_config].
    destruct s1 as [|u1 [|u2 [|u3 s1']]]; try discriminate. destruct s2 as [|u4 [|u5 [|u6 s2']]]; try discriminate.
    unfold raise_if. cbn [volt_limits_sensor_g1 volt_limits_sensor_g2 sensor_volt_outside bind].
    repeat match goal with |- context [if ?b then _ else _] => destruct b end; try discriminate; intros Q; inversion Q; auto. }
  destruct (check_measure c s1 s2 v1 v2 res) as [[[gen l1] l2]|e]; [|reflexivity]. rewrite (C gen l1 l2 eq_refl). clear C gen.
  assert (He : forall e (w w' : world), same_diagram (L := lead_mask) (I := response) (K := unit) w_rng (Err e, w) (Err e, w')) by reflexivity.
  revert w w' E. refine (_ : yields twin (same_diagram w_rng) _).
  apply (yields_bind twin twin); [exact He|apply csd_pure|]. intros ideal.
  apply (yields_bind twin twin); [exact He|apply loop_twin|]. intros ol.
  apply (yields_bind twin twin); [exact He|apply generic_potential_same|]. intros p.
  apply (yields_bind twin twin); [exact He|apply same_distort, objects_twin|]. intros p'.
  apply (yields_bind twin twin); [exact He|apply generic_response_same|]. intros r.
  apply (yields_bind twin twin); [exact He|apply same_image_loop, objects_twin|]. intros im w w' E.
  cbn. repeat split; auto.
Qed.

(** ** Measurements with SensorScanSensorGeneric *)
Notation sworld := (scan_world G).
Definition twins (w w' : sworld) : Prop := w_rng (fst w) = w_rng (fst w').
(** ... once the sensor has seen the voltages *)
Definition primed (w w' : sworld) : Prop := twins w w' /\ snd w = snd w'.
Lemma scan_loop_twins label x ds l1 l2 ol : same twins twins (occupation_loop (map (scan_occ_object src) ds) (get_csd_data label x) l1 l2 ol).
Proof.
  rewrite (lifted_loop src ds _ _ l1 l2 ol (csd_lifts label x)). intros [n st] [n' st'] E. unfold on_noise. cbn [fst snd].
  pose proof (loop_twin label x ds l1 l2 ol n n' E) as H.
  destruct (occupation_loop _ _ _ _ _ n) as [[a|e] n1], (occupation_loop _ _ _ _ _ n') as [[a'|e'] n1']; try contradiction; exact H.
Qed.
Lemma scan_potential_primed s occ v1 v2 o : same twins primed (so_potential (scan_sensor_object (G := G) s) occ v1 v2 o).
Proof.
  intros [n st] [n' st'] E. cbn [scan_sensor_object so_potential scan_object]. unfold on_sensor. cbn [fst snd].
  destruct (match o with Some x => x | None => (VNone, VNone) end) as [w1 w2].
  destruct (scan_potential s occ v1 v2 w1 w2) as [[p h]|e]; [|reflexivity]. split; [reflexivity|]. split; [exact E|reflexivity].
Qed.
Lemma scan_response_primed s p : same primed primed (so_response (scan_sensor_object (G := G) s) p).
Proof.
  intros [n st] [n' st'] [E Q]. cbn [snd] in Q. subst st'. cbn [scan_sensor_object so_response scan_object]. unfold on_sensor. cbn [fst snd].
  destruct st as [h|]; [|reflexivity]. destruct (bind _ _) as [[[im ps] h']|e]; [|reflexivity]. split; [reflexivity|]. split; [exact E|reflexivity].
Qed.
Lemma scan_labels_primed s v1 v2 w1 w2 p : same primed primed (so_labels (scan_sensor_object (G := G) s) v1 v2 w1 w2 p).
Proof.
  intros [n st] [n' st'] [E Q]. cbn [snd] in Q. subst st'. cbn [scan_sensor_object so_labels scan_object]. unfold on_sensor. cbn [fst snd].
  destruct st as [h|]; [|reflexivity]. destruct (bind _ _) as [[L h']|e]; [|reflexivity]. split; [reflexivity|]. split; [exact E|reflexivity].
Qed.
Lemma scan_objects_primed ds l1 l2 : forall d, In d (map (scan_image_object src) ds) -> forall x, same primed primed (d x l1 l2).
Proof.
  intros d Hd x. apply in_map_iff in Hd. destruct Hd as (d0 & <- & _). intros [n st] [n' st'] [E Q]. cbn [snd] in Q. subst st'.
  unfold scan_image_object, on_noise. cbn [fst snd]. unfold twins in E. cbn [fst] in E. rewrite <- E.
  destruct (image_noise_function src d0 x l1 l2 (w_rng n)) as [[im' g']|]; [|reflexivity]. split; [reflexivity|]. split; reflexivity.
Qed.
Lemma scan_measure_twins label lim1 lim2 lims1 lims2 x s occs pots resps s1 s2 v1 v2 res (w w' : sworld) : w_rng (fst w) = w_rng (fst w') ->
  let c := noisy_scan_config src label lim1 lim2 lims1 lims2 x s occs pots resps in
  same_diagram (fun w => w_rng (fst w)) (measure c s1 s2 v1 v2 res w) (measure c s1 s2 v1 v2 res w').
Proof.
  intros E c. unfold measure.
  assert (C : forall gen l1 l2, check_measure c s1 s2 v1 v2 res = Ok (gen, l1, l2) -> exists y, x = Some y /\ gen = get_csd_data label y).
  { intros gen l1 l2. unfold check_measure, c, noisy_scan_config. cbn [ideal_csd_config]. destruct x as [y|]; cbn [option_map]; [|discriminate].
    destruct s1 as [|u1 [|u2 [|u3 s1']]]; try discriminate. destruct s2 as [|u4 [|u5 [|u6 s2']]]; try discriminate.
    unfold raise_if. cbn [volt_limits_sensor_g1 volt_limits_sensor_g2]. destruct (range_outside _ _ || _); [discriminate|].
    destruct (sensor_volt_outside _ _) as [out1|]; [|discriminate]. cbn [bind].
    destruct (if out1 then _ else _) as [out|]; [|discriminate]. cbn [bind].
    repeat match goal with |- context [if ?b then _ else _] => destruct b end; try discriminate; intros Q; inversion Q; eauto. }
  destruct (check_measure c s1 s2 v1 v2 res) as [[[gen l1] l2]|e]; [|reflexivity]. destruct (C gen l1 l2 eq_refl) as (y & _ & ->). clear C.
  assert (He : forall e (w w' : sworld), same_diagram (L := lead_mask) (I := image) (K := labels) (fun w => w_rng (fst w)) (Err e, w) (Err e, w')) by reflexivity.
  revert w w' E. refine (_ : yields twins (same_diagram (fun w => w_rng (fst w))) _).
  apply (yields_bind twins twins); [exact He|apply csd_pure|]. intros ideal.
  apply (yields_bind twins twins); [exact He|apply scan_loop_twins|]. intros ol.
  apply (yields_bind twins primed); [exact He|apply scan_potential_primed|]. intros p.
  apply (yields_bind primed primed); [exact He|apply same_distort, scan_objects_primed|]. intros p'.
  apply (yields_bind primed primed); [exact He|apply scan_response_primed|]. intros r.
  apply (yields_bind primed primed); [exact He|apply same_image_loop, scan_objects_primed|]. intros im w w' [E _].
  cbn. repeat split; auto.
Qed.
Lemma sensor_scan_twins label lim1 lim2 lims1 lims2 x s occs pots resps s1 s2 v1 v2 res (w w' : sworld) : w_rng (fst w) = w_rng (fst w') ->
  let c := noisy_scan_config src label lim1 lim2 lims1 lims2 x s occs pots resps in
  same_sensor_scan (fun w => w_rng (fst w)) (measure_sensor_scan c s1 s2 v1 v2 res w) (measure_sensor_scan c s1 s2 v1 v2 res w').
Proof.
  intros E c. unfold measure_sensor_scan. destruct (check_sensor_scan c s1 s2 v1 v2 res) as [[l1 l2]|e]; [|reflexivity].
  assert (He : forall e (w w' : sworld), same_sensor_scan (L := lead_mask) (I := image) (K := labels) (fun w => w_rng (fst w)) (Err e, w) (Err e, w')) by reflexivity.
  revert w w' E. refine (_ : yields twins (same_sensor_scan (fun w => w_rng (fst w))) _).
  apply (yields_bind twins twins); [exact He| |].
  { unfold scan_occupations, c, noisy_scan_config. cbn [ideal_csd_config]. destruct x as [y|]; cbn [option_map]; [|apply same_pure].
    destruct v1 as [x1|]; [|apply same_pure]. destruct v2 as [x2|]; [|apply same_pure].
    apply same_bind with (Q := twins); [apply csd_pure|]. intros ol. destruct res; apply same_pure. }
  intros [occ res'].
  apply (yields_bind twins primed); [exact He|apply scan_potential_primed|]. intros p.
  apply (yields_bind primed primed); [exact He| |].
  { apply (same_weaken twins primed); [intros u u' [H _]; exact H|auto|apply scan_potential_primed]. }
  intros pu.
  apply (yields_bind primed primed); [exact He|apply scan_labels_primed|]. intros L.
  apply (yields_bind primed primed); [exact He|apply same_distort, scan_objects_primed|]. intros p'.
  apply (yields_bind primed primed); [exact He|apply scan_response_primed|]. intros r.
  apply (yields_bind primed primed); [exact He|apply same_image_loop, scan_objects_primed|]. intros im w w' [E _].
  cbn. repeat split; auto.
Qed.
End History.
