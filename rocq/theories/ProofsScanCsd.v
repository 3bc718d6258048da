(** Proofs about charge stability diagrams measured with a SensorScanSensorGeneric object. *)
From Verif Require Import RPrelude Arr ModelSupport ModelTct ModelCsd ModelDistortions ModelSensor ModelSimulation ModelInstance
  ModelScanInstance SpecTct SpecCsd SpecSensor SpecSimulation SpecInstance SpecScanInstance ProofsCsd ProofsOcc ProofsRegions ProofsMask ProofsDriver ProofsFine ProofsScan ProofsSensor ProofsScanSensor
  ProofsLabelScan ProofsSensorMore ProofsSimulation ProofsInstance ProofsScanInstance.
Local Open Scope R_scope.

Section Csd.
Variable label : arr2 nat -> arr2 nat.

Lemma in_order_nil {W A D} (step : nat -> D -> A -> W -> A -> W -> Prop) x w y w' : in_order step [] x w y w' <-> y = x /\ w' = w.
Proof.
  split.
  - intros (st & S0 & S1 & _). cbn [length] in S1. rewrite S0 in S1. injection S1 as <- <-. auto.
  - intros [-> ->]. exists (fun _ => (x, w)). split; [reflexivity|]. split; [reflexivity|]. intros [|k] d E; discriminate.
Qed.

Lemma csd_inv lim1 lim2 lims1 lims2 g s s1 s2 v1 v2 res st m st' :
  measure (scan_config label lim1 lim2 lims1 lims2 (Some g) s) s1 s2 v1 v2 res st = (Ok m, st') ->
  exists l1 l2 d p h ps h2, s1 = [fst l1; snd l1] /\ s2 = [fst l2; snd l2] /\
    ideal_of label g (fst l1) (snd l1) (fst l2) (snd l2) res = Ok d /\ (m_occ m, m_lead m) = csd_arrays d /\
    scan_potential s (m_occ m) (sweep_arg l1) (sweep_arg l2) (volt_arg v1) (volt_arg v2) = Ok (p, h) /\
    scan_response s h p = Ok (m_csd m, ps, h2) /\ st' = Some h2.
Proof.
  intros H. apply measure_ok in H. destruct H as (V & M & gen & l1 & l2 & Eg & E1 & E2 & Me).
  cbn [scan_config ideal_csd_config option_map] in Eg. injection Eg as <-.
  destruct Me as (ideal & w1 & w2 & p & w3 & p' & w4 & r & w5 & Hg & Ho & Hp & Hd & Hr & Hi & _).
  cbn [scan_config sensor scan_object so_scan so_potential so_response occupation_distortions sensor_potential_distortions sensor_response_distortions the_list] in *.
  change (given_to_sensor v1) with (volt_arg v1) in *. change (given_to_sensor v2) with (volt_arg v2) in *.
  change (SpecSimulation.swept l1) with (sweep_arg l1) in *. change (SpecSimulation.swept l2) with (sweep_arg l2) in *.
  apply in_order_nil in Ho, Hi. destruct Ho as [Ho ->], Hi as [<- ->].
  unfold get_csd_data in Hg. change (ideal_csd_geometric label (g_tcts g) [fst l1; snd l1] [fst l2; snd l2] res (g_rotation g) (g_lut g) (g_cdf g) (g_gamma g))
    with (ideal_of label g (fst l1) (snd l1) (fst l2) (snd l2) res) in Hg.
  destruct (ideal_of label g (fst l1) (snd l1) (fst l2) (snd l2) res) as [d|e] eqn:Ed; [|discriminate]. cbn [bind] in Hg. injection Hg as <- <-.
  destruct (scan_potential s (m_occ m) (sweep_arg l1) (sweep_arg l2) (volt_arg v1) (volt_arg v2)) as [[q h]|e] eqn:Ep; [|discriminate].
  injection Hp as <- <-.
  assert (p' = PotMany (split_potentials q) /\ w4 = Some h) as [-> ->].
  { unfold potential_distorted in Hd. destruct (m_occ m); [| |exact Hd]; destruct Hd as (ys & -> & In); apply in_order_nil in In; destruct In as [-> ->]; auto. }
  unfold joined in Hr. rewrite join_split in Hr. cbn [bind] in Hr.
  destruct (scan_response s h q) as [[[im ps] h2]|e] eqn:Er; [|discriminate]. injection Hr as <- <-.
  exists l1, l2, d, q, h, ps, h2. repeat (split; [assumption|]). reflexivity.
Qed.

Lemma csd_cell s occ v1 v2 l1 l2 p h : scan_potential s occ (sweep_arg l1) (sweep_arg l2) (volt_arg v1) (volt_arg v2) = Ok (p, h) ->
  match p, occ with
  | Pot1 a, Occ1 b => len1 a = len1 b /\ forall i, (i < len1 b)%nat ->
      pot_spec s (cell1 b i) (volt_at l1 (len1 b) i, volt_at l2 (len1 b) i) (plunger v1, plunger v2) (cell1 a i)
  | Pot2 a, Occ2 b => rows a = rows b /\ cols a = cols b /\ forall i j, (i < rows b)%nat -> (j < cols b)%nat ->
      pot_spec s (cell b i j) (volt_at l1 (cols b) j, volt_at l2 (rows b) i) (plunger v1, plunger v2) (cell a i j)
  | _, _ => False
  end.
Proof.
  intros H. destruct (scan_potential_pot _ _ _ _ _ _ _ _ H) as (_ & Hn & _ & B).
  assert (El1 : limits_of (sweep_arg l1) = l1) by (destruct l1; reflexivity).
  assert (El2 : limits_of (sweep_arg l2) = l2) by (destruct l2; reflexivity).
  destruct occ as [b|b|]; [| |discriminate].
  - assert (P : (0 < len1 b)%nat).
    { destruct (len1 b) eqn:E; [|lia]. unfold scan_potential, raise_if in H. rewrite E in H. destruct (_ && _); discriminate. }
    destruct (scan_pixel_1d s b (sweep_arg l1) (sweep_arg l2) (volt_arg v1) (volt_arg v2) P B) as (p' & h' & E & Hl & Q).
    rewrite H in E. injection E as -> ->. split; [exact Hl|]. intros i Hi. specialize (Q i Hi).
    rewrite El1, El2, !limits_plunger, !(volt_at_same (plunger _)) in Q by exact Hi. exact Q.
  - assert (P : (0 < rows b)%nat /\ (0 < cols b)%nat).
    { unfold scan_potential, raise_if in H. destruct (_ && _) in H; [discriminate|].
      destruct ((rows b =? 0)%nat || (cols b =? 0)%nat) eqn:E; [discriminate|]. apply orb_false_iff in E. rewrite !Nat.eqb_neq in E. lia. }
    destruct P as [P1 P2].
    destruct (scan_pixel_2d s b (sweep_arg l1) (sweep_arg l2) (volt_arg v1) (volt_arg v2) P1 P2 B) as (p' & h' & E & Hr & Hc & Q).
    rewrite H in E. injection E as -> ->. split; [exact Hr|]. split; [exact Hc|]. intros i j Hi Hj. specialize (Q i j Hi Hj).
    rewrite El1, El2, !limits_plunger, !(volt_at_same (plunger _)) in Q by assumption. exact Q.
Qed.

Lemma csd_shows s occ v1 v2 l1 l2 p h im dot : scan_potential s occ (sweep_arg l1) (sweep_arg l2) (volt_arg v1) (volt_arg v2) = Ok (p, h) ->
  combined s (fun i j => dot (at_sensor (pcell p i j))) p im ->
  same_shape_occ im occ /\
  forall v o y, csd_value im occ l1 l2 v o y -> exists q, pot_spec s o v (plunger v1, plunger v2) q /\
    series_of y (dot (at_sensor q)) (get_value (ss_barrier1 s) (at_barrier1 q)) (get_value (ss_barrier2 s) (at_barrier2 q)).
Proof.
  intros H [Sh C]. pose proof (csd_cell s occ v1 v2 l1 l2 p h H) as Q.
  destruct im as [c|c], p as [a|a], occ as [b|b|]; try (destruct Sh; fail); try (destruct Q; fail); cbn [same_shape_pot] in Sh.
  - destruct Q as [Hl Q]. split; [cbn [same_shape_occ]; congruence|]. intros v o y (i & Hi & -> & -> & ->).
    exists (cell1 a i). split; [apply Q, Hi|]. apply (C 0%nat i (cell1 c i) (cell1 a i)).
    + cbn. split; [reflexivity|]. split; [lia|reflexivity].
    + apply pot_pix_spec. cbn. split; [lia|]. split; [lia|reflexivity].
  - destruct Q as (Hr & Hc & Q). destruct Sh as [Sh1 Sh2]. split; [cbn [same_shape_occ]; split; congruence|]. intros v o y (i & j & Hi & Hj & -> & -> & ->).
    exists (cell a i j). split; [apply Q; assumption|]. apply (C i j (cell c i j) (cell a i j)).
    + cbn. split; [lia|]. split; [lia|reflexivity].
    + apply pot_pix_spec. cbn. split; [lia|]. split; [lia|reflexivity].
Qed.

Lemma csd_pixels lim1 lim2 lims1 lims2 g s a1 b1 a2 b2 v1 v2 res st m st' :
  ss_deform s = [] \/ a1 <> b1 \/ a2 <> b2 -> ss_rise s = None ->
  measure (scan_config label lim1 lim2 lims1 lims2 (Some g) s) [a1; b1] [a2; b2] v1 v2 res st = (Ok m, st') ->
  (exists d, ideal_csd_geometric label (g_tcts g) [a1; b1] [a2; b2] res (g_rotation g) (g_lut g) (g_cdf g) (g_gamma g) = Ok d /\
     (m_occ m, m_lead m) = csd_arrays d) /\
  same_shape_occ (m_csd m) (m_occ m) /\
  forall v o y, csd_value (m_csd m) (m_occ m) (a1, b1) (a2, b2) v o y ->
    exists q, pot_spec s o v (plunger v1, plunger v2) q /\
      series_of y (base_dot s (at_sensor q)) (get_value (ss_barrier1 s) (at_barrier1 q)) (get_value (ss_barrier2 s) (at_barrier2 q)).
Proof.
  intros Hd Hr H. destruct (csd_inv _ _ _ _ _ _ _ _ _ _ _ _ _ _ H) as (l1 & l2 & d & p & h & ps & h2 & E1 & E2 & Ed & Ea & Ep & Er & _).
  injection E1 as -> ->. injection E2 as -> ->.
  split; [exists d; split; [exact Ed|exact Ea]|]. rewrite <- !surjective_pairing.
  destruct (scan_potential_pot _ _ _ _ _ _ _ _ Ep) as (Eh & Hn & _).
  destruct (scan_response_plain s h p) as (im & E & C); auto.
  { destruct Hd as [Hd|Hd]; [left; exact Hd|]. right. rewrite Eh. cbn [h_g1 h_g2 sweep_arg limits_of]. unfold fixed. cbn [fst snd]. tauto. }
  rewrite E in Er. injection Er as Er _ _. subst im.
  exact (csd_shows s (m_occ m) v1 v2 l1 l2 p h (m_csd m) (base_dot s) Ep C).
Qed.

(** with a final rise: shifted to a potential that depends on the first pixel *)
Lemma csd_rise lim1 lim2 lims1 lims2 g s rise a1 b1 a2 b2 v1 v2 res st m st' :
  ss_deform s = [] \/ a1 <> b1 \/ a2 <> b2 -> ss_rise s = Some rise ->
  measure (scan_config label lim1 lim2 lims1 lims2 (Some g) s) [a1; b1] [a2; b2] v1 v2 res st = (Ok m, st') ->
  same_shape_occ (m_csd m) (m_occ m) /\ exists o1 pt q1,
  first_occ (m_occ m) = Ok o1 /\ pot_spec s o1 (a1, a2) pt q1 /\
  (points_exist s o1 -> a1 = b1 \/ a2 = b2 -> full_point s o1 (a1, a2) pt) /\
  forall v o y, csd_value (m_csd m) (m_occ m) (a1, b1) (a2, b2) v o y ->
    exists q, pot_spec s o v (plunger v1, plunger v2) q /\
      series_of y (Rmax (base_dot s (at_sensor q)) (rise (at_sensor q) (at_sensor q1)))
        (get_value (ss_barrier1 s) (at_barrier1 q)) (get_value (ss_barrier2 s) (at_barrier2 q)).
Proof.
  intros Hd Hr H. destruct (csd_inv _ _ _ _ _ _ _ _ _ _ _ _ _ _ H) as (l1 & l2 & d & p & h & ps & h2 & E1 & E2 & Ed & Ea & Ep & Er & _).
  injection E1 as -> ->. injection E2 as -> ->. rewrite <- !surjective_pairing.
  destruct (scan_potential_pot _ _ _ _ _ _ _ _ Ep) as (Eh & Hn & (o1 & Ho) & _).
  assert (G1 : h_g1 h = l1) by (rewrite Eh; destruct l1; reflexivity). assert (G2 : h_g2 h = l2) by (rewrite Eh; destruct l2; reflexivity).
  assert (Ho' : first_occ (h_occ h) = Ok o1) by (rewrite Eh; exact Ho).
  assert (U : undeformed s h).
  { destruct Hd as [Hd|Hd]; [left; exact Hd|]. right. rewrite G1, G2. unfold fixed. tauto. }
  destruct (response_rise_shown s h p rise o1 U Hr Hn Ho') as (pt & q1 & im & h' & Hpt & Hq & E & C).
  rewrite E in Er. injection Er as Er _ _. subst im. rewrite G1, G2 in Hq.
  destruct (csd_shows s (m_occ m) v1 v2 l1 l2 p h (m_csd m) (fun mu => Rmax (base_dot s mu) (rise mu (at_sensor q1))) Ep C) as [Sh Q].
  split; [exact Sh|]. exists o1, pt, q1. split; [exact Ho|]. split; [exact Hq|]. split; [|exact Q].
  intros Pe Ee. assert (Sw : sensor_is_swept h = true).
  { unfold sensor_is_swept. rewrite G1, G2. apply orb_true_iff. rewrite !equal_ends_true. exact Ee. }
  rewrite Sw in Hpt. apply (solved s h); auto. rewrite G1, G2. reflexivity.
Qed.

(** the value of a pixel is determined by its voltages and its occupation *)
Lemma csd_pure lim1 lim2 lims1 lims2 lim1' lim2' lims1' lims2' g g' s a1 b1 a2 b2 a1' b1' a2' b2' v1 v2 res res' st st1 m st' st1' m' v o y y' :
  ss_deform s = [] \/ (a1 <> b1 \/ a2 <> b2) /\ (a1' <> b1' \/ a2' <> b2') -> ss_rise s = None ->
  measure (scan_config label lim1 lim2 lims1 lims2 (Some g) s) [a1; b1] [a2; b2] v1 v2 res st = (Ok m, st') ->
  measure (scan_config label lim1' lim2' lims1' lims2' (Some g') s) [a1'; b1'] [a2'; b2'] v1 v2 res' st1 = (Ok m', st1') ->
  csd_value (m_csd m) (m_occ m) (a1, b1) (a2, b2) v o y -> csd_value (m_csd m') (m_occ m') (a1', b1') (a2', b2') v o y' -> y = y'.
Proof.
  intros Hd Hr H H' P P'.
  assert (D1 : ss_deform s = [] \/ a1 <> b1 \/ a2 <> b2) by tauto. assert (D2 : ss_deform s = [] \/ a1' <> b1' \/ a2' <> b2') by tauto.
  destruct (csd_pixels _ _ _ _ _ _ _ _ _ _ _ _ _ _ _ _ D1 Hr H) as (_ & _ & Q).
  destruct (csd_pixels _ _ _ _ _ _ _ _ _ _ _ _ _ _ _ _ D2 Hr H') as (_ & _ & Q').
  destruct (Q _ _ _ P) as (q & A & B). destruct (Q' _ _ _ P') as (q' & A' & B').
  assert (q = q') by (destruct q, q'; destruct A as (X1 & X2 & X3), A' as (Y1 & Y2 & Y3); cbn in *; congruence). subst q'.
  eapply series_of_unique; eauto.
Qed.
End Csd.

Section Outcome.
Variable label : arr2 nat -> arr2 nat.

Definition occ_nonempty (occ : occupation) : Prop :=
  match occ with Occ1 a => (0 < len1 a)%nat | Occ2 a => (0 < rows a)%nat /\ (0 < cols a)%nat | OccOther => False end.

Lemma potential_accepts s occ l1 l2 v1 v2 : occ_nonempty occ ->
  exists p h, scan_potential s occ (sweep_arg l1) (sweep_arg l2) (volt_arg v1) (volt_arg v2) = Ok (p, h).
Proof.
  intros Hs. assert (B : ~ both_swept (sweep_arg l1) (sweep_arg l2) (volt_arg v1) (volt_arg v2)).
  { intros [_ [H|H]]; revert H; apply volt_arg_fixed. }
  destruct occ as [a|a|]; cbn in Hs; [| |contradiction].
  - destruct (scan_pixel_1d s a (sweep_arg l1) (sweep_arg l2) (volt_arg v1) (volt_arg v2) Hs B) as (p & h & E & _). eauto.
  - destruct (scan_pixel_2d s a (sweep_arg l1) (sweep_arg l2) (volt_arg v1) (volt_arg v2) (proj1 Hs) (proj2 Hs) B) as (p & h & E & _). eauto.
Qed.

Lemma csd_outcome lim1 lim2 lims1 lims2 g s a1 b1 a2 b2 v1 v2 res st d :
  let c := scan_config label lim1 lim2 lims1 lims2 (Some g) s in
  valid_request c [a1; b1] [a2; b2] v1 v2 res -> ~ sensor_voltage_missing c v1 v2 ->
  Forall (fun n => (1 <= n)%Z) (res_list res) -> config_ok label g ->
  ideal_csd_geometric label (g_tcts g) [a1; b1] [a2; b2] res (g_rotation g) (g_lut g) (g_cdf g) (g_gamma g) = Ok d ->
  ss_deform s = [] \/ a1 <> b1 \/ a2 <> b2 ->
  exists m st', measure c [a1; b1] [a2; b2] v1 v2 res st = (Ok m, st') /\ (m_occ m, m_lead m) = csd_arrays d.
Proof.
  intros c V M Hpos C Ed Hd.
  assert (Sh : occ_nonempty (fst (csd_arrays d))).
  { pose proof (ideal_shape _ _ _ _ _ _ _ _ C Ed) as Sh. destruct d as [occ lead|occ lead]; cbn [csd_arrays fst occ_nonempty] in *.
    - destruct Sh as (n & Er & Lo & _). rewrite Er in Hpos. inversion Hpos; subst. cbn [of_list1 len1]. lia.
    - destruct Sh as (nx & ny & -> & Hx & Hy & Er & Ec & _). lia. }
  destruct (potential_accepts s (fst (csd_arrays d)) (a1, b1) (a2, b2) v1 v2 Sh) as (p & h & Ep).
  destruct (scan_potential_pot _ _ _ _ _ _ _ _ Ep) as (Eh & Hn & (o1 & Ho) & _).
  assert (U : undeformed s h).
  { destruct Hd as [Hd|Hd]; [left; exact Hd|]. right. rewrite Eh. cbn [h_g1 h_g2 sweep_arg limits_of]. unfold fixed. cbn [fst snd]. tauto. }
  assert (Er : exists im h2, scan_response s h p = Ok (im, ss_peaks s, h2)).
  { destruct (ss_rise s) as [rise|] eqn:Eri.
    - assert (Ho' : first_occ (h_occ h) = Ok o1) by (rewrite Eh; exact Ho).
      destruct (response_rise_shown s h p rise o1 U Eri Hn Ho') as (? & ? & im & h' & _ & _ & E & _). eauto.
    - destruct (scan_response_plain s h p U Eri Hn) as (im & E & _). eauto. }
  destruct Er as (im & h2 & Er).
  exists (mk_measurement im (fst (csd_arrays d)) (snd (csd_arrays d)) (mk_metadata (a1, b1) (a2, b2) v1 v2 res c (Some h2))), (Some h2).
  split; [|cbn [m_occ m_lead]; symmetry; apply surjective_pairing].
  apply measure_ok. split; [exact V|]. split; [exact M|].
  eexists _, (a1, b1), (a2, b2). split; [reflexivity|]. split; [reflexivity|]. split; [reflexivity|].
  exists (csd_arrays d), st, st, (PotMany (split_potentials p)), (Some h), (PotMany (split_potentials p)), (Some h), im, (Some h2).
  cbn [c scan_config sensor scan_object so_scan so_potential so_response occupation_distortions sensor_potential_distortions sensor_response_distortions the_list
       m_occ m_lead m_csd m_meta fst snd].
  change (given_to_sensor v1) with (volt_arg v1). change (given_to_sensor v2) with (volt_arg v2).
  change (SpecSimulation.swept (a1, b1)) with (sweep_arg (a1, b1)). change (SpecSimulation.swept (a2, b2)) with (sweep_arg (a2, b2)).
  split. { unfold get_csd_data. cbn [fst snd]. rewrite Ed. reflexivity. }
  split. { apply in_order_nil. split; [symmetry; apply surjective_pairing|reflexivity]. }
  split. { rewrite Ep. reflexivity. }
  split. { unfold potential_distorted. destruct (fst (csd_arrays d)); [| |contradiction]; eexists; (split; [reflexivity|apply in_order_nil; auto]). }
  split. { unfold joined. rewrite join_split. cbn [bind]. rewrite Er. reflexivity. }
  split; [apply in_order_nil; auto|reflexivity].
Qed.

(** two scans along lines agree where they meet *)
Lemma line_scans_agree params lut kind gf rot a1 b1 a2 b2 res occ lead c1 e1 c2 e2 res' occ' lead' n n' i j o o' :
  proper_tcts params lut -> kind <> UnknownCdf -> res_list res = [Z.of_nat n] -> res_list res' = [Z.of_nat n'] ->
  ideal_csd_geometric label params [a1; b1] [a2; b2] res rot lut kind gf = Ok (Csd1 occ lead) ->
  ideal_csd_geometric label params [c1; e1] [c2; e2] res' rot lut kind gf = Ok (Csd1 occ' lead') ->
  nth_error occ i = Some o -> nth_error occ' j = Some o' ->
  pixel_voltage (a1, b1) n i = pixel_voltage (c1, e1) n' j -> pixel_voltage (a2, b2) n i = pixel_voltage (c2, e2) n' j -> o = o'.
Proof.
  intros P K Hr Hr' H H' Eo Eo' V1 V2. destruct (gamma_known kind gf K) as [g G].
  destruct (csd_1d label params a1 b1 a2 b2 res n rot lut kind gf g P K G Hr) as (? & ? & E & _ & _ & _ & _ & Q). rewrite H in E. injection E as <- <-.
  destruct (csd_1d label params c1 e1 c2 e2 res' n' rot lut kind gf g P K G Hr') as (? & ? & E & _ & _ & _ & _ & Q'). rewrite H' in E. injection E as <- <-.
  destruct (Q _ _ Eo) as (m & A & Po). destruct (Q' _ _ Eo') as (m' & A' & Po'). cbv zeta in A, A', Po, Po'. rewrite <- V1, <- V2 in A', Po'.
  assert (m = m').
  { destruct A as [A|[A ->]], A' as [A'|[A' ->]]; auto; [eapply electrons_unique; eauto| |]; exfalso; eapply electrons_not_above_all; eauto. }
  subst m'. eapply pixel_occ_fun; eauto.
Qed.
End Outcome.
