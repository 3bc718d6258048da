(** What the metadata record and what measuring again gives. *)
From Verif Require Import RPrelude Arr ModelSupport ModelTct ModelCsd ModelJumps ModelDistortions ModelSensor ModelSimulation ModelInstance
  ModelNoise ModelScanInstance ModelScanNoise SpecSensor SpecSimulation SpecNoise SpecHistory SpecRepeat ProofsSimulation ProofsHistory.
Local Open Scope R_scope.

Section General.
Context {W L I K : Type}.
Implicit Type c : config W L I K.
Lemma checked_ends c s1 s2 v1 v2 res gen l1 l2 : check_measure c s1 s2 v1 v2 res = Ok (gen, l1, l2) -> both_ends l1 = s1 /\ both_ends l2 = s2.
Proof.
  unfold check_measure, raise_if. destruct (ideal_csd_config c); [|discriminate]. destruct s1 as [|a1 [|b1 [|? ?]]]; try discriminate.
  destruct s2 as [|a2 [|b2 [|? ?]]]; try discriminate. destruct (_ || _); [discriminate|].
  destruct (sensor_volt_outside _ v1); [|discriminate]. cbn [bind]. destruct a; [discriminate|].
  repeat match goal with |- context [match ?m with Ok _ => _ | Err _ => _ end] => destruct m; cbn [bind]; try discriminate | |- context [bind ?m _] => destruct m; cbn [bind]; try discriminate | |- context [if ?b then _ else _] => destruct b; try discriminate end;
  intros E; injection E as _ <- <-; auto.
Qed.
Lemma measure_metadata c s1 s2 v1 v2 res w m w' : measure c s1 s2 v1 v2 res w = (Ok m, w') -> records (m_meta m) c s1 s2 v1 v2 res w'.
Proof.
  unfold measure. destruct (check_measure c s1 s2 v1 v2 res) as [[[gen l1] l2]|e] eqn:C; [|discriminate]. destruct (checked_ends _ _ _ _ _ _ _ _ _ C) as [<- <-].
  intros H. repeat (apply mbind_ok in H; destruct H as (? & ? & _ & H)). injection H as <- <-. repeat split.
Qed.
Lemma occupations_resolution c v1 v2 res w occ res' w1 : scan_occupations c v1 v2 res w = (Ok (occ, res'), w1) ->
  (res' = res /\ forall n, ~ converted c v1 v2 res n) \/ exists n, converted c v1 v2 res n /\ res' = ResInt n.
Proof.
  unfold scan_occupations, converted. destruct (ideal_csd_config c) as [gen|]; [destruct v1 as [x1|]; [destruct v2 as [x2|]|]|].
  1:{ unfold mbind. destruct (gen _ _ _ w) as [[ol|e] w2]; [|discriminate]. destruct res as [n|l]; [discriminate|]. intros E. injection E as E _.
      destruct (first_of (fst ol)) as [o|]; [|discriminate]. cbn [bind] in E. destruct l as [|n [|n' l]].
      - cbn [bind] in E. match type of E with bind ?m _ = _ => destruct m; [|discriminate] end. injection E as _ <-. left. split; [reflexivity|]. intros n (_ & _ & _ & E). discriminate.
      - match type of E with bind ?m _ = _ => destruct m; [|discriminate] end. injection E as _ <-. right. exists n. repeat split; discriminate.
      - match type of E with bind ?m _ = _ => destruct m; [|discriminate] end. injection E as _ <-. left. split; [reflexivity|]. intros k (_ & _ & _ & E). discriminate. }
  all: intros E; assert (res' = res) as -> by (destruct res; injection E as E _; match type of E with bind ?m _ = _ => destruct m; [|discriminate] end; injection E as _ <-; reflexivity);
    left; split; [reflexivity|]; intros n (? & ? & ? & _); auto.
Qed.
Lemma scan_ends c s1 s2 v1 v2 res l1 l2 : check_sensor_scan c s1 s2 v1 v2 res = Ok (l1, l2) -> both_ends l1 = s1 /\ both_ends l2 = s2.
Proof. intros H. apply check_scan_iff in H. destruct H as (_ & -> & ->). auto. Qed.
Lemma scan_metadata c s1 s2 v1 v2 res w m w' : measure_sensor_scan c s1 s2 v1 v2 res w = (Ok m, w') ->
  (records (sc_meta m) c s1 s2 v1 v2 res w' /\ forall n, ~ converted c v1 v2 res n) \/
  exists n, converted c v1 v2 res n /\ records (sc_meta m) c s1 s2 v1 v2 (ResInt n) w'.
Proof.
  unfold measure_sensor_scan. destruct (check_sensor_scan c s1 s2 v1 v2 res) as [[l1 l2]|e] eqn:C; [|discriminate]. destruct (scan_ends _ _ _ _ _ _ _ _ C) as [<- <-].
  intros H. apply mbind_ok in H. destruct H as ([occ res'] & w1 & E & H). repeat (apply mbind_ok in H; destruct H as (? & ? & _ & H)). injection H as <- <-.
  destruct (occupations_resolution _ _ _ _ _ _ _ _ E) as [[-> N]|(n & Cn & ->)]; [left|right; exists n]; repeat split; auto; apply Cn.
Qed.
(** An integer resolution passes the checks that an array with one entry passes. *)
Lemma one_entry c s1 s2 v1 v2 n l : check_sensor_scan c s1 s2 v1 v2 (ResArray [n]) = Ok l -> check_sensor_scan c s1 s2 v1 v2 (ResInt n) = Ok l.
Proof.
  destruct l as [l1 l2]. intros H. apply check_scan_iff in H. destruct H as (V & -> & ->). apply check_scan_iff. split; [|auto]. destruct V. constructor; auto; discriminate.
Qed.
(** ** Actions that draw nothing *)
Context {G : Type}.
Variable rng : W -> G.
Definition keeps {A} (m : action W A) : Prop := forall w, rng (snd (m w)) = rng w.
Lemma keeps_bind {A B} (m : action W A) (k : A -> action W B) : keeps m -> (forall a, keeps (k a)) -> keeps (mbind m k).
Proof. intros H J w. unfold mbind. specialize (H w). destruct (m w) as [[a|e] w1]; cbn [snd] in H; [rewrite J; exact H|exact H]. Qed.
Lemma keeps_pure {A} (r : W -> result A) : keeps (fun w => (r w, w)).
Proof. intros w. reflexivity. Qed.
Lemma keeps_distort l1 l2 occ p : keeps (@distort_potential W I (Some []) l1 l2 occ p).
Proof. intros w. unfold distort_potential. destruct occ, p; reflexivity. Qed.
End General.

Section Noisy.
Context {G : Type}.
Variable src : sources G.
Variable label : arr2 nat -> arr2 nat.

Lemma clean_keeps lim1 lim2 x s s1 s2 v1 v2 res (w : noise_world G) :
  w_rng (snd (measure (noisy_config src label lim1 lim2 x s [] [] []) s1 s2 v1 v2 res w)) = w_rng w.
Proof.
  unfold measure. destruct (check_measure _ _ _ _ _ _) as [[[gen l1] l2]|e] eqn:C; [|reflexivity].
  assert (E : gen = get_csd_data label x). { revert C. unfold check_measure, raise_if. cbn [noisy_config ideal_csd_config]. 
    repeat match goal with |- context [match ?l with [] => _ | _ => _ end] => destruct l; try discriminate | |- context [bind ?m _] => destruct m; cbn [bind]; try discriminate | |- context [if ?b then _ else _] => destruct b; try discriminate end; intros E; injection E as <- _ _; reflexivity. }
  subst gen. clear C. revert w. refine (_ : keeps w_rng _).
  apply keeps_bind; [intros w; reflexivity|]. intros ideal. apply keeps_bind; [intros w; reflexivity|]. intros ol.
  apply keeps_bind; [intros w; reflexivity|]. intros p. apply keeps_bind; [apply keeps_distort|]. intros p'. apply keeps_bind; [|intros r; apply keeps_bind; [intros w; reflexivity|intros im; apply keeps_pure]].
  intros w. destruct p'; reflexivity.
Qed.
Lemma on_sensor_keeps {A} (m : action (option hidden) A) : keeps (fun w : scan_world G => w_rng (fst w)) (on_sensor m).
Proof. intros w. unfold on_sensor. destruct (m (snd w)); reflexivity. Qed.
Lemma potential_keeps s occ v1 v2 o : keeps (fun w => w_rng (fst w)) (so_potential (scan_sensor_object (G := G) s) occ v1 v2 o).
Proof. apply on_sensor_keeps. Qed.
Lemma response_keeps s p : keeps (fun w => w_rng (fst w)) (so_response (scan_sensor_object (G := G) s) p).
Proof. apply on_sensor_keeps. Qed.
Lemma labels_keeps s v1 v2 w1 w2 p : keeps (fun w => w_rng (fst w)) (so_labels (scan_sensor_object (G := G) s) v1 v2 w1 w2 p).
Proof. apply on_sensor_keeps. Qed.
Lemma clean_scan_sensor_keeps lim1 lim2 lims1 lims2 x s s1 s2 v1 v2 res (w : scan_world G) :
  w_rng (fst (snd (measure (noisy_scan_config src label lim1 lim2 lims1 lims2 x s [] [] []) s1 s2 v1 v2 res w))) = w_rng (fst w).
Proof.
  unfold measure. destruct (check_measure _ _ _ _ _ _) as [[[gen l1] l2]|e] eqn:C; [|reflexivity].
  assert (E : exists y, gen = get_csd_data label y). { revert C. unfold check_measure, raise_if. cbn [noisy_scan_config ideal_csd_config]. destruct x as [y|]; [|discriminate]. cbn [option_map].
    repeat match goal with |- context [match ?l with [] => _ | _ => _ end] => destruct l; try discriminate | |- context [bind ?m _] => destruct m; cbn [bind]; try discriminate | |- context [if ?b then _ else _] => destruct b; try discriminate end; intros E; injection E as <- _ _; exists y; reflexivity. }
  destruct E as [y ->]. clear C. revert w. refine (_ : keeps (fun w => w_rng (fst w)) _).
  apply keeps_bind; [intros w; reflexivity|]. intros ideal. apply keeps_bind; [intros w; reflexivity|]. intros ol.
  apply keeps_bind; [apply potential_keeps|]. intros p. apply keeps_bind; [apply keeps_distort|]. intros p'. apply keeps_bind; [apply response_keeps|intros r; apply keeps_bind; [intros w; reflexivity|intros im; apply keeps_pure]].
Qed.
Lemma clean_scan_keeps lim1 lim2 lims1 lims2 x s occs s1 s2 v1 v2 res (w : scan_world G) :
  w_rng (fst (snd (measure_sensor_scan (noisy_scan_config src label lim1 lim2 lims1 lims2 x s occs [] []) s1 s2 v1 v2 res w))) = w_rng (fst w).
Proof.
  unfold measure_sensor_scan. destruct (check_sensor_scan _ _ _ _ _ _) as [[l1 l2]|e]; [|reflexivity].
  revert w. refine (_ : keeps (fun w => w_rng (fst w)) _).
  apply keeps_bind.
  { unfold scan_occupations. cbn [noisy_scan_config ideal_csd_config]. destruct x as [y|]; cbn [option_map]; [|apply keeps_pure]. destruct v1; [|apply keeps_pure]. destruct v2; [|apply keeps_pure].
    apply keeps_bind; [intros w; reflexivity|]. intros ol. destruct res; apply keeps_pure. }
  intros [occ res']. apply keeps_bind; [apply potential_keeps|]. intros p. apply keeps_bind; [apply potential_keeps|]. intros pu. apply keeps_bind; [apply labels_keeps|]. intros lab.
  apply keeps_bind; [apply keeps_distort|]. intros p'. apply keeps_bind; [apply response_keeps|]. intros r. apply keeps_bind; [intros w; reflexivity|]. intros im. apply keeps_pure.
Qed.

(** ** Measuring again *)
Lemma again lim1 lim2 x s occs pots resps s1 s2 v1 v2 res (w w' : noise_world G) m :
  let c := noisy_config src label lim1 lim2 x s occs pots resps in
  measure c s1 s2 v1 v2 res w = (Ok m, w') -> w_rng w' = w_rng w ->
  same_diagram w_rng (Ok m, w') (measure_again (m_meta m) (md_world (m_meta m))).
Proof.
  intros c M E. destruct (measure_metadata _ _ _ _ _ _ _ _ _ M) as (Ec & E1 & E2 & E3 & E4 & E5 & E6). unfold measure_again. rewrite Ec, E1, E2, E3, E4, E5, E6, <- M.
  apply measure_twin. symmetry. exact E.
Qed.
Lemma again_scan_sensor lim1 lim2 lims1 lims2 x s occs pots resps s1 s2 v1 v2 res (w w' : scan_world G) m :
  let c := noisy_scan_config src label lim1 lim2 lims1 lims2 x s occs pots resps in
  measure c s1 s2 v1 v2 res w = (Ok m, w') -> w_rng (fst w') = w_rng (fst w) ->
  same_diagram (fun w => w_rng (fst w)) (Ok m, w') (measure_again (m_meta m) (md_world (m_meta m))).
Proof.
  intros c M E. destruct (measure_metadata _ _ _ _ _ _ _ _ _ M) as (Ec & E1 & E2 & E3 & E4 & E5 & E6). unfold measure_again. rewrite Ec, E1, E2, E3, E4, E5, E6, <- M.
  apply scan_measure_twins. symmetry. exact E.
Qed.
Lemma again_scan lim1 lim2 lims1 lims2 x s occs pots resps s1 s2 v1 v2 res (w w' : scan_world G) m :
  let c := noisy_scan_config src label lim1 lim2 lims1 lims2 x s occs pots resps in
  measure_sensor_scan c s1 s2 v1 v2 res w = (Ok m, w') -> w_rng (fst w') = w_rng (fst w) -> (forall n, ~ converted c v1 v2 res n) ->
  same_sensor_scan (fun w => w_rng (fst w)) (Ok m, w') (scan_again (sc_meta m) (md_world (sc_meta m))).
Proof.
  intros c M E N. destruct (scan_metadata _ _ _ _ _ _ _ _ _ M) as [[(Ec & E1 & E2 & E3 & E4 & E5 & E6) _]|(n & Cn & _)]; [|destruct (N n Cn)].
  unfold scan_again. rewrite Ec, E1, E2, E3, E4, E5, E6, <- M. apply sensor_scan_twins. symmetry. exact E.
Qed.
Lemma again_raises lim1 lim2 lims1 lims2 x s occs pots resps s1 s2 v1 v2 res n (w w' : scan_world G) m :
  let c := noisy_scan_config src label lim1 lim2 lims1 lims2 x s occs pots resps in
  converted c v1 v2 res n -> measure_sensor_scan c s1 s2 v1 v2 res w = (Ok m, w') -> forall u, scan_again (sc_meta m) u = (Err TypeError, u).
Proof.
  intros c Cn M u. destruct (scan_metadata _ _ _ _ _ _ _ _ _ M) as [[_ N]|(k & Ck & (Ec & E1 & E2 & E3 & E4 & E5 & E6))]; [destruct (N n Cn)|].
  unfold scan_again. rewrite Ec, E1, E2, E3, E4, E5. assert (k = n) as -> by (destruct Cn as (_ & _ & _ & ->), Ck as (_ & _ & _ & H); congruence).
  destruct Cn as (Hx & H1 & H2 & ->). revert M. unfold measure_sensor_scan.
  destruct (check_sensor_scan c s1 s2 v1 v2 (ResArray [n])) as [l|e] eqn:C; [|discriminate]. rewrite (one_entry _ _ _ _ _ _ _ C). destruct l as [l1 l2].
  intros M. apply mbind_ok in M. destruct M as (oc & w1 & M & _). unfold mbind at 1. revert M. unfold scan_occupations.
  destruct x as [y|]; [|contradiction Hx; reflexivity]. destruct v1 as [x1|]; [|contradiction]. destruct v2 as [x2|]; [|contradiction]. subst c. cbn [noisy_scan_config ideal_csd_config option_map].
  unfold mbind, get_csd_data. cbn [fst snd]. match goal with |- context [let? d := ?m in _] => destruct m as [d|] end; cbn [bind]; [|discriminate]. reflexivity.
Qed.
End Noisy.
