(** Lemmas about measure and measure_sensor_scan. *)
From Verif Require Import RPrelude Arr ModelCsd ModelSensor ModelSimulation SpecSimulation.
Local Open Scope R_scope.

Section Proofs.
Context {W L I K : Type}.
Notation config := (config W L I K).
Notation occ_distortion := (occ_distortion W L).
Notation generator := (generator W L).

Lemma mbind_ok {A B} (m : action W A) (k : A -> action W B) w b w' :
  mbind m k w = (Ok b, w') <-> exists a w1, m w = (Ok a, w1) /\ k a w1 = (Ok b, w').
Proof.
  unfold mbind. destruct (m w) as [[a|e] w1]; split.
  - intros H. exists a, w1. auto.
  - intros (a0 & w0 & E & H). injection E as -> ->. exact H.
  - discriminate.
  - intros (a0 & w0 & E & H). discriminate.
Qed.

Lemma in_order_nil {A D} (step : nat -> D -> A -> W -> A -> W -> Prop) x w y w' :
  in_order step [] x w y w' <-> x = y /\ w = w'.
Proof.
  split.
  - intros (st & E0 & E1 & _). simpl in E1. rewrite E0 in E1. injection E1 as -> ->. auto.
  - intros [-> ->]. exists (fun _ => (y, w')). repeat split; auto. intros [|k] d H; discriminate.
Qed.
Lemma in_order_cons {A D} (step : nat -> D -> A -> W -> A -> W -> Prop) d t x w y w' :
  in_order step (d :: t) x w y w' <->
  exists x1 w1, step 0%nat d x w x1 w1 /\ in_order (fun k => step (S k)) t x1 w1 y w'.
Proof.
  split.
  - intros (st & E0 & E1 & H). exists (fst (st 1%nat)), (snd (st 1%nat)). split.
    + specialize (H 0%nat d eq_refl). rewrite E0 in H. exact H.
    + exists (fun k => st (S k)). split; [apply surjective_pairing|]. split; [exact E1|].
      intros k e Hk. exact (H (S k) e Hk).
  - intros (x1 & w1 & H & st & E0 & E1 & H1).
    exists (fun k => match k with O => (x, w) | S k => st k end). repeat split; auto.
    intros [|k] e Hk.
    + simpl in Hk. injection Hk as <-. cbn. rewrite E0. exact H.
    + apply H1. exact Hk.
Qed.
Lemma in_order_ext {A D} (s1 s2 : nat -> D -> A -> W -> A -> W -> Prop) ds x w y w' :
  (forall k d a w b w1, (k < length ds)%nat -> s1 k d a w b w1 <-> s2 k d a w b w1) ->
  in_order s1 ds x w y w' <-> in_order s2 ds x w y w'.
Proof.
  intros H. split; intros (st & E0 & E1 & Hs); exists st; repeat split; auto; intros k d Hk;
    apply H; auto; apply nth_error_Some; congruence.
Qed.

(** ** Image distortions *)
Lemma image_loop_ok (ds : list (img_distortion W I)) l1 l2 x w y w' :
  image_loop ds l1 l2 x w = (Ok y, w') <-> in_order (image_step l1 l2) ds x w y w'.
Proof.
  revert x w. induction ds as [|d t IH]; intros x w.
  - rewrite in_order_nil. cbn. unfold ret. split; [intros H; injection H as -> ->|intros [-> ->]]; auto.
  - rewrite in_order_cons. cbn [image_loop]. rewrite mbind_ok.
    split; intros (a & w1 & H1 & H2); exists a, w1; split; auto; apply IH; exact H2.
Qed.
Lemma each_image_ok (d : img_distortion W I) l1 l2 xs w ys w' k :
  each_image d l1 l2 xs w = (Ok ys, w') <-> images_step l1 l2 k d xs w ys w'.
Proof.
  revert w ys. induction xs as [|x t IH]; intros w ys.
  - cbn. unfold ret, images_step. split.
    + intros H. injection H as <- <-. split; [reflexivity|]. exists (fun _ => w). repeat split; auto.
      intros [|i]; discriminate.
    + intros (E & ws & E0 & E1 & _). simpl in E, E1. destruct ys; [|discriminate]. congruence.
  - cbn [each_image]. rewrite mbind_ok. split.
    + intros (y & w1 & H1 & H2). rewrite mbind_ok in H2. destruct H2 as (ys' & w2 & H2 & H3).
      unfold ret in H3. injection H3 as <- <-. apply IH in H2. destruct H2 as (E & ws & E0 & E1 & H2).
      split; [simpl; congruence|]. exists (fun i => match i with O => w | S i => ws i end). repeat split; auto.
      intros [|i] x' y' Hx Hy.
      * simpl in Hx, Hy. injection Hx as <-. injection Hy as <-. rewrite E0. exact H1.
      * apply H2; assumption.
    + intros (E & ws & E0 & E1 & H). destruct ys as [|y ys]; [discriminate|]. simpl in E.
      exists y, (ws 1%nat). split.
      * specialize (H 0%nat x y eq_refl eq_refl). rewrite E0 in H. exact H.
      * rewrite mbind_ok. exists ys, w'. split; [|reflexivity]. apply IH. split; [congruence|].
        exists (fun i => ws (S i)). split; [reflexivity|]. split; [exact E1|]. intros i x' y' Hx Hy. exact (H (S i) x' y' Hx Hy).
Qed.
Lemma images_loop_ok (ds : list (img_distortion W I)) l1 l2 xs w ys w' :
  images_loop ds l1 l2 xs w = (Ok ys, w') <-> in_order (images_step l1 l2) ds xs w ys w'.
Proof.
  revert xs w. induction ds as [|d t IH]; intros xs w.
  - rewrite in_order_nil. cbn. unfold ret. split; [intros H; injection H as -> ->|intros [-> ->]]; auto.
  - rewrite in_order_cons. cbn [images_loop]. rewrite mbind_ok.
    split; intros (a & w1 & H1 & H2); exists a, w1; split.
    + apply each_image_ok; exact H1.
    + apply IH; exact H2.
    + apply each_image_ok in H1; exact H1.
    + apply IH; exact H2.
Qed.
Lemma distort_potential_ok (ds : option (list (img_distortion W I))) l1 l2 occ p w p' w' :
  distort_potential ds l1 l2 occ p w = (Ok p', w') <-> potential_distorted (the_list ds) l1 l2 occ p w p' w'.
Proof.
  assert (R1 : forall x, (do y <- image_loop (opt_list ds) l1 l2 x; ret (PotOne y)) w = (Ok p', w') <->
            exists y, p' = PotOne y /\ in_order (image_step l1 l2) (the_list ds) x w y w').
  { intros x. rewrite mbind_ok. split.
    - intros (y & w1 & H & E). injection E as <- <-. exists y. split; auto. apply image_loop_ok. exact H.
    - intros (y & -> & H). exists y, w'. split; [|reflexivity]. apply image_loop_ok. exact H. }
  assert (R2 : forall x, (do y <- images_loop (opt_list ds) l1 l2 x; ret (PotMany y)) w = (Ok p', w') <->
            exists y, p' = PotMany y /\ in_order (images_step l1 l2) (the_list ds) x w y w').
  { intros x. rewrite mbind_ok. split.
    - intros (y & w1 & H & E). injection E as <- <-. exists y. split; auto. apply images_loop_ok. exact H.
    - intros (y & -> & H). exists y, w'. split; [|reflexivity]. apply images_loop_ok. exact H. }
  assert (R3 : ret p w = (Ok p', w') <-> p' = p /\ w' = w).
  { unfold ret. split; [intros E; injection E as -> ->|intros [-> ->]]; auto. }
  destruct occ, p; cbn [distort_potential potential_distorted]; auto.
Qed.

(** ** Occupation distortions *)
Lemma generator_with_snoc gen (ds : list occ_distortion) d :
  generator_with gen (ds ++ [d]) = with_noise (generator_with gen ds) d.
Proof. unfold generator_with. rewrite rev_app_distr. reflexivity. Qed.

Lemma occupation_loop_from gen pre (ds : list occ_distortion) l1 l2 ol w ol' w' :
  occupation_loop ds (generator_with gen pre) l1 l2 ol w = (Ok ol', w') <->
  in_order (fun k => acts_in_place gen (pre ++ ds) l1 l2 false (length pre + k)) ds ol w ol' w'.
Proof.
  revert pre ol w. induction ds as [|d t IH]; intros pre ol w.
  - rewrite in_order_nil. cbn. unfold ret. split; [intros H; injection H as -> ->|intros [-> ->]]; auto.
  - rewrite in_order_cons. cbn [occupation_loop]. rewrite mbind_ok. rewrite <- generator_with_snoc.
    assert (F : firstn (length pre + 0) (pre ++ d :: t) = pre)
      by (rewrite Nat.add_0_r, firstn_app, Nat.sub_diag, firstn_all; cbn; apply app_nil_r).
    assert (T : forall a w1, in_order (fun k => acts_in_place gen (pre ++ d :: t) l1 l2 false (length pre + S k)) t a w1 ol' w' <->
       occupation_loop t (generator_with gen (pre ++ [d])) l1 l2 a w1 = (Ok ol', w')).
    { intros a w1. rewrite IH. apply in_order_ext. intros k d' a' w2 b w3 _.
      rewrite app_length, <- app_assoc. cbn [length app]. replace (length pre + 1 + k)%nat with (length pre + S k)%nat by lia.
      reflexivity. }
    split.
    + intros ([a r] & w1 & H1 & H2). exists a, w1. split.
      * exists r. rewrite F. exact H1.
      * apply T. exact H2.
    + intros (a & w1 & [r H1] & H2). rewrite F in H1. exists (a, r), w1. split; auto. apply T. exact H2.
Qed.
Lemma occupation_loop_ok gen (ds : list occ_distortion) l1 l2 ol w ol' w' :
  occupation_loop ds gen l1 l2 ol w = (Ok ol', w') <->
  in_order (acts_in_place gen ds l1 l2 false) ds ol w ol' w'.
Proof. exact (occupation_loop_from gen [] ds l1 l2 ol w ol' w'). Qed.

Lemma in_order_snoc {A D} (step : nat -> D -> A -> W -> A -> W -> Prop) d t x w y w' :
  in_order step (t ++ [d]) x w y w' <->
  exists x1 w1, in_order step t x w x1 w1 /\ step (length t) d x1 w1 y w'.
Proof.
  revert step x w. induction t as [|a t IH]; intros step x w.
  - cbn [app length]. rewrite in_order_cons. split.
    + intros (x1 & w1 & H & E). apply in_order_nil in E. destruct E as [-> ->]. exists x, w. split; auto. apply in_order_nil; auto.
    + intros (x1 & w1 & E & H). apply in_order_nil in E. destruct E as [-> ->]. exists y, w'. split; auto. apply in_order_nil; auto.
  - cbn [app length]. rewrite in_order_cons. split.
    + intros (x1 & w1 & H & E). apply IH in E. destruct E as (x2 & w2 & E & F). exists x2, w2. split; auto.
      apply in_order_cons. exists x1, w1. auto.
    + intros (x2 & w2 & E & F). apply in_order_cons in E. destruct E as (x1 & w1 & H & E). exists x1, w1. split; auto.
      apply IH. exists x2, w2. auto.
Qed.

Lemma generator_with_ok gen (ds : list occ_distortion) l1 l2 res w ol w' :
  generator_with gen ds l1 l2 res w = (Ok ol, w') <->
  exists ideal w1, gen l1 l2 res w = (Ok ideal, w1) /\
    in_order (acts_in_place gen ds l1 l2 true) ds ideal w1 ol w'.
Proof.
  revert ol w'. induction ds as [|d t IH] using rev_ind; intros ol w'.
  - cbn. split.
    + intros H. exists ol, w'. split; auto. apply in_order_nil; auto.
    + intros (i & w1 & H & E). apply in_order_nil in E. destruct E as [-> ->]. exact H.
  - rewrite generator_with_snoc. unfold with_noise. rewrite mbind_ok.
    assert (T : forall ideal w1 a w2, in_order (acts_in_place gen (t ++ [d]) l1 l2 true) t ideal w1 a w2 <->
                                  in_order (acts_in_place gen t l1 l2 true) t ideal w1 a w2).
    { intros. apply in_order_ext. intros k d' a' w3 b w4 Hk. unfold acts_in_place. rewrite firstn_app.
      replace (k - length t)%nat with 0%nat by lia. cbn. rewrite app_nil_r. reflexivity. }
    assert (F : firstn (length t) (t ++ [d]) = t) by (rewrite firstn_app, Nat.sub_diag, firstn_all; cbn; apply app_nil_r).
    split.
    + intros (a & w1 & H1 & H2). apply IH in H1. destruct H1 as (ideal & w2 & H1 & H3).
      exists ideal, w2. split; auto. apply in_order_snoc. exists a, w1. split; [apply T; exact H3|].
      rewrite mbind_ok in H2. destruct H2 as ([b r] & w3 & H4 & H5). injection H5 as <- <-.
      exists r. rewrite F. exact H4.
    + intros (ideal & w2 & H1 & H3). apply in_order_snoc in H3. destruct H3 as (a & w1 & H3 & r & H4).
      rewrite F in H4. exists a, w1. split; [apply IH; exists ideal, w2; split; auto; apply T; exact H3|].
      rewrite mbind_ok. exists (ol, r), w'. split; auto.
Qed.

(** ** Checks *)
Lemma Rltb_false_iff a b : Rltb a b = false <-> b <= a.
Proof. unfold Rltb. destruct (Rlt_dec a b); split; intros; try lra; try discriminate; auto. Qed.
Lemma Reqb_false_iff a b : Reqb a b = false <-> a <> b.
Proof. unfold Reqb. destruct (Req_EM_T a b); split; intros; try discriminate; auto. contradiction. Qed.

Lemma range_inside lims a b : range_outside lims (a, b) = false <-> Forall (within_limits lims) [a; b].
Proof.
  unfold range_outside, within_limits. destruct lims as [[lo hi]|].
  - cbn [fst snd]. rewrite !orb_false_iff, !Rltb_false_iff. split.
    + intros [[[H1 H2] H3] H4]. unfold Rmin, Rmax in *. destruct (Rle_dec a b); (constructor; [lra|constructor; [lra|constructor]]).
    + intros H. inversion H as [|? ? Ha H']; subst. inversion H' as [|? ? Hb _]; subst.
      unfold Rmin, Rmax. destruct (Rle_dec a b); repeat split; lra.
  - split; auto.
Qed.
Lemma plunger_inside lims v : plunger_volt_outside lims v = false <-> forall x, v = Some x -> within_limits lims x.
Proof.
  unfold plunger_volt_outside, within_limits. destruct lims as [[lo hi]|], v as [x|]; split; intros H; auto;
    try (intros; discriminate).
  - intros y E. injection E as <-. apply orb_false_iff in H. rewrite !Rltb_false_iff in H. lra.
  - specialize (H x eq_refl). apply orb_false_iff. rewrite !Rltb_false_iff. lra.
Qed.
Lemma fixed_range_nodup a b : fixed_range (a, b) = false <-> NoDup [a; b].
Proof.
  unfold fixed_range. cbn. rewrite Reqb_false_iff. split.
  - intros H. constructor; [|constructor; [easy|constructor]]. intros [E|[]]; congruence.
  - intros H E. inversion H as [|? ? N _]; subst. apply N. left. reflexivity.
Qed.
Lemma both_none {A} (v1 v2 : option A) : xorb (is_none v1) (is_none v2) = false <-> (v1 = None <-> v2 = None).
Proof.
  destruct v1, v2; cbn; split; intros H; try discriminate; try reflexivity.
  - split; discriminate.
  - destruct H as [_ H]. discriminate (H eq_refl).
  - destruct H as [H _]. discriminate (H eq_refl).
Qed.
Lemma axes_ok res : too_long res = false <-> forall l, res = ResArray l -> (length l <= 2)%nat.
Proof.
  destruct res as [n|l]; cbn [too_long]; split; auto; try discriminate.
  - intros H l' E. injection E as <-. apply Nat.ltb_ge in H. exact H.
  - intros H. apply Nat.ltb_ge, H. reflexivity.
Qed.
Lemma two_d_ok res a1 b1 a2 b2 :
  (is_2d res && (fixed_range (a1, b1) || fixed_range (a2, b2)) = false /\ is_2d res && too_small res = false) <->
  forall m n, res = ResArray [m; n] -> NoDup [a1; b1] /\ NoDup [a2; b2] /\ (1 < m)%Z /\ (1 < n)%Z.
Proof.
  destruct res as [z|l]; [cbn; split; auto; intros; split; auto; discriminate|].
  cbn [is_2d too_small]. destruct (Nat.eqb_spec (length l) 2) as [E|E].
  - destruct l as [|m [|n [|]]]; try discriminate. cbn [existsb andb]. rewrite !orb_false_iff, !fixed_range_nodup, !Z.leb_gt.
    split.
    + intros [[H1 H2] [H3 [H4 _]]] m' n' E'. injection E' as <- <-. auto.
    + intros H. destruct (H m n eq_refl) as (H1 & H2 & H3 & H4). auto.
  - cbn. split; auto. intros _ m n E'. injection E' as ->. contradiction E. reflexivity.
Qed.

Lemma raise_if_ok {A} b e (k : result A) a : raise_if b e k = Ok a <-> b = false /\ k = Ok a.
Proof. destruct b; cbn; split; auto; [discriminate|intros [? ?]; discriminate|tauto]. Qed.

Lemma check_measure_iff (c : config) s1 s2 v1 v2 res gen l1 l2 :
  check_measure c s1 s2 v1 v2 res = Ok (gen, l1, l2) <->
  valid_request c s1 s2 v1 v2 res /\ ~ sensor_voltage_missing c v1 v2 /\
  ideal_csd_config c = Some gen /\ s1 = [fst l1; snd l1] /\ s2 = [fst l2; snd l2].
Proof.
  unfold check_measure. destruct (ideal_csd_config c) as [g|] eqn:Eg.
  2:{ split; [discriminate|]. intros (V & _). destruct V as [V _ _ _ _ _ _ _ _ _]. congruence. }
  assert (P : forall s : list R, (exists a b, s = [a; b]) \/ length s <> 2%nat).
  { intros [|a [|b [|? ?]]]; [right|right|left; eauto|right]; discriminate. }
  destruct (P s1) as [(a1 & b1 & ->)|N1].
  2:{ split.
      - destruct s1 as [|x [|y [|? ?]]]; try discriminate. contradiction N1; reflexivity.
      - intros (V & _). destruct V as [_ V _ _ _ _ _ _ _ _]. contradiction. }
  destruct (P s2) as [(a2 & b2 & ->)|N2].
  2:{ split.
      - destruct s2 as [|x [|y [|? ?]]]; try discriminate. contradiction N2; reflexivity.
      - intros (V & _). destruct V as [_ _ V _ _ _ _ _ _ _]. contradiction. }
  destruct l1 as [x1 y1], l2 as [x2 y2]. cbn [fst snd].
  rewrite raise_if_ok, orb_false_iff, !range_inside.
  assert (S1 : forall lims v, sensor_volt_outside lims v = Ok false <->
                          (forall x, v = Some x -> within_limits lims x) /\ ~ (lims <> None /\ v = None)).
  { intros lims v. unfold sensor_volt_outside, within_limits. destruct lims as [[lo hi]|], v as [x|]; split.
    - intros H. injection H as H. apply orb_false_iff in H. rewrite !Rltb_false_iff in H. split.
      + intros y E. injection E as <-. lra.
      + intros [_ E]. discriminate.
    - intros [H _]. specialize (H x eq_refl). f_equal. apply orb_false_iff. rewrite !Rltb_false_iff. lra.
    - discriminate.
    - intros [_ H]. contradiction H. split; [discriminate|reflexivity].
    - intros _. split; auto. intros [H _]. contradiction.
    - auto.
    - intros _. split; auto. intros [H _]. contradiction.
    - auto. }
  assert (S : forall k, (let? out1 := sensor_volt_outside (volt_limits_sensor_g1 c) v1 in
     let? out := (if out1 then Ok true else sensor_volt_outside (volt_limits_sensor_g2 c) v2) in
     raise_if out ValueError k) = Ok (gen, (x1, y1), (x2, y2)) <->
     ((forall x, v1 = Some x -> within_limits (volt_limits_sensor_g1 c) x) /\
     (forall x, v2 = Some x -> within_limits (volt_limits_sensor_g2 c) x) /\ ~ sensor_voltage_missing c v1 v2) /\ k = Ok (gen, (x1, y1), (x2, y2))).
  { intros k. unfold sensor_voltage_missing.
    transitivity ((sensor_volt_outside (volt_limits_sensor_g1 c) v1 = Ok false /\ sensor_volt_outside (volt_limits_sensor_g2 c) v2 = Ok false) /\ k = Ok (gen, (x1, y1), (x2, y2))).
    - destruct (sensor_volt_outside (volt_limits_sensor_g1 c) v1) as [[]|]; cbn.
      + split; [discriminate|]. intros [[H _] _]. discriminate.
      + destruct (sensor_volt_outside (volt_limits_sensor_g2 c) v2) as [[]|]; cbn.
        * split; [discriminate|]. intros [[_ H] _]. discriminate.
        * tauto.
        * split; [discriminate|]. intros [[_ H] _]. discriminate.
      + split; [discriminate|]. intros [[H _] _]. discriminate.
    - rewrite !S1. tauto. }
  rewrite S. rewrite !raise_if_ok, both_none, axes_ok.
  split.
  - intros ((R1 & R2) & (V1 & V2 & M) & B & A & T1 & T2 & E). injection E as <- <- <- <- <-.
    pose proof (proj1 (two_d_ok res a1 b1 a2 b2) (conj T1 T2)) as T.
    split; [constructor; auto; congruence|]. auto.
  - intros (V & M & E & E1 & E2). injection E as <-. injection E1 as <- <-. injection E2 as <- <-.
    destruct V as [_ _ _ R1 R2 V1 V2 B A T]. apply two_d_ok in T. tauto.
Qed.
Lemma missing_dec (c : config) v1 v2 : {sensor_voltage_missing c v1 v2} + {~ sensor_voltage_missing c v1 v2}.
Proof.
  unfold sensor_voltage_missing.
  destruct (volt_limits_sensor_g1 c), v1, (volt_limits_sensor_g2 c), v2;
    solve [left; left; split; congruence | left; right; split; congruence | right; intros [[? ?]|[? ?]]; congruence].
Qed.
Lemma check_measure_err (c : config) s1 s2 v1 v2 res e :
  check_measure c s1 s2 v1 v2 res = Err e ->
  (e = ValueError /\ ~ valid_request c s1 s2 v1 v2 res) \/ (e = TypeError /\ sensor_voltage_missing c v1 v2).
Proof.
  intros H.
  assert (V : e = ValueError \/ (e = TypeError /\ sensor_voltage_missing c v1 v2)).
  { unfold check_measure in H. destruct (ideal_csd_config c); [|left; congruence].
    destruct s1 as [|a1 [|b1 [|? ?]]]; try (left; congruence).
    destruct s2 as [|a2 [|b2 [|? ?]]]; try (left; congruence).
    unfold raise_if in H.
    destruct (_ || _); [left; congruence|].
    unfold sensor_voltage_missing, sensor_volt_outside in *.
    destruct (volt_limits_sensor_g1 c) as [[lo1 hi1]|], v1 as [x1|]; cbn [bind] in H;
    try (right; split; [congruence|left; split; [discriminate|reflexivity]]);
    try (destruct (Rltb x1 lo1 || Rltb hi1 x1); cbn [bind] in H; [left; congruence|]);
    destruct (volt_limits_sensor_g2 c) as [[lo2 hi2]|], v2 as [x2|]; cbn [bind] in H;
    try (right; split; [congruence|right; split; [discriminate|reflexivity]]);
    try (destruct (Rltb x2 lo2 || Rltb hi2 x2); cbn [bind] in H; [left; congruence|]);
    left; cbn [xorb is_none] in H;
    repeat match type of H with (if ?b then _ else _) = _ => destruct b end; congruence. }
  destruct V as [->|V]; [|right; exact V].
  left. split; [reflexivity|]. intros Hv.
  destruct (missing_dec c v1 v2) as [M|M].
  - (* then the error would have been TypeError *)
    destruct Hv as [Vc P1 P2 R1 R2 V1 V2 B A T].
    destruct s1 as [|a1 [|b1 [|? ?]]]; try discriminate. destruct s2 as [|a2 [|b2 [|? ?]]]; try discriminate.
    unfold check_measure in H. destruct (ideal_csd_config c); [|congruence].
    apply range_inside in R1. apply range_inside in R2. rewrite R1, R2 in H. cbn [orb raise_if] in H.
    unfold sensor_voltage_missing, sensor_volt_outside in *.
    destruct v1 as [x1|], v2 as [x2|].
    + destruct M as [[_ M]|[_ M]]; discriminate.
    + destruct B as [_ B]. discriminate (B eq_refl).
    + destruct B as [B _]. discriminate (B eq_refl).
    + destruct (volt_limits_sensor_g1 c) as [[lo1 hi1]|]; [discriminate|]. cbn [bind] in H.
      destruct (volt_limits_sensor_g2 c) as [[lo2 hi2]|]; [discriminate|].
      destruct M as [[M _]|[M _]]; congruence.
  - destruct (ideal_csd_config c) as [gen|] eqn:Eg.
    + destruct s1 as [|a1 [|b1 [|? ?]]] eqn:E1; try (destruct Hv as [_ P _ _ _ _ _ _ _ _]; discriminate).
      destruct s2 as [|a2 [|b2 [|? ?]]] eqn:E2; try (destruct Hv as [_ _ P _ _ _ _ _ _ _]; discriminate).
      assert (X : check_measure c [a1; b1] [a2; b2] v1 v2 res = Ok (gen, (a1, b1), (a2, b2))).
      { apply check_measure_iff. auto. }
      congruence.
    + destruct Hv as [Vc _ _ _ _ _ _ _ _ _]. congruence.
Qed.

(** ** measure *)
Lemma measure_ok (c : config) s1 s2 v1 v2 res w m w' :
  measure c s1 s2 v1 v2 res w = (Ok m, w') <->
  valid_request c s1 s2 v1 v2 res /\ ~ sensor_voltage_missing c v1 v2 /\
  exists gen l1 l2, ideal_csd_config c = Some gen /\ s1 = [fst l1; snd l1] /\ s2 = [fst l2; snd l2] /\
    measured c gen l1 l2 v1 v2 res w m w'.
Proof.
  unfold measure. destruct (check_measure c s1 s2 v1 v2 res) as [[[gen l1] l2]|e] eqn:Ec.
  - apply check_measure_iff in Ec. destruct Ec as (V & M & Eg & E1 & E2).
    transitivity (measured c gen l1 l2 v1 v2 res w m w').
    2:{ split.
        - intros H. split; auto. split; auto. exists gen, l1, l2. auto.
        - intros (_ & _ & gen' & l1' & l2' & Eg' & E1' & E2' & H).
          assert (gen' = gen) by congruence. subst gen'.
          assert (l1' = l1) by (destruct l1, l1'; cbn in *; congruence). subst l1'.
          assert (l2' = l2) by (destruct l2, l2'; cbn in *; congruence). subst l2'. exact H. }
    unfold measured. split.
    + intros H. apply mbind_ok in H. destruct H as (ideal & w1 & H1 & H).
      apply mbind_ok in H. destruct H as (ol & w2 & H2 & H). apply occupation_loop_ok in H2.
      apply mbind_ok in H. destruct H as (p & w3 & H3 & H).
      apply mbind_ok in H. destruct H as (p' & w4 & H4 & H). apply distort_potential_ok in H4.
      apply mbind_ok in H. destruct H as (r & w5 & H5 & H).
      apply mbind_ok in H. destruct H as (csd & w6 & H6 & H). apply image_loop_ok in H6.
      injection H as <- <-. destruct ol as [occ lead]. cbn [m_occ m_lead m_csd m_meta fst snd] in *.
      exists ideal, w1, w2, p, w3, p', w4, r, w5. repeat split; auto.
    + intros (ideal & w1 & w2 & p & w3 & p' & w4 & r & w5 & H1 & H2 & H3 & H4 & H5 & H6 & H7).
      destruct m as [csd occ lead meta]. cbn [m_occ m_lead m_csd m_meta] in *. subst meta.
      apply mbind_ok. exists ideal, w1. split; auto.
      apply mbind_ok. exists (occ, lead), w2. split; [apply occupation_loop_ok; exact H2|].
      apply mbind_ok. exists p, w3. split; auto.
      apply mbind_ok. exists p', w4. split; [apply distort_potential_ok; exact H4|].
      apply mbind_ok. exists r, w5. split; auto.
      apply mbind_ok. exists csd, w'. split; [apply image_loop_ok; exact H6|]. reflexivity.
  - split; [discriminate|]. intros (V & M & gen & l1 & l2 & Eg & E1 & E2 & _).
    assert (X : check_measure c s1 s2 v1 v2 res = Ok (gen, l1, l2)) by (apply check_measure_iff; auto).
    congruence.
Qed.

Lemma measure_invalid (c : config) s1 s2 v1 v2 res w :
  ~ valid_request c s1 s2 v1 v2 res ->
  exists e, measure c s1 s2 v1 v2 res w = (Err e, w) /\
    (e = ValueError \/ (e = TypeError /\ sensor_voltage_missing c v1 v2)).
Proof.
  intros N. unfold measure. destruct (check_measure c s1 s2 v1 v2 res) as [[[gen l1] l2]|e] eqn:Ec.
  - apply check_measure_iff in Ec. tauto.
  - exists e. split; auto. apply check_measure_err in Ec. tauto.
Qed.
Lemma measure_missing (c : config) s1 s2 v1 v2 res w :
  valid_request c s1 s2 v1 v2 res -> sensor_voltage_missing c v1 v2 ->
  measure c s1 s2 v1 v2 res w = (Err TypeError, w).
Proof.
  intros V M. unfold measure. destruct (check_measure c s1 s2 v1 v2 res) as [[[gen l1] l2]|e] eqn:Ec.
  - apply check_measure_iff in Ec. tauto.
  - apply check_measure_err in Ec. destruct Ec as [[_ N]|[-> _]]; [contradiction|reflexivity].
Qed.

(** Totality *)
Lemma total_ret {A} (a : A) : total (W := W) (ret a).
Proof. intros w. exists a, w. reflexivity. Qed.
Lemma total_bind {A B} (m : action W A) (k : A -> action W B) : total m -> (forall a, total (k a)) -> total (mbind m k).
Proof.
  intros Hm Hk w. destruct (Hm w) as (a & w1 & E). destruct (Hk a w1) as (b & w2 & E2). exists b, w2.
  unfold mbind. rewrite E. exact E2.
Qed.
Lemma total_image_loop (ds : list (img_distortion W I)) l1 l2 x :
  (forall d, In d ds -> forall x l1 l2, total (d x l1 l2)) -> total (image_loop ds l1 l2 x).
Proof.
  revert x. induction ds as [|d t IH]; intros x H; [apply total_ret|].
  cbn. apply total_bind; [apply H; left; reflexivity|]. intros y. apply IH. intros d' Hd'. apply H. right; auto.
Qed.
Lemma total_images_loop (ds : list (img_distortion W I)) l1 l2 xs :
  (forall d, In d ds -> forall x l1 l2, total (d x l1 l2)) -> total (images_loop ds l1 l2 xs).
Proof.
  revert xs. induction ds as [|d t IH]; intros xs H; [apply total_ret|].
  cbn. apply total_bind.
  - assert (Hd : forall x, total (d x l1 l2)) by (intros x; apply H; left; reflexivity).
    clear IH H. induction xs as [|x xs IHx]; [apply total_ret|]. cbn.
    apply total_bind; auto. intros y. apply total_bind; auto. intros ys. apply total_ret.
  - intros ys. apply IH. intros d' Hd'. apply H. right; auto.
Qed.
Lemma total_distort_potential (c : config) l1 l2 occ p : objects_total c ->
  total (distort_potential (sensor_potential_distortions c) l1 l2 occ p).
Proof.
  intros O. pose proof (ot_pot c O) as H.
  destruct occ, p; cbn [distort_potential]; try apply total_ret;
   (apply total_bind; [apply total_image_loop || apply total_images_loop; exact H|intros ?; apply total_ret]).
Qed.
Lemma total_occupation_loop (ds : list occ_distortion) gen l1 l2 ol :
  (forall d, In d ds -> forall o l l1 l2 g b, total (od_noise d o l l1 l2 g b)) -> total (occupation_loop ds gen l1 l2 ol).
Proof.
  revert gen ol. induction ds as [|d t IH]; intros gen ol H; [apply total_ret|].
  cbn. apply total_bind; [apply H; left; reflexivity|]. intros y. apply IH. intros d' Hd'. apply H. right; auto.
Qed.

Lemma measure_total (c : config) s1 s2 v1 v2 res w :
  valid_request c s1 s2 v1 v2 res -> ~ sensor_voltage_missing c v1 v2 -> objects_total c ->
  exists m w', measure c s1 s2 v1 v2 res w = (Ok m, w').
Proof.
  intros V M O. unfold measure. destruct (check_measure c s1 s2 v1 v2 res) as [[[gen l1] l2]|e] eqn:Ec.
  2:{ apply check_measure_err in Ec. destruct Ec as [[_ N]|[_ N]]; contradiction. }
  apply check_measure_iff in Ec. destruct Ec as (_ & _ & Eg & _ & _).
  match goal with |- exists m w', ?a w = _ => cut (total a); [intros T; exact (T w)|] end.
  apply total_bind; [apply (ot_gen c O); exact Eg|]. intros ideal.
  apply total_bind; [apply total_occupation_loop, (ot_occ c O)|]. intros ol.
  apply total_bind; [apply (ot_potential c O)|]. intros p.
  apply total_bind; [apply total_distort_potential; exact O|]. intros p'.
  apply total_bind; [apply (ot_response c O)|]. intros r.
  apply total_bind; [apply total_image_loop, (ot_res c O)|]. intros csd w'. eauto.
Qed.

(** ** measure_sensor_scan *)
Lemma check_scan_iff (c : config) s1 s2 v1 v2 res l1 l2 :
  check_sensor_scan c s1 s2 v1 v2 res = Ok (l1, l2) <->
  valid_scan c s1 s2 v1 v2 res /\ s1 = [fst l1; snd l1] /\ s2 = [fst l2; snd l2].
Proof.
  unfold check_sensor_scan. rewrite raise_if_ok, negb_false_iff.
  assert (P : forall s : list R, (exists a b, s = [a; b]) \/ length s <> 2%nat).
  { intros [|a [|b [|? ?]]]; [right|right|left; eauto|right]; discriminate. }
  destruct (P s1) as [(a1 & b1 & ->)|N1].
  2:{ split.
      - intros [_ H]. destruct s1 as [|x [|y [|? ?]]]; try discriminate. contradiction N1; reflexivity.
      - intros (V & _). destruct V as [_ V _ _ _ _ _ _ _ _]. contradiction. }
  destruct (P s2) as [(a2 & b2 & ->)|N2].
  2:{ split.
      - intros [_ H]. destruct s2 as [|x [|y [|? ?]]]; try discriminate. contradiction N2; reflexivity.
      - intros (V & _). destruct V as [_ _ V _ _ _ _ _ _ _]. contradiction. }
  destruct l1 as [x1 y1], l2 as [x2 y2]. cbn [fst snd].
  rewrite !raise_if_ok, !orb_false_iff, !range_inside, both_none, axes_ok, !plunger_inside.
  split.
  - intros (S & (R1 & R2) & T1 & (V1 & V2) & B & A & T2 & E). injection E as <- <- <- <-.
    pose proof (proj1 (two_d_ok res a1 b1 a2 b2) (conj T1 T2)) as T.
    split; [constructor; auto|]. auto.
  - intros (V & E1 & E2). injection E1 as <- <-. injection E2 as <- <-.
    destruct V as [S _ _ R1 R2 V1 V2 B A T]. apply two_d_ok in T. tauto.
Qed.
Lemma check_scan_err (c : config) s1 s2 v1 v2 res e :
  check_sensor_scan c s1 s2 v1 v2 res = Err e -> e = ValueError /\ ~ valid_scan c s1 s2 v1 v2 res.
Proof.
  intros H. split.
  - unfold check_sensor_scan, raise_if in H. destruct (negb _); [congruence|].
    destruct s1 as [|a1 [|b1 [|? ?]]]; try congruence. destruct s2 as [|a2 [|b2 [|? ?]]]; try congruence.
    repeat match type of H with (if ?b then _ else _) = _ => destruct b end; congruence.
  - intros V. assert (P1 := vs_pair1 _ _ _ _ _ _ V). assert (P2 := vs_pair2 _ _ _ _ _ _ V).
    destruct s1 as [|a1 [|b1 [|? ?]]]; try discriminate. destruct s2 as [|a2 [|b2 [|? ?]]]; try discriminate.
    assert (X : check_sensor_scan c [a1; b1] [a2; b2] v1 v2 res = Ok ((a1, b1), (a2, b2))) by (apply check_scan_iff; auto).
    congruence.
Qed.
Lemma scan_invalid (c : config) s1 s2 v1 v2 res w :
  ~ valid_scan c s1 s2 v1 v2 res -> measure_sensor_scan c s1 s2 v1 v2 res w = (Err ValueError, w).
Proof.
  intros N. unfold measure_sensor_scan. destruct (check_sensor_scan c s1 s2 v1 v2 res) as [[l1 l2]|e] eqn:Ec.
  - apply check_scan_iff in Ec. tauto.
  - apply check_scan_err in Ec. destruct Ec as [-> _]. reflexivity.
Qed.

Lemma full1_ok n o occ : full1 n o = Ok occ <->
  (0 <= n)%Z /\ occ = Occ1 (mk_arr1 (Z.to_nat n) (fun _ => o)).
Proof.
  unfold full1. rewrite raise_if_ok, Z.ltb_ge. split; intros [H E]; split; auto; congruence.
Qed.
Lemma full_entries_ok l o occ : full_entries l o = Ok occ <->
  exists n m t, l = n :: m :: t /\ (0 <= n)%Z /\ (0 <= m)%Z /\
    occ = Occ2 (mk_arr2 (Z.to_nat m) (Z.to_nat n) (fun _ _ => o)).
Proof.
  unfold full_entries. destruct l as [|n [|m t]]; cbn.
  - split; [discriminate|]. intros (n & m & t & E & _). discriminate.
  - split; [discriminate|]. intros (n' & m & t & E & _). discriminate.
  - unfold full2. rewrite raise_if_ok, orb_false_iff, !Z.ltb_ge. split.
    + intros [[H1 H2] E]. injection E as <-. exists n, m, t. auto.
    + intros (n' & m' & t' & E & H1 & H2 & ->). injection E as -> -> ->. auto.
Qed.

Lemma known_cases (c : config) (v1 v2 : option R) :
  (exists gen x1 x2, ideal_csd_config c = Some gen /\ v1 = Some x1 /\ v2 = Some x2) \/ ~ knows_occupation c v1 v2.
Proof.
  unfold knows_occupation. destruct (ideal_csd_config c) as [gen|], v1 as [x1|], v2 as [x2|];
    try (right; tauto). left. eauto 6.
Qed.
Lemma unknown_occupations (c : config) v1 v2 res w : ~ knows_occupation c v1 v2 ->
  scan_occupations c v1 v2 res w =
  (match res with
   | ResInt n => let? occ := full1 n (0, 0) in Ok (occ, res)
   | ResArray l => let? occ := full_entries l (0, 0) in Ok (occ, res)
   end, w).
Proof.
  unfold knows_occupation, scan_occupations. intros H.
  destruct (ideal_csd_config c), v1, v2; try reflexivity.
  exfalso. apply H. repeat split; discriminate.
Qed.
Lemma unknown_occupation_zero (c : config) v1 v2 w o w' : ~ knows_occupation c v1 v2 ->
  scan_occupation c v1 v2 w o w' <-> o = (0, 0) /\ w' = w.
Proof.
  unfold knows_occupation, scan_occupation. intros H. destruct (ideal_csd_config c), v1, v2; try tauto.
  exfalso. apply H. repeat split; discriminate.
Qed.
Lemma constant1 n o : (0 <= n)%Z -> forall res, res = ResInt n \/ res = ResArray [n] ->
  constant_scan res o (Occ1 (mk_arr1 (Z.to_nat n) (fun _ => o))).
Proof.
  intros H res [->| ->]; cbn; (split; [exact H|]); eexists; (split; [reflexivity|]); cbn; (split; [lia|auto]).
Qed.
Lemma constant2 n m o : (0 <= n)%Z -> (0 <= m)%Z ->
  constant_scan (ResArray [n; m]) o (Occ2 (mk_arr2 (Z.to_nat m) (Z.to_nat n) (fun _ _ => o))).
Proof.
  intros Hn Hm. cbn. split; [exact Hn|]. split; [exact Hm|]. eexists. split; [reflexivity|]. cbn. split; [lia|]. split; [lia|auto].
Qed.

Definition recorded (res : resolution) : resolution := match res with ResArray [n] => ResInt n | _ => res end.

Lemma scan_occupations_ok (c : config) v1 v2 res w occ res' w1 :
  (forall l, res = ResArray l -> (length l <= 2)%nat) ->
  scan_occupations c v1 v2 res w = (Ok (occ, res'), w1) ->
  plain_resolution c v1 v2 res /\ res' = recorded res /\
  exists o, scan_occupation c v1 v2 w o w1 /\ constant_scan res o occ.
Proof.
  intros Hl H. destruct (known_cases c v1 v2) as [(gen & x1 & x2 & Eg & -> & ->)|N].
  - unfold scan_occupations in H. rewrite Eg in H. apply mbind_ok in H. destruct H as ([a l0] & w2 & H1 & H2).
    destruct res as [z|l]; [discriminate|]. injection H2 as H2 <-. cbn [fst] in H2.
    unfold first_of in H2. destruct a as [a|a|]; try discriminate.
    destruct (Nat.ltb_spec 0 (len1 a)) as [Hlen|]; [|discriminate]. cbn [bind] in H2.
    assert (Ho : scan_occupation c (Some x1) (Some x2) w (cell1 a 0) w2).
    { unfold scan_occupation. rewrite Eg. exists a, l0. auto. }
    assert (Kn : knows_occupation c (Some x1) (Some x2)) by (repeat split; congruence).
    specialize (Hl l eq_refl).
    destruct l as [|n [|m t]].
    + discriminate.
    + destruct (full1 n (cell1 a 0)) as [o1|] eqn:F; [|discriminate]. cbn [bind] in H2. injection H2 as <- <-.
      apply full1_ok in F. destruct F as [Hn ->].
      split; [exact Kn|]. split; [reflexivity|]. exists (cell1 a 0). split; auto. apply constant1; auto.
    + assert (t = []) by (destruct t; [reflexivity|cbn in Hl; lia]). subst t.
      destruct (full_entries [n; m] (cell1 a 0)) as [o1|] eqn:F; [|discriminate]. cbn [bind] in H2. injection H2 as <- <-.
      apply full_entries_ok in F. destruct F as (n' & m' & t' & E & Hn & Hm & ->). injection E as <- <- <-.
      split; [reflexivity|]. split; [reflexivity|]. exists (cell1 a 0). split; auto. apply constant2; auto.
  - rewrite unknown_occupations in H by exact N. injection H as H <-.
    destruct res as [z|l].
    + destruct (full1 z (0, 0)) as [o1|] eqn:F; [|discriminate]. cbn [bind] in H. injection H as <- <-.
      apply full1_ok in F. destruct F as [Hn ->].
      split; [exact N|]. split; [reflexivity|]. exists (0, 0). split; [apply unknown_occupation_zero; auto|]. apply constant1; auto.
    + destruct (full_entries l (0, 0)) as [o1|] eqn:F; [|discriminate]. cbn [bind] in H. injection H as <- <-.
      apply full_entries_ok in F. destruct F as (n & m & t & -> & Hn & Hm & ->).
      specialize (Hl _ eq_refl). assert (t = []) by (destruct t; [reflexivity|cbn in Hl; lia]). subst t.
      split; [reflexivity|]. split; [reflexivity|]. exists (0, 0). split; [apply unknown_occupation_zero; auto|]. apply constant2; auto.
Qed.

Lemma scan_ok (c : config) s1 s2 v1 v2 res w m w' :
  measure_sensor_scan c s1 s2 v1 v2 res w = (Ok m, w') ->
  valid_scan c s1 s2 v1 v2 res /\ plain_resolution c v1 v2 res /\
  exists l1 l2, s1 = [fst l1; snd l1] /\ s2 = [fst l2; snd l2] /\ scanned c l1 l2 l1 l1 v1 v2 res w m w'.
Proof.
  unfold measure_sensor_scan. destruct (check_sensor_scan c s1 s2 v1 v2 res) as [[l1 l2]|e] eqn:Ec; [|discriminate].
  apply check_scan_iff in Ec. destruct Ec as (V & E1 & E2). intros H.
  apply mbind_ok in H. destruct H as ([occ res'] & w1 & H1 & H).
  apply scan_occupations_ok in H1; [|exact (vs_axes _ _ _ _ _ _ V)]. destruct H1 as (Pl & Er & o & Ho & Hc).
  apply mbind_ok in H. destruct H as (p & w2 & H2 & H).
  apply mbind_ok in H. destruct H as (pu & w3 & H3 & H).
  apply mbind_ok in H. destruct H as (labels & w4 & H4 & H).
  apply mbind_ok in H. destruct H as (p' & w5 & H5 & H). apply distort_potential_ok in H5.
  apply mbind_ok in H. destruct H as (r & w6 & H6 & H).
  apply mbind_ok in H. destruct H as (sc & w7 & H7 & H). apply image_loop_ok in H7.
  injection H as <- <-. split; auto. split; auto. exists l1, l2. split; auto. split; auto.
  exists o, w1, occ, p, w2, pu, w3, w4, p', w5, r, w6. cbn [sc_scan sc_labels sc_meta].
  repeat (split; [assumption|]). rewrite Er. reflexivity.
Qed.

Lemma scan_occupations_total (c : config) v1 v2 res w :
  objects_total c -> point_data c -> plain_resolution c v1 v2 res -> nonnegative res ->
  exists r w', scan_occupations c v1 v2 res w = (Ok r, w').
Proof.
  intros O Pd Pl Hn. destruct (known_cases c v1 v2) as [(gen & x1 & x2 & Eg & -> & ->)|N].
  - destruct (ot_gen c O gen Eg (x1, x1) (x2, x2) (ResInt 1) w) as ([a l0] & w1 & H).
    destruct (Pd gen x1 x2 w _ w1 Eg H) as (b & Hb & Hlen). cbn [fst] in Hb. subst a.
    unfold scan_occupations. rewrite Eg. unfold mbind. rewrite H.
    destruct res as [z|l].
    + exfalso. apply Pl. repeat split; congruence.
    + cbn [fst]. unfold first_of. apply Nat.ltb_lt in Hlen. rewrite Hlen. cbn [bind].
      destruct l as [|n [|m t]].
      * discriminate.
      * inversion Hn; subst. unfold full1. replace (n <? 0)%Z with false by (symmetry; apply Z.ltb_ge; lia). cbn. eauto.
      * inversion Hn as [|? ? Hn1 Hn2]; subst. inversion Hn2; subst.
        unfold full_entries, full2. cbn [get_item nth_error bind].
        replace (n <? 0)%Z with false by (symmetry; apply Z.ltb_ge; lia).
        replace (m <? 0)%Z with false by (symmetry; apply Z.ltb_ge; lia). cbn. eauto.
  - rewrite unknown_occupations by exact N. destruct res as [z|l].
    + unfold full1. cbn in Hn. replace (z <? 0)%Z with false by (symmetry; apply Z.ltb_ge; lia). cbn. eauto.
    + destruct l as [|n [|m t]]; [discriminate|contradiction|].
      inversion Hn as [|? ? Hn1 Hn2]; subst. inversion Hn2; subst.
        unfold full_entries, full2. cbn [get_item nth_error bind].
        replace (n <? 0)%Z with false by (symmetry; apply Z.ltb_ge; lia).
        replace (m <? 0)%Z with false by (symmetry; apply Z.ltb_ge; lia). cbn. eauto.
Qed.
Lemma scan_total (c : config) s1 s2 v1 v2 res w :
  valid_scan c s1 s2 v1 v2 res -> plain_resolution c v1 v2 res -> nonnegative res -> objects_total c -> point_data c ->
  exists m w', measure_sensor_scan c s1 s2 v1 v2 res w = (Ok m, w').
Proof.
  intros V Pl Hn O Pd. unfold measure_sensor_scan. destruct (check_sensor_scan c s1 s2 v1 v2 res) as [[l1 l2]|e] eqn:Ec.
  2:{ apply check_scan_err in Ec. destruct Ec; contradiction. }
  destruct (scan_occupations_total c v1 v2 res w O Pd Pl Hn) as ([occ res'] & w1 & H).
  unfold mbind at 1. rewrite H.
  match goal with |- exists m w', ?a w1 = _ => cut (total a); [intros T; exact (T w1)|] end.
  apply total_bind; [apply (ot_potential c O)|]. intros p.
  apply total_bind; [apply (ot_potential c O)|]. intros pu.
  apply total_bind; [apply (ot_labels c O)|]. intros lab.
  apply total_bind; [apply total_distort_potential; exact O|]. intros p'.
  apply total_bind; [apply (ot_response c O)|]. intros r.
  apply total_bind; [apply total_image_loop, (ot_res c O)|]. intros sc w'. eauto.
Qed.
Lemma scan_int_fails (c : config) s1 s2 x1 x2 n w gen r w' :
  valid_scan c s1 s2 (Some x1) (Some x2) (ResInt n) -> ideal_csd_config c = Some gen ->
  gen (x1, x1) (x2, x2) (ResInt 1) w = (Ok r, w') ->
  measure_sensor_scan c s1 s2 (Some x1) (Some x2) (ResInt n) w = (Err TypeError, w').
Proof.
  intros V Eg H. unfold measure_sensor_scan. destruct (check_sensor_scan _ _ _ _ _ _) as [[l1 l2]|e] eqn:Ec.
  2:{ apply check_scan_err in Ec. destruct Ec; contradiction. }
  unfold mbind at 1. unfold scan_occupations. rewrite Eg. unfold mbind at 1. rewrite H. reflexivity.
Qed.
Lemma scan_single_fails (c : config) s1 s2 v1 v2 n w :
  valid_scan c s1 s2 v1 v2 (ResArray [n]) -> ~ knows_occupation c v1 v2 ->
  measure_sensor_scan c s1 s2 v1 v2 (ResArray [n]) w = (Err IndexError, w).
Proof.
  intros V N. unfold measure_sensor_scan. destruct (check_sensor_scan _ _ _ _ _ _) as [[l1 l2]|e] eqn:Ec.
  2:{ apply check_scan_err in Ec. destruct Ec; contradiction. }
  unfold mbind at 1. rewrite unknown_occupations by exact N. reflexivity.
Qed.

(** ** Consequences *)
Lemma in_order_det {A D} (step : nat -> D -> A -> W -> A -> W -> Prop) ds x w y w' y2 w2 :
  (forall k d a w b w' b2 w2, step k d a w b w' -> step k d a w b2 w2 -> b = b2 /\ w' = w2) ->
  in_order step ds x w y w' -> in_order step ds x w y2 w2 -> y = y2 /\ w' = w2.
Proof.
  intros Det. revert step x w Det. induction ds as [|d t IH]; intros step x w Det H1 H2.
  - apply in_order_nil in H1. apply in_order_nil in H2. destruct H1, H2. subst. auto.
  - apply in_order_cons in H1. apply in_order_cons in H2.
    destruct H1 as (x1 & w1 & A1 & B1), H2 as (x1' & w1' & A2 & B2).
    destruct (Det _ _ _ _ _ _ _ _ A1 A2). subst. eapply IH; [|exact B1|exact B2].
    intros k d0 a w0 b w3 b2 w4 H H0. exact (Det (S k) d0 a w0 b w3 b2 w4 H H0).
Qed.
Lemma in_order_prefix {A D} (step : nat -> D -> A -> W -> A -> W -> Prop) ds x w y w' :
  in_order step ds x w y w' ->
  exists st : nat -> A * W, st 0%nat = (x, w) /\ st (length ds) = (y, w') /\
   (forall k d, nth_error ds k = Some d -> step k d (fst (st k)) (snd (st k)) (fst (st (S k))) (snd (st (S k)))) /\
   forall k, (k <= length ds)%nat -> in_order step (firstn k ds) x w (fst (st k)) (snd (st k)).
Proof.
  intros (st & E0 & E1 & H). exists st. repeat (split; [assumption|]). intros k Hk. exists st.
  split; [exact E0|]. rewrite firstn_length, Nat.min_l by exact Hk. split; [apply surjective_pairing|].
  intros j d Hj. apply H.
  assert (j < k)%nat. { assert (Q : nth_error (firstn k ds) j <> None) by congruence. apply nth_error_Some in Q. rename Hj into Hj0. rename Q into Hj. rewrite firstn_length in Hj. lia. }
  rewrite <- (firstn_skipn k ds), nth_error_app1; [exact Hj|].  rewrite firstn_length. lia.
Qed.

Lemma pure_step gen (ds : list occ_distortion) l1 l2 b k d f ol w ol' w' : pure_noise d f ->
  acts_in_place gen ds l1 l2 b k d ol w ol' w' <-> ol' = f ol l1 l2 /\ w' = w.
Proof.
  intros P. unfold acts_in_place. destruct ol as [o l]. cbn [fst snd].
  destruct (P o l l1 l2 (generator_with gen (firstn k ds)) b w) as (r & E). rewrite E. split.
  - intros (r' & H). injection H as -> _ ->. auto.
  - intros [-> ->]. exists r. reflexivity.
Qed.
Lemma pure_in_order gen (ds0 ds : list occ_distortion) l1 l2 b ol w ol' w' :
  (forall d, In d ds -> exists f, pure_noise d f) ->
  in_order (acts_in_place gen ds0 l1 l2 b) ds ol w ol' w' ->
  w' = w /\ forall b' ds1 w2, in_order (acts_in_place gen ds1 l1 l2 b') ds ol w2 ol' w2.
Proof.
  intros P (st & E0 & E1 & H).
  assert (Q : forall k, (k <= length ds)%nat -> snd (st k) = w).
  { induction k as [|k IH]; intros Hk; [rewrite E0; reflexivity|].
    destruct (nth_error ds k) as [d|] eqn:Ed; [|apply nth_error_None in Ed; lia].
    specialize (H k d Ed). destruct (P d (nth_error_In _ _ Ed)) as (f & Pf).
    apply (pure_step _ _ _ _ _ _ _ f) in H; [|exact Pf]. destruct H as [_ ->]. apply IH. lia. }
  split.
  - rewrite <- (Q (length ds) (le_n _)), E1. reflexivity.
  - intros b' ds1 w2. exists (fun k => (fst (st k), w2)). rewrite E0, E1. split; [reflexivity|]. split; [reflexivity|].
    intros k d Ed. cbn [fst snd]. destruct (P d (nth_error_In _ _ Ed)) as (f & Pf).
    specialize (H k d Ed). apply (pure_step _ _ _ _ _ _ _ f) in H; [|exact Pf]. destruct H as [H _].
    apply (pure_step _ _ _ _ _ _ _ f); [exact Pf|]. auto.
Qed.
Lemma in_order_firstn_list gen (ds : list occ_distortion) l1 l2 b j x w y w' : (j <= length ds)%nat ->
  in_order (acts_in_place gen ds l1 l2 b) (firstn j ds) x w y w' <->
  in_order (acts_in_place gen (firstn j ds) l1 l2 b) (firstn j ds) x w y w'.
Proof.
  intros Hj. apply in_order_ext. intros k d a w0 c w1 Hk. rewrite firstn_length in Hk.
  unfold acts_in_place. rewrite firstn_firstn, Nat.min_l by lia. reflexivity.
Qed.
Lemma same_data gen (ds : list occ_distortion) l1 l2 res ideal w ol w' :
  (forall w, gen l1 l2 res w = (Ok ideal, w)) -> (forall d, In d ds -> exists f, pure_noise d f) ->
  in_order (acts_in_place gen ds l1 l2 false) ds ideal w ol w' ->
  w' = w /\ exists data : nat -> occupation * L, data 0%nat = ideal /\ data (length ds) = ol /\
    forall k d, nth_error ds k = Some d ->
      acts_in_place gen ds l1 l2 false k d (data k) w (data (S k)) w /\
      forall w2, generator_with gen (firstn k ds) l1 l2 res w2 = (Ok (data k), w2).
Proof.
  intros Pg P H. pose proof (pure_in_order _ _ _ _ _ _ _ _ _ _ P H) as [-> _]. split; [reflexivity|].
  apply in_order_prefix in H. destruct H as (st & E0 & E1 & Hs & Hp).
  assert (Q : forall k, (k <= length ds)%nat -> snd (st k) = w).
  { intros k Hk. specialize (Hp k Hk). apply pure_in_order in Hp; [destruct Hp; auto|].
    intros d Hd. apply P. rewrite <- (firstn_skipn k ds). apply in_or_app. auto. }
  exists (fun k => fst (st k)). rewrite E0, E1. split; [reflexivity|]. split; [reflexivity|].
  intros k d Ed. assert (k < length ds)%nat by (apply nth_error_Some; congruence). split.
  - specialize (Hs k d Ed). rewrite !Q in Hs by lia. exact Hs.
  - intros w2. apply generator_with_ok. exists ideal, w2. split; [apply Pg|].
    specialize (Hp k ltac:(lia)). apply pure_in_order in Hp.
    + destruct Hp as [_ Hp]. apply Hp.
    + intros d' Hd. apply P. rewrite <- (firstn_skipn k ds). apply in_or_app. auto.
Qed.

(** ** Voltages *)
Lemma between_within lims a b t : within_limits lims a -> within_limits lims b -> 0 <= t <= 1 -> within_limits lims (a + t * (b - a)).
Proof.
  unfold within_limits. destruct lims as [[lo hi]|]; auto. intros [A1 A2] [B1 B2] [T1 T2].
  split.
  - assert (0 <= (1 - t) * (a - lo)) by (apply Rmult_le_pos; lra). assert (0 <= t * (b - lo)) by (apply Rmult_le_pos; lra). lra.
  - assert (0 <= (1 - t) * (hi - a)) by (apply Rmult_le_pos; lra). assert (0 <= t * (hi - b)) by (apply Rmult_le_pos; lra). lra.
Qed.
Lemma pair_between lims l t : Forall (within_limits lims) [fst l; snd l] -> 0 <= t <= 1 ->
  within_limits lims (fst l + t * (snd l - fst l)).
Proof. intros H. inversion H as [|? ? A H']; subst. inversion H' as [|? ? B _]; subst. apply between_within; assumption. Qed.

(** ** The returned arrays of occupation distortions *)
Lemma returned_ignored (c : config) gen s1 s2 v1 v2 res w m w' (returned : occupation -> L -> occupation * L) :
  ideal_csd_config c = Some gen ->
  occupation_distortions c = Some [mk_occ_distortion (fun o l _ _ _ _ => ret ((o, l), returned o l))] ->
  measure c s1 s2 v1 v2 res w = (Ok m, w') ->
  exists l1 l2 w1, s1 = [fst l1; snd l1] /\ s2 = [fst l2; snd l2] /\ gen l1 l2 res w = (Ok (m_occ m, m_lead m), w1).
Proof.
  intros Eg Ed H. apply measure_ok in H. destruct H as (_ & _ & gen' & l1 & l2 & Eg' & E1 & E2 & H).
  assert (gen' = gen) by congruence. subst gen'.
  destruct H as (ideal & w1 & w2 & p & w3 & p' & w4 & r & w5 & H1 & H2 & _).
  rewrite Ed in H2. cbn [the_list] in H2. apply in_order_cons in H2. destruct H2 as (x & w6 & (rt & H2) & H3).
  apply in_order_nil in H3. destruct H3 as [-> ->]. cbn in H2. unfold ret in H2.
  exists l1, l2, w1. split; [assumption|]. split; [assumption|]. destruct ideal. cbn in *. congruence.
Qed.
Lemma response_ranges (c : config) s1 s2 v1 v2 res w m w' (d : img_distortion W I) :
  sensor_response_distortions c = Some [d] -> measure_sensor_scan c s1 s2 v1 v2 res w = (Ok m, w') ->
  exists l1 x w1, s1 = [fst l1; snd l1] /\ d x l1 l1 w1 = (Ok (sc_scan m), w').
Proof.
  intros Ed H. apply scan_ok in H. destruct H as (_ & _ & l1 & l2 & E1 & E2 & H).
  destruct H as (o & w1 & occ & p & w2 & pu & w3 & w4 & p' & w5 & r & w6 & _ & _ & _ & _ & _ & _ & _ & H & _).
  rewrite Ed in H. cbn [the_list] in H. apply in_order_cons in H. destruct H as (x & w7 & H & H3).
  apply in_order_nil in H3. destruct H3 as [-> ->]. exists l1, r, w6. auto.
Qed.
Lemma measure_voltages (c : config) s1 s2 v1 v2 res w m w' t :
  measure c s1 s2 v1 v2 res w = (Ok m, w') -> 0 <= t <= 1 ->
  let r1 := md_range1 (m_meta m) in let r2 := md_range2 (m_meta m) in
  within_limits (volt_limits_g1 c) (fst r1 + t * (snd r1 - fst r1)) /\
  within_limits (volt_limits_g2 c) (fst r2 + t * (snd r2 - fst r2)) /\
  (forall x, v1 = Some x -> within_limits (volt_limits_sensor_g1 c) x) /\
  (forall x, v2 = Some x -> within_limits (volt_limits_sensor_g2 c) x).
Proof.
  intros H Ht. apply measure_ok in H. destruct H as (V & _ & gen & l1 & l2 & _ & E1 & E2 & H).
  destruct H as (? & ? & ? & ? & ? & ? & ? & ? & ? & _ & _ & _ & _ & _ & _ & M).
  cbn zeta. rewrite M. cbn [md_range1 md_range2]. destruct V as [_ _ _ R1 R2 V1 V2 _ _ _]. subst s1 s2.
  split; [apply pair_between; assumption|]. split; [apply pair_between; assumption|]. auto.
Qed.
Lemma scan_voltages (c : config) s1 s2 v1 v2 res w m w' t :
  measure_sensor_scan c s1 s2 v1 v2 res w = (Ok m, w') -> 0 <= t <= 1 ->
  let r1 := md_range1 (sc_meta m) in let r2 := md_range2 (sc_meta m) in
  within_limits (volt_limits_sensor_g1 c) (fst r1 + t * (snd r1 - fst r1)) /\
  within_limits (volt_limits_sensor_g2 c) (fst r2 + t * (snd r2 - fst r2)) /\
  (forall x, v1 = Some x -> within_limits (volt_limits_g1 c) x) /\
  (forall x, v2 = Some x -> within_limits (volt_limits_g2 c) x).
Proof.
  intros H Ht. apply scan_ok in H. destruct H as (V & _ & l1 & l2 & E1 & E2 & H).
  destruct H as (? & ? & ? & ? & ? & ? & ? & ? & ? & ? & ? & ? & _ & _ & _ & _ & _ & _ & _ & _ & M).
  cbn zeta. rewrite M. cbn [md_range1 md_range2]. destruct V as [_ _ _ R1 R2 V1 V2 _ _ _]. subst s1 s2.
  split; [apply pair_between; assumption|]. split; [apply pair_between; assumption|]. auto.
Qed.
End Proofs.
