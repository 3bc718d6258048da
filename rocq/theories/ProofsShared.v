(** Proofs about the objects held by sensors. *)
From Verif Require Import RPrelude ModelCsd ModelSensor ModelShared SpecShared.
Local Open Scope nat_scope.

(** ** Heaps *)
Lemma write_length h a c : length (write h a c) = length h.
Proof. revert a. induction h as [|x h IH]; intros [|a]; cbn; auto. Qed.
Lemma write_same h a c : a < length h -> nth_error (write h a c) a = Some c.
Proof. revert a. induction h as [|x h IH]; intros [|a] H; cbn in *; try lia; auto. apply IH. lia. Qed.
Lemma write_other h a b c : a <> b -> nth_error (write h a c) b = nth_error h b.
Proof. revert a b. induction h as [|x h IH]; intros [|a] [|b] H; cbn in *; try lia; auto. Qed.
Lemma nth_old (h e : heap) a c : nth_error h a = Some c -> nth_error (h ++ e) a = Some c.
Proof. intros H. rewrite nth_error_app1; [exact H|]. apply nth_error_Some. congruence. Qed.
Lemma nth_new (h e : heap) c : nth_error (h ++ c :: e) (length h) = Some c.
Proof. rewrite nth_error_app2 by lia. rewrite Nat.sub_diag. reflexivity. Qed.
Lemma nth_news (h e : heap) : map (nth_error (h ++ e)) (seq (length h) (length e)) = map Some e.
Proof.
  revert h. induction e as [|c e IH]; intros h; [reflexivity|]. cbn [length seq map]. rewrite nth_new. f_equal.
  specialize (IH (h ++ [c])). rewrite app_length, <- app_assoc in IH. cbn in IH. rewrite Nat.add_1_r in IH. exact IH.
Qed.
Lemma get_peaks_ok h l cs : mapM (get_peak h) l = Ok cs -> map (nth_error h) l = map Some cs /\ Forall (fun c => exists s, c = CPeak s) cs.
Proof.
  revert cs. induction l as [|p l IH]; intros cs H; cbn in H.
  - injection H as <-. split; [reflexivity|constructor].
  - unfold get_peak at 1 in H. destruct (nth_error h p) as [[]|] eqn:E; try discriminate. cbn in H.
    destruct (mapM (get_peak h) l) as [t|]; [|discriminate]. cbn in H. injection H as <-. cbn. rewrite E.
    destruct (IH t eq_refl) as [I1 I2]. split; [f_equal; exact I1|]. constructor; [eexists; reflexivity|exact I2].
Qed.
Lemma set_peaks_ok arg h h' r : set_peaks arg h = Ok (h', r) -> exists e, h' = h ++ e /\
  ((r = None /\ e = [] /\ arg = PeaksNone) \/ (r = Some (seq (length h) (length e)) /\ passed_peaks h arg = Some (map Some e) /\ Forall (fun c => exists s, c = CPeak s) e)).
Proof.
  destruct arg; cbn [set_peaks]; intros H; try discriminate.
  - injection H as <- <-. exists []. rewrite app_nil_r. auto.
  - destruct (mapM (get_peak h) [p]) as [cs|] eqn:E; [|discriminate]. cbn in H. injection H as <- <-. exists cs.
    split; [reflexivity|]. right. split; [reflexivity|]. destruct (get_peaks_ok _ _ _ E) as [E1 E2]. split; [cbn [passed_peaks]; f_equal; exact E1|exact E2].
  - destruct (mapM (get_peak h) l) as [cs|] eqn:E; [|discriminate]. cbn in H. injection H as <- <-. exists cs.
    split; [reflexivity|]. right. split; [reflexivity|]. destruct (get_peaks_ok _ _ _ E) as [E1 E2]. split; [cbn [passed_peaks]; f_equal; exact E1|exact E2].
Qed.
Lemma passed_length h arg e : passed_peaks h arg = Some (map Some e) -> number_of_peaks arg = length e.
Proof.
  intros H. assert (L : length (map (@Some cell) e) = number_of_peaks arg); [|rewrite map_length in L; lia].
  destruct arg; cbn [passed_peaks number_of_peaks] in *; try discriminate; injection H as <-; [reflexivity|apply map_length].
Qed.

(** ** SensorGeneric *)
Lemma set_pair_ok arg h h' r : set_pair arg h = Ok (h', r) ->
  exists c a, h' = h ++ [c] /\ r = length h /\ arg = ArrayRef a /\ nth_error h a = Some c.
Proof.
  destruct arg as [|a|]; cbn; intros H; try discriminate. destruct (nth_error h a) as [[[|x [|y [|]]]| | | | | | |]|] eqn:E; try discriminate.
  injection H as <- <-. exists (CArray [x; y]), a. auto.
Qed.
(** the cells in which a generic sensor is built *)
Lemma generic_built peaks dot gate off h h' s : new_generic peaks dot gate off h = Ok (h', s) ->
  exists f e c1 c2 a1 a2, s = length h /\ h' = h ++ CGeneric f :: e ++ [c1; c2] /\
    ((g_peaks f = None /\ peaks = PeaksNone) \/ (g_peaks f = Some (seq (S (length h)) (length e)) /\ passed_peaks (h ++ [CBlank]) peaks = Some (map Some e))) /\
    g_dot f = S (length h) + length e /\ g_gate f = S (S (length h)) + length e /\
    dot = ArrayRef a1 /\ gate = ArrayRef a2 /\ nth_error (h ++ CBlank :: e) a1 = Some c1 /\ nth_error (h ++ CBlank :: e ++ [c1]) a2 = Some c2 /\ off = OffsetNumber (g_offset f).
Proof.
  unfold new_generic. intros H.
  destruct (set_peaks peaks (h ++ [CBlank])) as [[h1 p]|] eqn:E1; [|discriminate]. cbn [bind fst snd] in H.
  destruct (set_pair dot h1) as [[h2 d]|] eqn:E2; [|discriminate]. cbn [bind fst snd] in H.
  destruct (set_pair gate h2) as [[h3 g]|] eqn:E3; [|discriminate]. cbn [bind fst snd] in H.
  destruct off as [x| |]; try discriminate. cbn [set_number bind] in H. injection H as <- <-.
  destruct (set_peaks_ok _ _ _ _ E1) as (e & -> & Hp). destruct (set_pair_ok _ _ _ _ E2) as (c1 & a1 & -> & -> & -> & Ea1).
  destruct (set_pair_ok _ _ _ _ E3) as (c2 & a2 & -> & -> & -> & Ea2).
  exists (mk_generic_fields p (length ((h ++ [CBlank]) ++ e)) (length (((h ++ [CBlank]) ++ e) ++ [c1])) x), e, c1, c2, a1, a2.
  split; [reflexivity|]. split.
  { rewrite <- !app_assoc. cbn [app]. generalize (CGeneric (mk_generic_fields p (length (h ++ CBlank :: e)) (length (h ++ CBlank :: e ++ [c1])) x)).
    intros c. generalize (e ++ [c1; c2]). intros t. clear. induction h as [|y h IH]; cbn; [reflexivity|]. rewrite IH. reflexivity. }
  cbn [g_peaks g_dot g_gate g_offset].
  split. { rewrite app_length, Nat.add_1_r in Hp. destruct Hp as [(-> & -> & ->)|(-> & Hp & _)]; auto. }
  split. { rewrite !app_length. cbn. lia. } split. { rewrite !app_length. cbn. lia. }
  split; [reflexivity|]. split; [reflexivity|]. rewrite <- !app_assoc in Ea1, Ea2. cbn in Ea1, Ea2. rewrite <- ?app_assoc in Ea2. auto.
Qed.
Lemma generic_independent peaks dot gate off h h' s h2 : new_generic peaks dot gate off h = Ok (h', s) -> only_older_changed (length h) h' h2 ->
  generic_peaks h2 s = generic_peaks h' s /\ generic_array h2 s g_dot = generic_array h' s g_dot /\ generic_array h2 s g_gate = generic_array h' s g_gate.
Proof.
  intros H O. destruct (generic_built _ _ _ _ _ _ _ H) as (f & e & c1 & c2 & a1 & a2 & -> & Eh & Hp & Hd & Hg & _).
  assert (E1 : nth_error h' (length h) = Some (CGeneric f)) by (rewrite Eh; apply nth_new).
  assert (E2 : nth_error h2 (length h) = Some (CGeneric f)) by (rewrite O by lia; exact E1).
  unfold generic_peaks, generic_array. rewrite E1, E2.
  split; [|rewrite Hd, Hg, !O by lia; auto]. destruct Hp as [(-> & _)|(-> & _)]; cbn; [reflexivity|]. do 2 f_equal.
  apply map_ext_in. intros a Ia. apply in_seq in Ia. apply O. lia.
Qed.
Lemma passed_old h e arg : peaks_exist h arg -> passed_peaks (h ++ e) arg = passed_peaks h arg.
Proof.
  intros [E1 E2]. destruct arg as [|p|l|]; cbn [passed_peaks]; auto.
  - rewrite nth_error_app1 by (apply E1; reflexivity). reflexivity.
  - f_equal. apply map_ext_in. intros a I. specialize (E2 l eq_refl). rewrite Forall_forall in E2. apply nth_error_app1. auto.
Qed.
Lemma generic_holds peaks a1 a2 off h h' s : new_generic peaks (ArrayRef a1) (ArrayRef a2) off h = Ok (h', s) -> peaks_exist h peaks ->
  a1 < length h -> a2 < length h ->
  generic_peaks h' s = Some (passed_peaks h peaks) /\ generic_array h' s g_dot = nth_error h a1 /\ generic_array h' s g_gate = nth_error h a2.
Proof.
  intros H X L1 L2. destruct (generic_built _ _ _ _ _ _ _ H) as (f & e & c1 & c2 & b1 & b2 & -> & Eh & Hp & Hd & Hg & A1 & A2 & E1 & E2 & _).
  injection A1 as <-. injection A2 as <-. rewrite nth_error_app1 in E1, E2 by assumption.
  assert (E : nth_error h' (length h) = Some (CGeneric f)) by (rewrite Eh; apply nth_new).
  unfold generic_peaks, generic_array. rewrite E, Hd, Hg. split; [|split].
  - destruct Hp as [(-> & ->)|(-> & Hp)]; [reflexivity|]. cbn [option_map]. rewrite passed_old in Hp by exact X. rewrite Hp. do 2 f_equal.
    rewrite Eh. change (h ++ CGeneric f :: e ++ [c1; c2]) with (h ++ ([CGeneric f] ++ (e ++ [c1; c2]))). rewrite app_assoc, app_assoc.
    replace (S (length h)) with (length (h ++ [CGeneric f])) by (rewrite app_length; cbn; lia).
    rewrite <- nth_news with (h := h ++ [CGeneric f]). apply map_ext_in. intros a I. apply in_seq in I. apply nth_error_app1. rewrite (app_length (h ++ _) e). lia.
  - rewrite Eh. rewrite nth_error_app2 by lia. replace (S (length h) + length e - length h) with (S (length e)) by lia. cbn.
    rewrite nth_new. symmetry. exact E1.
  - rewrite Eh. change (h ++ CGeneric f :: e ++ [c1; c2]) with (h ++ (CGeneric f :: e) ++ [c1; c2]). rewrite app_assoc.
    rewrite nth_error_app2; rewrite app_length; cbn [length]; [|lia].
    replace (S (S (length h)) + length e - (length h + S (length e))) with 1 by lia. symmetry. exact E2.
Qed.

(** ** SensorScanSensorGeneric *)
(** cells are kept, except for the sensors of deformations *)
Definition kept (h h' : heap) : Prop := forall a c, nth_error h a = Some c -> nth_error h' a = Some c \/ exists d o o', c = CDeform d o /\ nth_error h' a = Some (CDeform d o').
Lemma kept_refl h : kept h h. Proof. intros a c H. auto. Qed.
Lemma kept_trans h1 h2 h3 : kept h1 h2 -> kept h2 h3 -> kept h1 h3.
Proof.
  intros A B a c H. destruct (A a c H) as [H2|(d & o & o' & -> & H2)].
  - exact (B a c H2).
  - right. destruct (B a _ H2) as [H3|(d2 & o2 & o3 & E & H3)]; [exists d, o, o'; auto|]. injection E as -> ->. exists d2, o, o3. auto.
Qed.
Lemma kept_app h e : kept h (h ++ e).
Proof. intros a c H. left. apply nth_old. exact H. Qed.
Lemma kept_assign self h d : kept h (assign_sensor self h d).
Proof.
  unfold assign_sensor. destruct (nth_error h d) as [[]|] eqn:E; try apply kept_refl.
  intros a c H. destruct (Nat.eq_dec a d) as [->|N].
  - rewrite E in H. injection H as <-. right. eexists _, _, _. split; [reflexivity|]. apply write_same. apply nth_error_Some. congruence.
  - left. rewrite write_other by congruence. exact H.
Qed.
Lemma assign_length self h d : length (assign_sensor self h d) = length h.
Proof. unfold assign_sensor. destruct (nth_error h d) as [[]|]; try reflexivity. apply write_length. Qed.
Lemma assigns_length self ds h : length (fold_left (assign_sensor self) ds h) = length h.
Proof. revert h. induction ds as [|d ds IH]; intros h; cbn; [reflexivity|]. rewrite IH. apply assign_length. Qed.
Lemma assigns_kept self ds h : kept h (fold_left (assign_sensor self) ds h).
Proof. revert h. induction ds as [|d ds IH]; intros h; cbn; [apply kept_refl|]. eapply kept_trans; [apply kept_assign|apply IH]. Qed.
(** once assigned it stays assigned *)
Lemma assign_stays self h d a x : nth_error h a = Some (CDeform x (Some self)) -> nth_error (assign_sensor self h d) a = Some (CDeform x (Some self)).
Proof.
  intros H. unfold assign_sensor. destruct (nth_error h d) as [[]|] eqn:E; try exact H.
  destruct (Nat.eq_dec a d) as [->|N]; [|rewrite write_other by congruence; exact H].
  rewrite E in H. injection H as -> ->. apply write_same. apply nth_error_Some. congruence.
Qed.
Lemma assigns_stay self ds h a x : nth_error h a = Some (CDeform x (Some self)) -> nth_error (fold_left (assign_sensor self) ds h) a = Some (CDeform x (Some self)).
Proof. revert h. induction ds as [|d ds IH]; intros h H; cbn; [exact H|]. apply IH, assign_stays, H. Qed.
Lemma assigns_done self ds h a x o : In a ds -> nth_error h a = Some (CDeform x o) -> nth_error (fold_left (assign_sensor self) ds h) a = Some (CDeform x (Some self)).
Proof.
  revert h o. induction ds as [|d ds IH]; intros h o I H; cbn; [destruct I|]. destruct (Nat.eq_dec a d) as [->|N].
  - apply assigns_stay. unfold assign_sensor. rewrite H. apply write_same. apply nth_error_Some. congruence.
  - destruct I as [I|I]; [congruence|]. destruct (kept_assign self h d a _ H) as [K|(y & o1 & o2 & E & K)].
    + eapply IH; eauto.
    + injection E as -> ->. eapply IH; eauto.
Qed.
Lemma used_in l deform idx d : idx < length l -> dict_get deform idx = Ok d -> In d (used_deformations (Some l) deform).
Proof.
  intros L E. cbn [used_deformations]. apply in_flat_map. exists idx. split; [apply in_seq; lia|]. rewrite E. left. reflexivity.
Qed.
Lemma set_rows_ok arg h h' r : set_rows arg h = Ok (h', r) -> exists e, h' = h ++ e /\
  ((short_array h arg /\ r = length h /\ length e = 1) \/ (full_array h arg r /\ e = [])).
Proof.
  destruct arg as [|a|]; cbn; intros H; try discriminate.
  - injection H as <- <-. eexists. split; [reflexivity|]. left. split; [left; reflexivity|]. auto.
  - destruct (nth_error h a) as [[l| | | | | | |]|] eqn:E; try discriminate.
    destruct l as [|x1 [|x2 [|x3 [|x4 [|x5 [|x6 [|]]]]]]]; try discriminate; injection H as <- <-.
    + eexists. split; [reflexivity|]. left. split; [right; exists a; eexists; split; [reflexivity|split; [exact E|reflexivity]]|auto].
    + exists []. rewrite app_nil_r. split; [reflexivity|]. right. split; [|reflexivity]. split; [reflexivity|]. eexists. split; [exact E|reflexivity].
Qed.
Lemma set_sensor_rows_ok arg h r : set_sensor_rows arg h = Ok r -> full_array h arg r.
Proof.
  destruct arg as [|a|]; cbn; intros H; try discriminate. destruct (nth_error h a) as [[l| | | | | | |]|] eqn:E; try discriminate.
  destruct l as [|x1 [|x2 [|x3 [|x4 [|x5 [|x6 [|]]]]]]]; try discriminate. injection H as <-. split; [reflexivity|]. eexists. split; [exact E|reflexivity].
Qed.
Lemma set_offset_ok arg h h' r : set_offset arg h = Ok (h', r) -> exists e, h' = h ++ e /\
  (((exists x, arg = OffsetNumber x) /\ r = length h /\ length e = 1) \/ (arg = OffsetRef r /\ e = [])).
Proof.
  destruct arg as [x|a|]; cbn; intros H; try discriminate.
  - injection H as <- <-. eexists. split; [reflexivity|]. left. eauto.
  - destruct (nth_error h a) as [[[|x1 [|x2 [|x3 [|]]]]| | | | | | |]|]; try discriminate. injection H as <- <-. exists []. rewrite app_nil_r. auto.
Qed.
Lemma set_barriers_ok arg h h' r : set_barriers arg h = Ok (h', r) -> exists e, h' = h ++ e /\
  (((exists b, arg = OneBarrier b) /\ r = (length h, S (length h)) /\ length e = 2) \/ (arg = TwoBarriers (fst r) (snd r) /\ e = [])).
Proof.
  destruct arg as [b|b1 b2|]; cbn; intros H; try discriminate.
  - destruct (get_barrier h b) as [c|]; [|discriminate]. cbn in H. injection H as <- <-. eexists. split; [reflexivity|]. left. eauto.
  - destruct (get_barrier h b1); [|discriminate]. destruct (get_barrier h b2); [|discriminate]. cbn in H. injection H as <- <-.
    exists []. rewrite app_nil_r. auto.
Qed.
Lemma set_rise_ok arg h r : set_rise arg h = Ok r -> r = arg.
Proof. destruct arg as [a|]; cbn; intros H; [|congruence]. destruct (nth_error h a) as [[]|]; congruence. Qed.
(** arrays do not change while a sensor is built *)
Lemma nth_kept_array h h' a : kept h h' -> (a < length h) -> forall l, nth_error h' a = Some (CArray l) -> nth_error h a = Some (CArray l).
Proof.
  intros K L l H. destruct (nth_error h a) as [c|] eqn:E; [|apply nth_error_None in E; lia].
  destruct (K a c E) as [H1|(d & o & o' & -> & H1)]; congruence.
Qed.
Lemma short_old h h' arg : kept h h' -> (forall a, arg = ArrayRef a -> a < length h) -> short_array h' arg -> short_array h arg.
Proof.
  intros K X [->|(a & l & -> & H & N)]; [left; reflexivity|]. right. exists a, l. split; [reflexivity|]. split; [|exact N].
  apply (nth_kept_array h h' a K); [apply X; reflexivity|exact H].
Qed.
Lemma full_old h h' arg r : kept h h' -> (forall a, arg = ArrayRef a -> a < length h) -> full_array h' arg r -> full_array h arg r.
Proof.
  intros K X [-> (l & H & N)]. split; [reflexivity|]. exists l. split; [|exact N].
  apply (nth_kept_array h h' r K); [apply X; reflexivity|exact H].
Qed.
Lemma scan_built x h h' s : new_scan x h = Ok (h', s) -> existing h x -> s = length h /\ length h < length h' /\ exists f,
  nth_error h' s = Some (CScan f) /\ kept h h' /\
  ((f_peaks f = None /\ a_peaks x = PeaksNone) \/
   exists e, f_peaks f = Some (seq (S (length h)) (length e)) /\ passed_peaks h (a_peaks x) = Some (map Some e) /\
     map (nth_error h') (seq (S (length h)) (length e)) = map Some e) /\
  f_deform f = a_deform x /\ f_rise f = a_rise x /\ full_array h (a_sensor x) (f_sensor f) /\
  (short_array h (a_dot x) /\ length h < f_dot f \/ full_array h (a_dot x) (f_dot f)) /\
  (short_array h (a_gate x) /\ length h < f_gate f \/ full_array h (a_gate x) (f_gate f)) /\
  ((exists v, a_offset x = OffsetNumber v) /\ length h < f_offset f \/ a_offset x = OffsetRef (f_offset f)) /\
  ((exists b, a_barriers x = OneBarrier b) /\ length h < fst (f_barriers f) /\ length h < snd (f_barriers f) \/
   a_barriers x = TwoBarriers (fst (f_barriers f)) (snd (f_barriers f))) /\
  (forall idx d y o, idx < number_of_peaks (a_peaks x) -> dict_get (a_deform x) idx = Ok d -> nth_error h d = Some (CDeform y o) ->
     nth_error h' d = Some (CDeform y (Some s))).
Proof.
  intros H (X1 & X2 & X3 & X4 & X5 & X6 & X7 & X8). unfold new_scan in H.
  destruct (set_peaks (a_peaks x) (h ++ [CBlank])) as [[hp p]|] eqn:E1; [|discriminate]. cbn [bind fst snd] in H.
  destruct (set_rise (a_rise x) hp) as [r|] eqn:E2; [|discriminate]. cbn [bind] in H. apply set_rise_ok in E2.
  set (ds := used_deformations p (a_deform x)) in *. set (h1 := fold_left (assign_sensor (length h)) ds hp) in *.
  destruct (set_rows (a_dot x) h1) as [[hd d]|] eqn:E3; [|discriminate]. cbn [bind fst snd] in H.
  destruct (set_rows (a_gate x) hd) as [[hg g]|] eqn:E4; [|discriminate]. cbn [bind fst snd] in H.
  destruct (set_sensor_rows (a_sensor x) hg) as [sr|] eqn:E5; [|discriminate]. cbn [bind fst snd] in H. apply set_sensor_rows_ok in E5.
  destruct (set_offset (a_offset x) hg) as [[ho o]|] eqn:E6; [|discriminate]. cbn [bind fst snd] in H.
  destruct (set_barriers (a_barriers x) ho) as [[hb b]|] eqn:E7; [|discriminate]. cbn [bind fst snd] in H. injection H as <- <-.
  destruct (set_peaks_ok _ _ _ _ E1) as (e & -> & Hp). destruct (set_rows_ok _ _ _ _ E3) as (e2 & -> & Hd).
  destruct (set_rows_ok _ _ _ _ E4) as (e3 & -> & Hg). destruct (set_offset_ok _ _ _ _ E6) as (e4 & -> & Ho).
  destruct (set_barriers_ok _ _ _ _ E7) as (e5 & -> & Hb). clear E1 E3 E4 E6 E7.
  assert (L1 : length h1 = S (length h) + length e) by (unfold h1; rewrite assigns_length, !app_length; cbn; lia).
  assert (K1 : kept (h ++ [CBlank]) h1) by (eapply kept_trans; [apply kept_app|apply assigns_kept]).
  assert (K0 : kept h h1) by (eapply kept_trans; [apply kept_app|exact K1]).
  assert (K2 : kept h (h1 ++ e2)) by (eapply kept_trans; [exact K0|apply kept_app]).
  assert (K3 : kept h ((h1 ++ e2) ++ e3)) by (eapply kept_trans; [exact K2|apply kept_app]).
  set (hb := (((h1 ++ e2) ++ e3) ++ e4) ++ e5) in *.
  assert (K4 : kept h1 hb) by (unfold hb; rewrite <- !app_assoc; apply kept_app).
  assert (Lb : length hb = S (length h) + length e + length e2 + length e3 + length e4 + length e5) by (unfold hb; rewrite !app_length; lia).
  set (f := mk_scan_fields p (a_deform x) r d g sr o b).
  assert (W : forall a, a <> length h -> nth_error (write hb (length h) (CScan f)) a = nth_error hb a) by (intros a N; apply write_other; congruence).
  split; [reflexivity|]. split; [rewrite write_length; lia|]. exists f. cbn [f_peaks f_deform f_rise f_sensor f_dot f_gate f_offset f_barriers f].
  split; [apply write_same; lia|].
  split.
  { intros a c Ha. assert (a < length h) by (apply nth_error_Some; congruence). rewrite W by lia.
    apply (kept_trans h h1 hb K0 K4 a c Ha). }
  assert (PX : peaks_exist h (a_peaks x)) by (split; assumption).
  split.
  { destruct Hp as [(-> & _ & ->)|(-> & Hp & Fp)]; [left; auto|]. right. exists e. rewrite app_length. cbn [length]. rewrite Nat.add_1_r.
    split; [reflexivity|]. rewrite passed_old in Hp by exact PX. split; [exact Hp|].
    rewrite <- (nth_news (h ++ [CBlank]) e). rewrite app_length. cbn [length]. rewrite Nat.add_1_r. apply map_ext_in. intros a I. apply in_seq in I.
    rewrite W by lia. destruct (nth_error ((h ++ [CBlank]) ++ e) a) as [c|] eqn:E.
    - assert (Kp : kept ((h ++ [CBlank]) ++ e) hb) by (eapply kept_trans; [apply assigns_kept|exact K4]).
      destruct (Kp a c E) as [K|(y & o1 & o2 & -> & _)]; [exact K|]. exfalso.
      rewrite nth_error_app2 in E by (rewrite app_length; cbn; lia).
      apply nth_error_In in E. rewrite Forall_forall in Fp. destruct (Fp _ E). discriminate.
    - apply nth_error_None in E. rewrite !app_length in E. cbn in E. lia. }
  split; [reflexivity|]. split; [exact E2|].
  split; [apply (full_old h _ _ _ K3); [intros a Ea; apply X1; auto|exact E5]|].
  split.
  { destruct Hd as [(Hs & -> & _)|(Hf & _)].
    - left. split; [apply (short_old h _ _ K0); [intros a Ea; apply X1; auto|exact Hs]|lia].
    - right. apply (full_old h _ _ _ K0); [intros a Ea; apply X1; auto|exact Hf]. }
  split.
  { destruct Hg as [(Hs & -> & _)|(Hf & _)].
    - left. split; [apply (short_old h _ _ K2); [intros a Ea; apply X1; auto|exact Hs]|rewrite app_length; lia].
    - right. apply (full_old h _ _ _ K2); [intros a Ea; apply X1; auto|exact Hf]. }
  split.
  { destruct Ho as [(Hs & -> & _)|(Hf & _)]; [left|right; exact Hf]. split; [exact Hs|rewrite !app_length; lia]. }
  split.
  { destruct Hb as [(Hs & -> & _)|(Hf & _)]; [left|right; exact Hf]. split; [exact Hs|]. cbn [fst snd]. rewrite !app_length. lia. }
  intros idx d0 y o0 Li Ed Hn. assert (Ln : d0 < length h) by (apply nth_error_Some; congruence). rewrite W by lia.
  assert (I : In d0 ds).
  { unfold ds. destruct Hp as [(_ & _ & Ea)|(-> & Hp & _)]; [rewrite Ea in Li; cbn in Li; lia|].
    rewrite (passed_length _ _ _ Hp) in Li. apply (used_in _ _ idx); [rewrite seq_length; exact Li|exact Ed]. }
  assert (N1 : nth_error h1 d0 = Some (CDeform y (Some (length h)))) by (apply (assigns_done _ _ _ _ _ o0); [exact I|apply nth_old, nth_old, Hn]).
  unfold hb. rewrite <- !app_assoc. apply nth_old. exact N1.
Qed.

Lemma kept_scan h h' s f : kept h h' -> nth_error h s = Some (CScan f) -> nth_error h' s = Some (CScan f).
Proof. intros K H. destruct (K s _ H) as [E|(d & o & o' & E & _)]; [exact E|discriminate]. Qed.
Lemma scan_peaks_independent x h h' s h2 : new_scan x h = Ok (h', s) -> existing h x -> only_older_changed (length h) h' h2 ->
  scan_peaks h2 s = Some (passed_peaks h (a_peaks x)).
Proof.
  intros H X O. destruct (scan_built _ _ _ _ H X) as (-> & L & f & Ef & _ & Hp & _).
  unfold scan_peaks. rewrite O, Ef by lia. destruct Hp as [(-> & ->)|(e & -> & Hp & Hn)]; [reflexivity|].
  cbn [option_map]. rewrite Hp, <- Hn. do 2 f_equal. apply map_ext_in. intros a I. apply in_seq in I. apply O. lia.
Qed.
Lemma short_not_full h arg a : short_array h arg -> full_array h arg a -> False.
Proof. intros [->|(b & l & -> & E & L)] (Ea & l2 & E2 & L2); [discriminate|]. injection Ea as <-. congruence. Qed.
Lemma scan_copied x h h' s h2 : new_scan x h = Ok (h', s) -> existing h x -> only_older_changed (length h) h' h2 ->
  (short_array h (a_dot x) -> scan_content h2 s f_dot = scan_content h' s f_dot) /\
  (short_array h (a_gate x) -> scan_content h2 s f_gate = scan_content h' s f_gate) /\
  (forall v, a_offset x = OffsetNumber v -> scan_content h2 s f_offset = scan_content h' s f_offset) /\
  (forall b, a_barriers x = OneBarrier b ->
     scan_content h2 s (fun f => fst (f_barriers f)) = scan_content h' s (fun f => fst (f_barriers f)) /\
     scan_content h2 s (fun f => snd (f_barriers f)) = scan_content h' s (fun f => snd (f_barriers f))).
Proof.
  intros H X O. destruct (scan_built _ _ _ _ H X) as (-> & L & f & Ef & _ & _ & _ & _ & _ & Hd & Hg & Ho & Hb & _).
  unfold scan_content. rewrite !O, !Ef by lia. split; [|split; [|split]].
  - intros Hs. destruct Hd as [(_ & Hd)|Hd]; [apply O; lia|destruct (short_not_full _ _ _ Hs Hd)].
  - intros Hs. destruct Hg as [(_ & Hg)|Hg]; [apply O; lia|destruct (short_not_full _ _ _ Hs Hg)].
  - intros v Hv. destruct Ho as [(_ & Ho)|Ho]; [apply O; lia|congruence].
  - intros b Hv. destruct Hb as [(_ & Hb1 & Hb2)|Hb]; [split; apply O; lia|congruence].
Qed.
Lemma written h' s f attr a c : nth_error h' s = Some (CScan f) -> attr f = a -> a < length h' -> a <> s ->
  scan_content (write h' a c) s attr = Some c.
Proof. intros E Ea L N. unfold scan_content. rewrite write_other by exact N. rewrite E, Ea. apply write_same. exact L. Qed.
Lemma scan_shared x h h' s a c : new_scan x h = Ok (h', s) -> existing h x ->
  (a_sensor x = ArrayRef a -> scan_content (write h' a c) s f_sensor = Some c) /\
  (full_array h (a_dot x) a -> scan_content (write h' a c) s f_dot = Some c) /\
  (full_array h (a_gate x) a -> scan_content (write h' a c) s f_gate = Some c) /\
  (a_offset x = OffsetRef a -> scan_content (write h' a c) s f_offset = Some c) /\
  (a_rise x = Some a -> scan_rise (write h' a c) s = Some (Some c)) /\
  (forall b, a_barriers x = TwoBarriers a b -> scan_content (write h' a c) s (fun f => fst (f_barriers f)) = Some c) /\
  (forall b, a_barriers x = TwoBarriers b a -> scan_content (write h' a c) s (fun f => snd (f_barriers f)) = Some c).
Proof.
  intros H X. destruct (scan_built _ _ _ _ H X) as (-> & L & f & Ef & _ & _ & _ & Hr & Hs & Hd & Hg & Ho & Hb & _).
  destruct X as (X1 & X2 & X3 & X4 & X5 & _).
  assert (W : forall attr, attr f = a -> a < length h -> scan_content (write h' a c) (length h) attr = Some c) by (intros attr E La; apply (written _ _ f); auto; lia).
  split; [|split; [|split; [|split; [|split; [|split]]]]].
  - intros E. apply W; [|apply X1; auto]. destruct Hs as [Es _]. congruence.
  - intros F. apply W; [|apply X1; destruct F; auto]. destruct Hd as [(Hd & _)|[Ed _]]; [destruct (short_not_full _ _ _ Hd F)|]. destruct F. congruence.
  - intros F. apply W; [|apply X1; destruct F; auto]. destruct Hg as [(Hg & _)|[Eg _]]; [destruct (short_not_full _ _ _ Hg F)|]. destruct F. congruence.
  - intros E. apply W; [|auto]. destruct Ho as [((v & Ho) & _)|Ho]; congruence.
  - intros E. assert (La : a < length h) by auto. unfold scan_rise. rewrite write_other by lia. rewrite Ef, Hr, E. rewrite write_same by lia. reflexivity.
  - intros b E. destruct (X5 _ _ E). apply (W (fun f => fst (f_barriers f))); [|assumption]. destruct Hb as [((v & Hb) & _)|Hb]; congruence.
  - intros b E. destruct (X5 _ _ E). apply (W (fun f => snd (f_barriers f))); [|assumption]. destruct Hb as [((v & Hb) & _)|Hb]; congruence.
Qed.
(** two sensors made with the same lever-arms *)
Lemma existing_grows h h' x : existing h x -> length h < length h' -> existing h' x.
Proof.
  intros (X1 & X2 & X3 & X4 & X5 & X6 & X7 & X8) L. repeat split; intros.
  - specialize (X1 _ H). lia.
  - specialize (X2 _ H). lia.
  - specialize (X3 _ H). lia.
  - specialize (X4 _ H). lia.
  - specialize (X5 _ _ H). lia.
  - specialize (X5 _ _ H). lia.
  - specialize (X6 _ H). lia.
  - specialize (X7 _ H). eapply Forall_impl; [|exact X7]. cbn. intros. lia.
  - specialize (X8 _ _ H). lia.
Qed.
Lemma scan_two x y h h1 s1 h2 s2 a c : new_scan x h = Ok (h1, s1) -> new_scan y h1 = Ok (h2, s2) -> existing h x -> existing h y ->
  let both attribute := scan_content (write h2 a c) s1 attribute = Some c /\ scan_content (write h2 a c) s2 attribute = Some c in
  s1 <> s2 /\ (a_sensor x = ArrayRef a -> a_sensor y = ArrayRef a -> both f_sensor) /\ (full_array h (a_dot x) a -> full_array h (a_dot y) a -> both f_dot) /\
  (full_array h (a_gate x) a -> full_array h (a_gate y) a -> both f_gate) /\ (a_offset x = OffsetRef a -> a_offset y = OffsetRef a -> both f_offset).
Proof.
  intros H1 H2 X Y both. destruct (scan_built _ _ _ _ H1 X) as (-> & L & f & Ef & K1 & _ & _ & _ & Hs & Hd & Hg & Ho & _).
  assert (Y' : existing h1 y) by (apply (existing_grows h h1 y Y L)).
  destruct (scan_shared _ _ _ _ a c H2 Y') as (S1 & S2 & S3 & S4 & _).
  destruct (scan_built _ _ _ _ H2 Y') as (-> & L2 & f2 & Ef2 & K & _).
  pose proof (kept_scan _ _ _ _ K Ef) as E1.
  assert (F : forall arg, full_array h arg a -> full_array h1 arg a).
  { intros arg (Ea & l & El & Ll). split; [exact Ea|]. exists l. split; [|exact Ll]. destruct (K1 _ _ El) as [E|(? & ? & ? & E & _)]; [exact E|discriminate]. }
  destruct X as (X1 & X2 & _).
  split; [lia|]. split; [|split; [|split]].
  - intros Ex Ey. split; [|auto]. assert (a < length h) by auto. apply (written _ _ f); [exact E1|destruct Hs; congruence|lia|lia].
  - intros Fx Fy. split; [|auto]. assert (a < length h) by (destruct Fx; auto). apply (written _ _ f); [exact E1| |lia|lia].
    destruct Hd as [(Hd & _)|[Ed _]]; [destruct (short_not_full _ _ _ Hd Fx)|]. destruct Fx. congruence.
  - intros Fx Fy. split; [|auto]. assert (a < length h) by (destruct Fx; auto). apply (written _ _ f); [exact E1| |lia|lia].
    destruct Hg as [(Hg & _)|[Eg _]]; [destruct (short_not_full _ _ _ Hg Fx)|]. destruct Fx. congruence.
  - intros Ex Ey. split; [|auto]. assert (a < length h) by auto. apply (written _ _ f); [exact E1| |lia|lia].
    destruct Ho as [((v & Ho) & _)|Ho]; congruence.
Qed.
(** a deformation used for two sensors *)
Lemma row_of x h h' s : new_scan x h = Ok (h', s) -> existing h x -> exists a l, a_sensor x = ArrayRef a /\ nth_error h a = Some (CArray l) /\ length l = 6 /\ nth_error h' a = Some (CArray l) /\
  exists f, nth_error h' s = Some (CScan f) /\ f_sensor f = a.
Proof.
  intros H X. destruct (scan_built _ _ _ _ H X) as (-> & L & f & Ef & K & _ & _ & _ & (Es & l & El & Ll) & _).
  exists (f_sensor f), l. repeat split; auto. 2: eauto. destruct (K _ _ El) as [E|(d & o & o' & E & _)]; [exact E|discriminate].
Qed.
Lemma deformation_last x h h' s a l d y o idx dist m : new_scan x h = Ok (h', s) -> existing h x ->
  a_sensor x = ArrayRef a -> nth_error h a = Some (CArray l) -> nth_error h d = Some (CDeform y o) ->
  idx < number_of_peaks (a_peaks x) -> dict_get (a_deform x) idx = Ok d ->
  scan_deformation h' s idx = Some d /\
  calc_mu h' d dist m = Ok (match y with Linear angle => linear_calc_mu (nth 0 l 0%R, nth 1 l 0%R) angle dist m
                            | Circle radius => circle_calc_mu (nth 0 l 0%R, nth 1 l 0%R) radius dist m end).
Proof.
  intros H X Ea El Ed Li Eg. destruct (row_of _ _ _ _ H X) as (a' & l' & Ea' & El' & Ll & En & f' & Ef' & Es').
  assert (a' = a) by congruence. subst a'. assert (l' = l) by congruence. subst l'.
  destruct (scan_built _ _ _ _ H X) as (-> & L & f & Ef & K & _ & Hdf & _ & _ & _ & _ & _ & _ & HD).
  assert (f' = f) by congruence. subst f'.
  split; [unfold scan_deformation; rewrite Ef, Hdf, Eg; reflexivity|].
  unfold calc_mu. rewrite (HD _ _ _ _ Li Eg Ed). unfold sensor_row. rewrite Ef, En.
  destruct l as [|u [|v l]]; try discriminate Ll. reflexivity.
Qed.
Lemma deformation_taken x y h h1 s1 h2 s2 a b la lb d df o i j dist m : new_scan x h = Ok (h1, s1) -> new_scan y h1 = Ok (h2, s2) ->
  existing h x -> existing h y -> a_sensor x = ArrayRef a -> nth_error h a = Some (CArray la) -> a_sensor y = ArrayRef b -> nth_error h b = Some (CArray lb) ->
  nth_error h d = Some (CDeform df o) ->
  i < number_of_peaks (a_peaks x) -> dict_get (a_deform x) i = Ok d -> j < number_of_peaks (a_peaks y) -> dict_get (a_deform y) j = Ok d ->
  let mu l := Ok (match df with Linear angle => linear_calc_mu (nth 0 l 0%R, nth 1 l 0%R) angle dist m
                  | Circle radius => circle_calc_mu (nth 0 l 0%R, nth 1 l 0%R) radius dist m end) in
  scan_deformation h1 s1 i = Some d /\ calc_mu h1 d dist m = mu la /\
  scan_content h2 s1 f_sensor = Some (CArray la) /\ scan_deformation h2 s1 i = Some d /\ calc_mu h2 d dist m = mu lb.
Proof.
  intros H1 H2 X Y Ea Ela Eb Elb Ed Li Ei Lj Ej mu.
  destruct (deformation_last _ _ _ _ _ _ _ _ _ _ dist m H1 X Ea Ela Ed Li Ei) as [A1 A2].
  destruct (row_of _ _ _ _ H1 X) as (a' & l' & Ea' & El' & Ll & En & f & Ef & Es). subst a'. assert (f_sensor f = a) by congruence. assert (l' = la) by congruence. subst l'.
  destruct (scan_built _ _ _ _ H1 X) as (-> & L & f' & Ef' & K & _). assert (f' = f) by congruence. subst f'.
  assert (Y' : existing h1 y) by (apply (existing_grows h h1 y Y L)).
  assert (Elb1 : nth_error h1 b = Some (CArray lb)) by (destruct (K _ _ Elb) as [E|(? & ? & ? & E & _)]; [exact E|discriminate]).
  assert (Ed1 : exists o1, nth_error h1 d = Some (CDeform df o1)) by (destruct (K _ _ Ed) as [E|(d' & o1 & o2 & E & E2)]; [eauto|injection E as -> ->; eauto]).
  destruct Ed1 as [o1 Ed1].
  destruct (deformation_last _ _ _ _ _ _ _ _ _ _ dist m H2 Y' Eb Elb1 Ed1 Lj Ej) as [B1 B2].
  destruct (scan_built _ _ _ _ H2 Y') as (-> & L2 & f2 & Ef2 & K2 & _).
  pose proof (kept_scan _ _ _ _ K2 Ef) as Ef3.
  split; [exact A1|]. split; [exact A2|]. split; [|split; [|exact B2]].
  - unfold scan_content. rewrite Ef3. destruct (K2 _ _ En) as [E|(? & ? & ? & E & _)]; [exact E|discriminate].
  - unfold scan_deformation in *. rewrite Ef3. rewrite Ef in A1. exact A1.
Qed.

(** ** The contents of a new sensor *)
Definition firm (c : cell) : Prop := forall d o, c <> CDeform d o.
Lemma kept_firm h h' a c : kept h h' -> nth_error h a = Some c -> firm c -> nth_error h' a = Some c.
Proof. intros K H F. destruct (K a c H) as [E|(d & o & o' & -> & _)]; [exact E|destruct (F d o eq_refl)]. Qed.
Lemma kept_back h h' a c : kept h h' -> a < length h -> nth_error h' a = Some c -> firm c -> nth_error h a = Some c.
Proof.
  intros K L H F. destruct (nth_error h a) as [c0|] eqn:E; [|apply nth_error_None in E; lia].
  destruct (K a c0 E) as [E2|(d & o & o' & -> & E2)]; [congruence|]. rewrite H in E2. injection E2 as ->. destruct (F d o' eq_refl).
Qed.
Lemma firm_array l : firm (CArray l). Proof. intros d o E. discriminate. Qed.
Lemma firm_barrier l : firm (CBarrier l). Proof. intros d o E. discriminate. Qed.
Lemma firm_rise l : firm (CRise l). Proof. intros d o E. discriminate. Qed.
Local Hint Resolve firm_array firm_barrier firm_rise : core.
Lemma rows_value arg h h1 hd d : set_rows arg h1 = Ok (hd, d) -> (forall a, arg = ArrayRef a -> a < length h) -> kept h h1 -> length h < length h1 ->
  d <> length h /\ exists c, nth_error hd d = Some c /\ firm c /\ held_rows h arg = Some c.
Proof.
  destruct arg as [|a|]; cbn [set_rows]; intros H X K L; try discriminate.
  - injection H as <- <-. split; [lia|]. eexists. split; [apply nth_new|split; [auto|reflexivity]].
  - specialize (X a eq_refl). destruct (nth_error h1 a) as [[l| | | | | | |]|] eqn:E; try discriminate.
    pose proof (kept_back _ _ _ _ K X E (firm_array l)) as E2. unfold held_rows. rewrite E2.
    destruct l as [|x1 [|x2 [|x3 [|x4 [|x5 [|x6 [|]]]]]]]; try discriminate; injection H as <- <-.
    + split; [lia|]. eexists. split; [apply nth_new|split; [auto|reflexivity]].
    + split; [lia|]. eexists. split; [exact E|split; [auto|reflexivity]].
Qed.
Lemma scan_holds x h h' s : new_scan x h = Ok (h', s) -> existing h x ->
  scan_content h' s f_dot = held_rows h (a_dot x) /\ scan_content h' s f_gate = held_rows h (a_gate x) /\ scan_content h' s f_sensor = held_rows h (a_sensor x) /\
  scan_content h' s f_offset = held_offset h (a_offset x) /\
  (scan_content h' s (fun f => fst (f_barriers f)), scan_content h' s (fun f => snd (f_barriers f))) = held_barriers h (a_barriers x) /\
  scan_rise h' s = Some (match a_rise x with Some a => nth_error h a | None => None end).
Proof.
  intros H (X1 & X2 & X3 & X4 & X5 & X6 & X7 & X8). unfold new_scan in H.
  destruct (set_peaks (a_peaks x) (h ++ [CBlank])) as [[hp p]|] eqn:E1; [|discriminate]. cbn [bind fst snd] in H.
  destruct (set_rise (a_rise x) hp) as [r|] eqn:E2; [|discriminate]. cbn [bind] in H.
  set (ds := used_deformations p (a_deform x)) in *. set (h1 := fold_left (assign_sensor (length h)) ds hp) in *.
  destruct (set_rows (a_dot x) h1) as [[hd d]|] eqn:E3; [|discriminate]. cbn [bind fst snd] in H.
  destruct (set_rows (a_gate x) hd) as [[hg g]|] eqn:E4; [|discriminate]. cbn [bind fst snd] in H.
  destruct (set_sensor_rows (a_sensor x) hg) as [sr|] eqn:E5; [|discriminate]. cbn [bind fst snd] in H. apply set_sensor_rows_ok in E5.
  destruct (set_offset (a_offset x) hg) as [[ho o]|] eqn:E6; [|discriminate]. cbn [bind fst snd] in H.
  destruct (set_barriers (a_barriers x) ho) as [[hb b]|] eqn:E7; [|discriminate]. cbn [bind fst snd] in H. injection H as <- <-.
  destruct (set_peaks_ok _ _ _ _ E1) as (e & -> & _). destruct (set_rows_ok _ _ _ _ E3) as (e2 & -> & _).
  destruct (set_rows_ok _ _ _ _ E4) as (e3 & -> & _). destruct (set_offset_ok _ _ _ _ E6) as (e4 & -> & _).
  destruct (set_barriers_ok _ _ _ _ E7) as (e5 & -> & _).
  assert (L1 : length h1 = S (length h) + length e) by (unfold h1; rewrite assigns_length, !app_length; cbn; lia).
  assert (Kp : kept h ((h ++ [CBlank]) ++ e)) by (rewrite <- app_assoc; apply kept_app).
  assert (K0 : kept h h1) by (eapply kept_trans; [exact Kp|apply assigns_kept]).
  assert (K2 : kept h (h1 ++ e2)) by (eapply kept_trans; [exact K0|apply kept_app]).
  assert (K3 : kept h ((h1 ++ e2) ++ e3)) by (eapply kept_trans; [exact K2|apply kept_app]).
  assert (K4 : kept h (((h1 ++ e2) ++ e3) ++ e4)) by (eapply kept_trans; [exact K3|apply kept_app]).
  set (hb := (((h1 ++ e2) ++ e3) ++ e4) ++ e5) in *.
  assert (Kb : kept h hb) by (unfold hb; eapply kept_trans; [exact K4|apply kept_app]).
  assert (J2 : kept (h1 ++ e2) hb) by (unfold hb; rewrite <- !app_assoc, (app_assoc h1 e2); apply kept_app).
  assert (J3 : kept ((h1 ++ e2) ++ e3) hb) by (unfold hb; rewrite <- (app_assoc _ e4 e5); apply kept_app).
  assert (J4 : kept (((h1 ++ e2) ++ e3) ++ e4) hb) by (apply kept_app).
  assert (Lb : length h < length hb) by (unfold hb; rewrite !app_length; lia).
  set (f := mk_scan_fields p (a_deform x) r d g sr o b).
  assert (W : forall a, a <> length h -> nth_error (write hb (length h) (CScan f)) a = nth_error hb a) by (intros a N; apply write_other; congruence).
  assert (C : forall attr, attr f <> length h -> scan_content (write hb (length h) (CScan f)) (length h) attr = nth_error hb (attr f)).
  { intros attr N. unfold scan_content. rewrite write_same by lia. apply W. exact N. }
  split.
  { destruct (rows_value _ h _ _ _ E3) as (N & c & Ec & F & ->); [intros a Ea; apply X1; auto|exact K0|lia|]. rewrite C by exact N. exact (kept_firm _ _ _ _ J2 Ec F). }
  split.
  { destruct (rows_value _ h _ _ _ E4) as (N & c & Ec & F & ->); [intros a Ea; apply X1; auto|exact K2|rewrite app_length; lia|]. rewrite C by exact N. exact (kept_firm _ _ _ _ J3 Ec F). }
  split.
  { destruct E5 as (Ea & l & El & Ll). assert (La : sr < length h) by (apply X1; auto). rewrite C by (cbn; lia). cbn [f_sensor f].
    pose proof (kept_back _ _ _ _ K3 La El (firm_array l)) as E5. rewrite Ea. unfold held_rows. rewrite E5.
    rewrite (kept_firm _ _ _ _ Kb E5 (firm_array l)). destruct l as [|? [|? [|]]]; try discriminate Ll; reflexivity. }
  split.
  { destruct (a_offset x) as [v|a|] eqn:Ea; cbn [set_offset] in E6; try discriminate.
    - injection E6 as E8 <-. apply app_inv_head in E8. subst e4. rewrite C by (cbn; rewrite !app_length; lia). cbn [f_offset f held_offset].
      apply (kept_firm _ _ _ _ J4); [apply nth_new|auto].
    - assert (La : a < length h) by auto. cbn [held_offset].
      destruct (nth_error ((h1 ++ e2) ++ e3) a) as [[l| | | | | | |]|] eqn:E; try discriminate E6.
      assert (o = a) by (destruct l as [|? [|? [|? [|]]]]; try discriminate E6; injection E6; auto). subst o.
      rewrite C by (cbn; lia). cbn [f_offset f]. pose proof (kept_back _ _ _ _ K3 La E (firm_array l)) as E8. rewrite E8. exact (kept_firm _ _ _ _ Kb E8 (firm_array l)). }
  assert (B : forall q c, q < length h -> get_barrier (((h1 ++ e2) ++ e3) ++ e4) q = Ok c -> nth_error h q = Some c /\ firm c).
  { intros q c Lq G. unfold get_barrier in G. destruct (nth_error (((h1 ++ e2) ++ e3) ++ e4) q) as [[| |l| | | | |]|] eqn:E; try discriminate G.
    injection G as <-. split; [exact (kept_back _ _ _ _ K4 Lq E (firm_barrier l))|auto]. }
  split.
  { destruct (a_barriers x) as [q|q1 q2|] eqn:Ea; cbn [set_barriers] in E7; try discriminate.
    - destruct (get_barrier _ q) as [c|] eqn:G; [|discriminate E7]. cbn [bind] in E7. injection E7 as E8 <-. apply app_inv_head in E8. subst e5.
      destruct (B q c (X4 _ eq_refl) G) as [G1 F]. cbn [held_barriers]. rewrite G1.
      rewrite !C by (cbn; rewrite !app_length; lia). cbn [f_barriers f fst snd]. unfold hb. f_equal; [apply nth_new|].
      rewrite nth_error_app2 by lia. replace (S (length (((h1 ++ e2) ++ e3) ++ e4)) - length (((h1 ++ e2) ++ e3) ++ e4)) with 1 by lia. reflexivity.
    - destruct (X5 _ _ eq_refl) as [Q1 Q2]. destruct (get_barrier _ q1) as [c1|] eqn:G1; [|discriminate E7]. cbn [bind] in E7.
      destruct (get_barrier _ q2) as [c2|] eqn:G2; [|discriminate E7]. cbn [bind] in E7. injection E7 as _ <-. cbn [held_barriers].
      destruct (B _ _ Q1 G1) as [H1 F1'], (B _ _ Q2 G2) as [H2 F2'].
      rewrite !C by (cbn; lia). cbn [f_barriers f fst snd]. rewrite H1, H2, (kept_firm _ _ _ _ Kb H1 F1'), (kept_firm _ _ _ _ Kb H2 F2'). reflexivity. }
  unfold scan_rise. rewrite write_same by lia. cbn [f_rise f]. destruct (a_rise x) as [a|] eqn:Ea; cbn [set_rise] in E2; [|injection E2 as <-; reflexivity].
  assert (La : a < length h) by auto. destruct (nth_error ((h ++ [CBlank]) ++ e) a) as [[| | |l| | | |]|] eqn:E; try discriminate E2. injection E2 as <-.
  pose proof (kept_back _ _ _ _ Kp La E (firm_rise l)) as E8. rewrite W by lia. rewrite E8, (kept_firm _ _ _ _ Kb E8 (firm_rise l)). reflexivity.
Qed.
