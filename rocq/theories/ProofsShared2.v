(** Proofs: which arguments the constructors of the sensors accept. *)
From Verif Require Import RPrelude ModelCsd ModelShared SpecShared ProofsShared.

(** A step either works, exactly when [P] holds, or raises a ValueError. *)
Definition decided {A} (P : Prop) (r : result A) : Prop := (P /\ exists v, r = Ok v) \/ (~ P /\ r = Err ValueError).
Lemma decided_iff {A} (P Q : Prop) (r : result A) : (P <-> Q) -> decided P r -> decided Q r.
Proof. unfold decided. tauto. Qed.
Lemma decided_bind {A B} P Q (r : result A) (k : A -> result B) : decided P r -> (forall v, r = Ok v -> P -> decided Q (k v)) -> decided (P /\ Q) (bind r k).
Proof.
  intros [[p [v E]]|[n E]] H.
  - destruct (H v E p) as [[q K]|[nq K]]; rewrite E; cbn [bind]; [left|right]; tauto.
  - right. rewrite E. cbn [bind]. tauto.
Qed.
Lemma decided_ok {A} (v : A) : decided True (Ok v).
Proof. left. eauto. Qed.
Lemma decided_use {A} P (r : result A) : decided P r -> ((exists v, r = Ok v) <-> P) /\ (forall e, r = Err e -> e = ValueError).
Proof. intros [[p [v E]]|[n E]]; rewrite E; split; try split; intros; try tauto; eauto; try congruence. destruct H; discriminate. Qed.

Lemma get_peak_decided h p : decided (exists s, nth_error h p = Some (CPeak s)) (get_peak h p).
Proof. unfold get_peak. destruct (nth_error h p) as [[]|] eqn:E; (left; split; eauto; fail) || (right; split; [intros [s F]; discriminate|reflexivity]). Qed.
Lemma get_peaks_decided h l : decided (Forall (fun p => exists s, nth_error h p = Some (CPeak s)) l) (mapM (get_peak h) l).
Proof.
  induction l as [|p l IH]; [left; split; [constructor|cbn; eauto]|].
  change (mapM (get_peak h) (p :: l)) with (bind (get_peak h p) (fun y => bind (mapM (get_peak h) l) (fun ys => Ok (y :: ys)))).
  eapply decided_iff; [|eapply (decided_bind _ _ _ _ (get_peak_decided h p)); intros c _ _;
    apply (decided_bind _ True _ _ IH); intros cs _ _; apply decided_ok].
  rewrite Forall_cons_iff. tauto.
Qed.
Lemma set_peaks_decided h arg : decided (good_peaks h arg) (set_peaks arg h).
Proof.
  destruct arg as [|p|l|]; cbn [set_peaks good_peaks].
  - apply decided_ok.
  - eapply decided_iff; [|eapply (decided_bind _ True _ _ (get_peaks_decided h [p])); intros; apply decided_ok].
    rewrite Forall_cons_iff. intuition. 
  - eapply decided_iff; [|eapply (decided_bind _ True _ _ (get_peaks_decided h l)); intros; apply decided_ok]. tauto.
  - right. tauto.
Qed.
Lemma set_pair_decided h arg : decided (good_pair h arg) (set_pair arg h).
Proof.
  destruct arg as [|a|]; cbn [set_pair]; [right; split; [|reflexivity]; intros (b & l & [=] & _)| |right; split; [|reflexivity]; intros (b & l & [=] & _)].
  destruct (nth_error h a) as [[l| | | | | | |]|] eqn:E; try (right; split; [|reflexivity]; intros (b & k & [= <-] & F & _); congruence).
  destruct l as [|x [|y [|z l]]]; try (right; split; [|reflexivity]; intros (b & k & [= <-] & F & L); rewrite E in F; injection F as <-; cbn in L; lia).
  left. split; [exists a, [x; y]; auto|eauto].
Qed.
Lemma set_number_decided arg : decided (exists v, arg = OffsetNumber v) (set_number arg).
Proof. destruct arg; cbn; (left; split; eauto; fail) || (right; split; [intros [v F]; discriminate|reflexivity]). Qed.
Lemma set_rows_decided h arg : decided (short_array h arg \/ exists a, full_array h arg a) (set_rows arg h).
Proof.
  destruct arg as [|a|]; cbn [set_rows].
  - left. split; [left; left; reflexivity|eauto].
  - destruct (nth_error h a) as [[l| | | | | | |]|] eqn:E;
      try (right; split; [|reflexivity]; intros [[F|(b & k & F & G & _)]|(b & F & k & G & _)]; try discriminate F; injection F as <-; congruence).
    destruct l as [|x1 [|x2 [|x3 [|x4 [|x5 [|x6 [|x7 l]]]]]]];
      try (right; split; [|reflexivity]; intros [[F|(b & k & F & G & N)]|(b & F & k & G & N)]; try discriminate F; injection F as <-; rewrite E in G; injection G as <-;
           cbn in N; lia).
    + left. split; [left; right; exists a; eexists; split; [reflexivity|]; split; [exact E|reflexivity]|eauto].
    + left. split; [right; exists a; split; [reflexivity|]; eexists; split; [exact E|reflexivity]|eauto].
  - right. split; [|reflexivity]. intros [[F|(b & k & F & _)]|(b & F & _)]; discriminate F.
Qed.
Lemma set_sensor_decided h arg : decided (exists a, full_array h arg a) (set_sensor_rows arg h).
Proof.
  destruct arg as [|a|]; cbn [set_sensor_rows]; try (right; split; [|reflexivity]; intros (b & F & _); discriminate F).
  destruct (nth_error h a) as [[l| | | | | | |]|] eqn:E; try (right; split; [|reflexivity]; intros (b & F & k & G & _); injection F as <-; congruence).
  destruct l as [|x1 [|x2 [|x3 [|x4 [|x5 [|x6 [|x7 l]]]]]]];
    try (right; split; [|reflexivity]; intros (b & F & k & G & N); injection F as <-; rewrite E in G; injection G as <-; cbn in N; lia).
  left. split; [exists a; split; [reflexivity|]; eexists; split; [exact E|reflexivity]|eauto].
Qed.
Lemma set_offset_decided h arg : decided (good_offset h arg) (set_offset arg h).
Proof.
  destruct arg as [x|a|]; cbn [set_offset good_offset]; [left; eauto| |right; tauto].
  destruct (nth_error h a) as [[l| | | | | | |]|] eqn:E; try (right; split; [|reflexivity]; intros (k & G & _); congruence).
  destruct l as [|x1 [|x2 [|x3 [|x4 l]]]]; try (right; split; [|reflexivity]; intros (k & G & N); injection G as <-; cbn in N; lia).
  left. split; eauto.
Qed.
Lemma get_barrier_decided h b : decided (exists s, nth_error h b = Some (CBarrier s)) (get_barrier h b).
Proof. unfold get_barrier. destruct (nth_error h b) as [[]|] eqn:E; (left; split; eauto; fail) || (right; split; [intros [s F]; discriminate|reflexivity]). Qed.
Lemma set_barriers_decided h arg : decided (good_barriers h arg) (set_barriers arg h).
Proof.
  destruct arg as [b|b1 b2|]; cbn [set_barriers good_barriers]; [| |right; tauto].
  - eapply decided_iff; [|eapply (decided_bind _ True _ _ (get_barrier_decided h b)); intros; apply decided_ok]. tauto.
  - eapply decided_iff; [|eapply (decided_bind _ _ _ _ (get_barrier_decided h b1)); intros c _ _;
      apply (decided_bind _ True _ _ (get_barrier_decided h b2)); intros; apply decided_ok]. tauto.
Qed.
Lemma set_rise_decided h arg : decided (forall a, arg = Some a -> exists s, nth_error h a = Some (CRise s)) (set_rise arg h).
Proof.
  destruct arg as [a|]; cbn [set_rise]; [|left; split; [discriminate|eauto]].
  destruct (nth_error h a) as [[]|] eqn:E; try (right; split; [|reflexivity]; intros F; destruct (F a eq_refl) as [s G]; congruence).
  left. split; [|eauto]. intros b [= <-]. eauto.
Qed.

(** Objects that existed before are found again while a sensor is built. *)
Lemma cell_kept h h' a c : kept h h' -> a < length h -> (forall d o, c <> CDeform d o) -> (nth_error h' a = Some c <-> nth_error h a = Some c).
Proof.
  intros K L N. destruct (nth_error h a) as [c0|] eqn:E; [|apply nth_error_None in E; lia].
  destruct (K a c0 E) as [H1|(d & o & o' & -> & H1)]; rewrite H1; [tauto|]. split; intros [= F]; exfalso; [apply (N d o'); auto|apply (N d o); auto].
Qed.
Lemma ex_iff {A} (P Q : A -> Prop) : (forall x, P x <-> Q x) -> ((exists x, P x) <-> exists x, Q x).
Proof. intros H. split; intros [x p]; exists x; apply H, p. Qed.
Lemma peaks_kept h h' arg : kept h h' -> peaks_exist h arg -> (good_peaks h' arg <-> good_peaks h arg).
Proof.
  intros K [E1 E2]. destruct arg as [|p|l|]; cbn [good_peaks]; try tauto.
  - apply ex_iff. intros s. apply cell_kept; [exact K|auto|discriminate].
  - specialize (E2 l eq_refl). rewrite !Forall_forall. rewrite Forall_forall in E2.
    split; intros F p I; destruct (F p I) as [s G]; exists s; apply (cell_kept h h'); auto; discriminate.
Qed.
Lemma short_kept h h' arg : kept h h' -> (forall a, arg = ArrayRef a -> a < length h) -> (short_array h' arg <-> short_array h arg).
Proof.
  intros K X. split; [apply short_old; auto|]. intros [->|(a & l & -> & H & N)]; [left; reflexivity|]. right. exists a, l. split; [reflexivity|]. split; [|exact N].
  apply (cell_kept h h'); auto; discriminate.
Qed.
Lemma full_kept h h' arg a : kept h h' -> (forall a, arg = ArrayRef a -> a < length h) -> (full_array h' arg a <-> full_array h arg a).
Proof.
  intros K X. split; [apply full_old; auto|]. intros [-> (l & H & N)]. split; [reflexivity|]. exists l. split; [|exact N].
  apply (cell_kept h h'); auto; discriminate.
Qed.
Lemma rows_kept h h' arg : kept h h' -> (forall a, arg = ArrayRef a -> a < length h) ->
  (short_array h' arg \/ (exists a, full_array h' arg a) <-> short_array h arg \/ exists a, full_array h arg a).
Proof.
  intros K X. rewrite (short_kept h h' arg K X). assert (E := ex_iff _ _ (fun a => full_kept h h' arg a K X)). tauto.
Qed.
Lemma offset_kept h h' arg : kept h h' -> (forall a, arg = OffsetRef a -> a < length h) -> (good_offset h' arg <-> good_offset h arg).
Proof.
  intros K X. destruct arg as [x|a|]; cbn [good_offset]; try tauto. apply ex_iff. intros l.
  rewrite (cell_kept h h' a (CArray l) K (X a eq_refl)); [tauto|discriminate].
Qed.
Lemma barriers_kept h h' arg : kept h h' -> (forall b, arg = OneBarrier b -> b < length h) ->
  (forall b1 b2, arg = TwoBarriers b1 b2 -> b1 < length h /\ b2 < length h) -> (good_barriers h' arg <-> good_barriers h arg).
Proof.
  intros K X Y. assert (B : forall b, b < length h -> ((exists s, nth_error h' b = Some (CBarrier s)) <-> exists s, nth_error h b = Some (CBarrier s))).
  { intros b L. apply ex_iff. intros s. apply cell_kept; [exact K|exact L|discriminate]. }
  destruct arg as [b|b1 b2|]; cbn [good_barriers]; [apply B; auto| |tauto]. destruct (Y b1 b2 eq_refl). rewrite !B by assumption. tauto.
Qed.
Lemma rise_kept h h' (arg : option ref) : kept h h' -> (forall a, arg = Some a -> a < length h) ->
  ((forall a, arg = Some a -> exists s, nth_error h' a = Some (CRise s)) <-> (forall a, arg = Some a -> exists s, nth_error h a = Some (CRise s))).
Proof.
  intros K X. split; intros F a E; destruct (F a E) as [s G]; exists s; apply (cell_kept h h'); auto; discriminate.
Qed.

Lemma scan_decided x h : existing h x -> decided (good_args h x) (new_scan x h).
Proof.
  intros (XA & XO & XR & XB1 & XB2 & XP1 & XP2 & _). unfold good_args.
  assert (K0 : kept h (h ++ [CBlank])) by apply kept_app. unfold new_scan.
  eapply decided_bind; [eapply decided_iff; [|apply set_peaks_decided]; apply peaks_kept; [exact K0|split; assumption]|].
  intros [h1 p] E1 _. apply set_peaks_ok in E1. destruct E1 as (e1 & -> & _). cbn [fst snd].
  assert (K1 : kept h ((h ++ [CBlank]) ++ e1)) by (eapply kept_trans; [exact K0|apply kept_app]).
  eapply decided_bind; [eapply decided_iff; [|apply set_rise_decided]; apply rise_kept; assumption|].
  intros r _ _. cbv zeta.
  set (h2 := fold_left _ _ _). assert (K2 : kept h h2) by (eapply kept_trans; [exact K1|apply assigns_kept]). clearbody h2.
  eapply decided_bind; [eapply decided_iff; [|apply set_rows_decided]; apply rows_kept; [exact K2|auto]|].
  intros [h3 d] E3 _. apply set_rows_ok in E3. destruct E3 as (e3 & -> & _). cbn [fst snd].
  assert (K3 : kept h (h2 ++ e3)) by (eapply kept_trans; [exact K2|apply kept_app]).
  eapply decided_bind; [eapply decided_iff; [|apply set_rows_decided]; apply rows_kept; [exact K3|auto]|].
  intros [h4 g] E4 _. apply set_rows_ok in E4. destruct E4 as (e4 & -> & _). cbn [fst snd].
  assert (K4 : kept h ((h2 ++ e3) ++ e4)) by (eapply kept_trans; [exact K3|apply kept_app]).
  eapply decided_bind; [eapply decided_iff; [|apply set_sensor_decided]; apply ex_iff; intros a; apply full_kept; [exact K4|auto]|].
  intros s _ _.
  eapply decided_bind; [eapply decided_iff; [|apply set_offset_decided]; apply offset_kept; [exact K4|auto]|].
  intros [h5 o] E5 _. apply set_offset_ok in E5. destruct E5 as (e5 & -> & _). cbn [fst snd].
  assert (K5 : kept h (((h2 ++ e3) ++ e4) ++ e5)) by (eapply kept_trans; [exact K4|apply kept_app]).
  eapply decided_iff; [|eapply (decided_bind _ True); [apply set_barriers_decided|intros; apply decided_ok]].
  rewrite (barriers_kept h _ _ K5 XB1 XB2). tauto.
Qed.
Lemma generic_decided peaks dot gate off h : peaks_exist h peaks -> (forall a, dot = ArrayRef a \/ gate = ArrayRef a -> a < length h) ->
  decided (good_peaks h peaks /\ good_pair h dot /\ good_pair h gate /\ exists v, off = OffsetNumber v) (new_generic peaks dot gate off h).
Proof.
  intros XP XA. assert (K0 : kept h (h ++ [CBlank])) by apply kept_app. unfold new_generic.
  assert (PK : forall h' arg, kept h h' -> (forall a, arg = ArrayRef a -> a < length h) -> (good_pair h' arg <-> good_pair h arg)).
  { intros h' arg K X. unfold good_pair. apply ex_iff. intros a. apply ex_iff. intros l. split; intros (-> & H & N); (split; [reflexivity|]; split; [|exact N]);
      apply (cell_kept h h'); auto; discriminate. }
  eapply decided_bind; [eapply decided_iff; [|apply set_peaks_decided]; apply peaks_kept; [exact K0|assumption]|].
  intros [h1 p] E1 _. apply set_peaks_ok in E1. destruct E1 as (e1 & -> & _). cbn [fst snd].
  assert (K1 : kept h ((h ++ [CBlank]) ++ e1)) by (eapply kept_trans; [exact K0|apply kept_app]).
  eapply decided_bind; [eapply decided_iff; [|apply set_pair_decided]; apply PK; [exact K1|auto]|].
  intros [h2 d] E2 _. apply set_pair_ok in E2. destruct E2 as (c & a & -> & _). cbn [fst snd].
  assert (K2 : kept h (((h ++ [CBlank]) ++ e1) ++ [c])) by (eapply kept_trans; [exact K1|apply kept_app]).
  eapply decided_bind; [eapply decided_iff; [|apply set_pair_decided]; apply PK; [exact K2|auto]|].
  intros [h3 g] _ _. cbn [fst snd].
  eapply decided_iff; [|eapply (decided_bind _ True); [apply set_number_decided|intros; apply decided_ok]]. tauto.
Qed.
Lemma scan_accepted x h : existing h x -> ((exists r, new_scan x h = Ok r) <-> good_args h x) /\ (forall e, new_scan x h = Err e -> e = ValueError).
Proof. intros X. apply decided_use, scan_decided, X. Qed.
Lemma generic_accepted peaks dot gate off h : peaks_exist h peaks -> (forall a, dot = ArrayRef a \/ gate = ArrayRef a -> a < length h) ->
  ((exists r, new_generic peaks dot gate off h = Ok r) <-> good_peaks h peaks /\ good_pair h dot /\ good_pair h gate /\ exists v, off = OffsetNumber v) /\
  (forall e, new_generic peaks dot gate off h = Err e -> e = ValueError).
Proof. intros XP XA. apply decided_use, generic_decided; assumption. Qed.
