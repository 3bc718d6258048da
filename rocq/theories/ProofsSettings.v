(** Lemmas about the setters of Simulation. *)
From Verif Require Import RPrelude ModelSettings SpecSettings.

Definition valid_ref (h : heap) (v : pyval) : Prop := forall a, v = PRef a -> a < length h.

Lemma flat_content_app h e v : valid_ref h v -> flat_content (h ++ e) v = flat_content h v.
Proof.
  intros H. destruct v as [|x|a]; auto. cbn. rewrite nth_error_app1 by (apply H; reflexivity). reflexivity.
Qed.
Lemma reachable_self h a : reachable h (PRef a) a.
Proof. left. reflexivity. Qed.
Lemma contents_app h e v : (forall a, reachable h v a -> a < length h) -> contents (h ++ e) v = contents h v.
Proof.
  intros H. destruct v as [|x|a]; auto. assert (Ha : a < length h) by (apply H, reachable_self).
  cbn [contents]. rewrite nth_error_app1 by exact Ha. destruct (nth_error h a) as [[l|l|i s]|] eqn:E.
  - apply flat_content_app. intros b Eb. injection Eb as <-. exact Ha.
  - f_equal. apply map_ext_in. intros v Hv. apply flat_content_app. intros b ->. apply H. right. eauto.
  - apply flat_content_app. intros b Eb. injection Eb as <-. exact Ha.
  - apply flat_content_app. intros b Eb. injection Eb as <-. exact Ha.
Qed.
Lemma reachable_app h e v a : (forall b, v = PRef b -> b < length h) -> reachable (h ++ e) v a -> reachable h v a.
Proof.
  intros H [->|(b & l & -> & E & I)]; [left; reflexivity|]. right. exists b, l. split; auto. split; auto.
  rewrite nth_error_app1 in E; auto.
Qed.

Lemma copy_flat_ok h v h1 v1 : valid_ref h v -> copy_flat h v = (h1, v1) ->
  exists e, h1 = h ++ e /\ flat_content h1 v1 = flat_content h v /\ forall a, v1 = PRef a -> length h <= a < length h1.
Proof.
  intros H E. unfold copy_flat in E. destruct v as [|x|a]; cbn [lookup] in E.
  - injection E as <- <-. exists []. rewrite app_nil_r. repeat split; intros; discriminate.
  - injection E as <- <-. exists []. rewrite app_nil_r. repeat split; intros; discriminate.
  - destruct (nth_error h a) as [c|] eqn:Ea.
    + injection E as <- <-. exists [c]. split; auto. split.
      * cbn. rewrite nth_error_app2, Nat.sub_diag, Ea by lia. reflexivity.
      * intros b Eb. injection Eb as <-. rewrite app_length. cbn. lia.
    + apply nth_error_None in Ea. specialize (H a eq_refl). lia.
Qed.
Lemma copy_elements_ok l : forall h h1 l1, (forall v, In v l -> valid_ref h v) -> copy_elements h l = (h1, l1) ->
  exists e, h1 = h ++ e /\ map (flat_content h1) l1 = map (flat_content h) l /\
    forall a, In (PRef a) l1 -> length h <= a < length h1.
Proof.
  induction l as [|v t IH]; intros h h1 l1 Hv E; cbn [copy_elements] in E.
  - injection E as <- <-. exists []. rewrite app_nil_r. repeat split; auto; intros; contradiction.
  - destruct (copy_flat h v) as [h2 v2] eqn:E1. destruct (copy_elements h2 t) as [h3 t3] eqn:E2. injection E as <- <-.
    apply copy_flat_ok in E1; [|apply Hv; left; reflexivity]. destruct E1 as (e1 & -> & C1 & R1).
    assert (Ht : forall x, In x t -> valid_ref (h ++ e1) x).
    { intros x Hx a Ea. rewrite app_length. specialize (Hv x (or_intror Hx) a Ea). lia. }
    apply IH in E2; [|exact Ht].
    destruct E2 as (e2 & -> & C2 & R2). exists (e1 ++ e2). split; [rewrite app_assoc; reflexivity|]. split.
    + cbn [map]. f_equal.
      * rewrite <- C1. apply flat_content_app. intros a Ea. apply R1 in Ea. lia.
      * rewrite C2. apply map_ext_in. intros x Hx. apply flat_content_app. apply Hv. right; exact Hx.
    + intros a [Ea|Ha].
      * apply R1 in Ea. rewrite !app_length in *. lia.
      * apply R2 in Ha. rewrite !app_length in *. lia.
Qed.
(** A deep copy has the same contents and consists of new cells only. *)
Lemma deepcopy_ok h v h1 v1 : (forall a, reachable h v a -> a < length h) -> deepcopy h v = (h1, v1) ->
  exists e, h1 = h ++ e /\ contents h1 v1 = contents h v /\ forall a, reachable h1 v1 a -> length h <= a < length h1.
Proof.
  intros H E. unfold deepcopy in E.
  assert (Flat : (forall l, lookup h v <> Some (CList l)) -> copy_flat h v = (h1, v1) ->
    exists e, h1 = h ++ e /\ contents h1 v1 = contents h v /\ forall a, reachable h1 v1 a -> length h <= a < length h1).
  { intros N F. pose proof F as F0. apply copy_flat_ok in F; [|intros a ->; apply H, reachable_self].
    destruct F as (e & -> & C & R). exists e. split; auto.
    assert (Nl : forall b l, v1 = PRef b -> nth_error (h ++ e) b <> Some (CList l)).
    { intros b l -> E1. unfold flat_content in C. rewrite E1 in C.
      destruct v as [|x|a]; try discriminate. specialize (N). cbn [lookup] in N.
      destruct (nth_error h a) as [[? | ? | ? ?]|] eqn:Ea; try discriminate. exact (N _ eq_refl). }
    split.
    - destruct v1 as [|x|b]; cbn [contents].
      + rewrite C. destruct v as [|y|a]; cbn [contents]; auto. cbn [lookup] in N.
        destruct (nth_error h a) as [[? | ? | ? ?]|] eqn:Ea; auto. exfalso; exact (N _ eq_refl).
      + rewrite C. destruct v as [|y|a]; cbn [contents]; auto. cbn [lookup] in N.
        destruct (nth_error h a) as [[? | ? | ? ?]|] eqn:Ea; auto. exfalso; exact (N _ eq_refl).
      + assert (Ec : contents (h ++ e) (PRef b) = flat_content (h ++ e) (PRef b)).
        { cbn [contents]. destruct (nth_error (h ++ e) b) as [[? | l | ? ?]|] eqn:Eb; try reflexivity.
          exfalso; exact (Nl b l eq_refl Eb). }
        cbn [contents] in Ec. rewrite Ec, C.
        destruct v as [|y|a]; cbn [contents]; auto; cbn [lookup] in N.
        destruct (nth_error h a) as [[? | ? | ? ?]|] eqn:Ea; auto; exfalso; exact (N _ eq_refl).
    - intros a [->|(b & l & -> & Eb & _)]; [apply R; reflexivity|]. exfalso; exact (Nl b l eq_refl Eb). }
  destruct (lookup h v) as [[l|l|i s]|] eqn:Ev; try (apply Flat; [intros l'; congruence|exact E]).
  destruct v as [|x|a]; try discriminate. cbn [lookup] in Ev.
  destruct (copy_elements h l) as [h2 l2] eqn:E2. injection E as <- <-.
  apply copy_elements_ok in E2.
  2:{ intros u Hu b ->. apply H. right. exists a, l. auto. }
  destruct E2 as (e & -> & C & R). exists (e ++ [CList l2]). split; [rewrite app_assoc; reflexivity|]. split.
  - cbn [contents]. rewrite Ev, nth_error_app2, Nat.sub_diag by lia. cbn [nth_error]. rewrite <- C. f_equal.
    apply map_ext_in. intros u Hu. apply flat_content_app. intros b ->. apply R in Hu. lia.
  - intros b [Eb|(b' & l' & Eb & En & I)].
    + injection Eb as <-. rewrite !app_length. cbn. lia.
    + injection Eb as <-. rewrite nth_error_app2, Nat.sub_diag in En by lia. cbn in En. injection En as <-.
      apply R in I. rewrite !app_length in *. cbn. lia.
Qed.

(** ** Checks *)
Lemma is_instance_content h i v : is_instance h i v = true <-> has_interface i (flat_content h v).
Proof.
  unfold is_instance, has_interface, flat_content. destruct v as [|x|a]; cbn [lookup]; try (split; [discriminate|contradiction]).
  destruct (nth_error h a) as [[?|?|? ?]|]; try (split; [discriminate|contradiction]). reflexivity.
Qed.
Lemma instance_valid h i v : is_instance h i v = true -> forall a, v = PRef a -> a < length h.
Proof.
  intros H a ->. unfold is_instance in H. cbn [lookup] in H. apply nth_error_Some. destruct (nth_error h a); congruence.
Qed.
Lemma check_valid f h v : check f h v = Ok tt -> forall a, reachable h v a -> a < length h.
Proof.
  intros H a R.
  assert (V : v = PNone \/ lookup h v <> None).
  { destruct f; cbn [check] in H; unfold check_limits, check_instance, check_list, is_instance in H; destruct v as [|x|b];
      auto; right; intros N; rewrite N in H; discriminate. }
  destruct R as [->|(b & l & -> & Eb & I)].
  - destruct V as [V|V]; [discriminate|]. cbn in V. apply nth_error_Some. exact V.
  - assert (F : forall i, check_list i h (PRef b) = Ok tt -> a < length h).
    { intros i C. unfold check_list in C. cbn [lookup] in C. rewrite Eb in C. unfold raise_if in C.
      destruct (forallb (is_instance h i) l) eqn:Fb; [|discriminate].
      rewrite forallb_forall in Fb. apply Fb in I. eapply instance_valid; eauto. }
    assert (G : forall i, check_instance i h (PRef b) = Ok tt -> False).
    { intros i C. unfold check_instance, is_instance in C. cbn [lookup] in C. rewrite Eb in C. discriminate. }
    assert (Li : check_limits h (PRef b) = Ok tt -> False).
    { intros C. unfold check_limits in C. cbn [lookup] in C. rewrite Eb in C. discriminate. }
    destruct f; cbn [check] in H; try (contradiction (Li H)); try (contradiction (G _ H)); eapply F; exact H.
Qed.
Lemma check_limits_iff h v : check_limits h v = Ok tt <-> contents h v = NoValue \/ exists a b, contents h v = AnArray [a; b].
Proof.
  unfold check_limits, contents. destruct v as [|x|a]; cbn [lookup flat_content].
  - split; auto.
  - split; [discriminate|]. intros [H|(a & b & H)]; discriminate.
  - destruct (nth_error h a) as [[l|l|i s]|]; try (split; [discriminate|intros [H|(a0 & b & H)]; discriminate]).
    unfold raise_if. split.
    + destruct l as [|x [|y [|? ?]]]; try discriminate. intros _. right. eauto.
    + intros [H|(x & y & H)]; [discriminate|]. injection H as ->. reflexivity.
Qed.
Lemma check_instance_iff i h v : check_instance i h v = Ok tt <-> contents h v = NoValue \/ has_interface i (contents h v).
Proof.
  unfold check_instance. destruct v as [|x|a].
  - cbn. split; auto.
  - cbn. split; [discriminate|]. intros [H|H]; [discriminate|contradiction].
  - unfold is_instance, contents, flat_content. cbn [lookup].
    destruct (nth_error h a) as [[l|l|im s]|]; cbn; try (split; [discriminate|intros [H|H]; [discriminate|contradiction]]).
    destruct (im i); cbn; split; auto; try discriminate. intros [H|H]; discriminate.
Qed.
Lemma check_list_iff i h v : check_list i h v = Ok tt <->
  (contents h v = NoValue \/ exists l, contents h v = AList l /\ Forall (has_interface i) l) \/ contents h v = AnArray [].
Proof.
  unfold check_list. destruct v as [|x|a].
  - cbn. split; auto.
  - cbn. split; [discriminate|]. intros [[H|(l & H & _)]|H]; discriminate.
  - unfold contents. cbn [lookup]. destruct (nth_error h a) as [[l|l|im s]|] eqn:E; cbn [flat_content]; rewrite ?E.
    + unfold raise_if. destruct l as [|x l]; cbn; split; auto; try discriminate.
      intros [[H|(l' & H & _)]|H]; discriminate.
    + unfold raise_if. destruct (forallb (is_instance h i) l) eqn:F; cbn; split; auto; try discriminate.
      * intros _. left. right. eexists. split; [reflexivity|]. rewrite forallb_forall in F.
        apply Forall_forall. intros c Hc. apply in_map_iff in Hc. destruct Hc as (u & <- & Hu). apply is_instance_content. auto.
      * intros [[H|(l' & H & HF)]|H]; try discriminate. injection H as <-. exfalso.
        assert (X : forallb (is_instance h i) l = true); [|congruence].
        apply forallb_forall. intros u Hu. apply is_instance_content. rewrite Forall_forall in HF. apply HF, in_map, Hu.
    + split; [discriminate|]. intros [[H|(l' & H & _)]|H]; discriminate.
    + split; [discriminate|]. intros [[H|(l' & H & _)]|H]; discriminate.
Qed.
Lemma check_iff f h v : check f h v = Ok tt <->
  acceptable f (contents h v) \/ (list_field f /\ contents h v = AnArray []).
Proof.
  unfold list_field. destruct f; cbn [check acceptable]; rewrite ?check_limits_iff, ?check_instance_iff, ?check_list_iff;
    (split; [intros H|intros [H|[[H|[H|H]] H']]; try discriminate]); try tauto.
  all: destruct H as [H|H]; [left; exact H|right; split; [|exact H]; tauto].
Qed.

(** ** Setters *)
Lemma none_content h v : v = PNone -> contents h v = NoValue.
Proof. intros ->. reflexivity. Qed.
Lemma set_failed f v h s e h' s' : set_field f v h s = (Err e, (h', s')) ->
  h' = h /\ s' = s /\ ~ acceptable f (contents h v).
Proof.
  unfold set_field. destruct (check f h v) as [[]|e'] eqn:E.
  - destruct f, v; try (destruct (deepcopy h _)); discriminate.
  - intros H. injection H as <- <- <-. split; auto. split; auto. intros A.
    assert (X : check f h v = Ok tt) by (apply check_iff; auto). congruence.
Qed.
Lemma set_ok f v h s h' s' : set_field f v h s = (Ok tt, (h', s')) ->
  check f h v = Ok tt /\ exists e, h' = h ++ e /\ contents h' (s' f) = read_back f (contents h v) /\
  (forall a, reachable h' (s' f) a -> length h <= a < length h') /\ forall g, g <> f -> s' g = s g.
Proof.
  unfold set_field. destruct (check f h v) as [[]|e'] eqn:E; [|discriminate]. intros H. split; auto.
  assert (St : forall g u, g <> f -> store s f u g = s g)
    by (intros g u N; unfold store; destruct (field_eq_dec g f); [contradiction|reflexivity]).
  assert (Sf : forall u, store s f u f = u)
    by (intros u; unfold store; destruct (field_eq_dec f f); [reflexivity|contradiction]).
  assert (D : (f = FSensor -> v <> PNone) -> (let (h1, v1) := deepcopy h v in (Ok tt, (h1, store s f v1))) = (Ok tt, (h', s')) ->
     exists e, h' = h ++ e /\ contents h' (s' f) = read_back f (contents h v) /\
     (forall a, reachable h' (s' f) a -> length h <= a < length h') /\ forall g, g <> f -> s' g = s g).
  { intros N H1. destruct (deepcopy h v) as [h1 v1] eqn:Ed. injection H1 as <- <-.
    apply deepcopy_ok in Ed; [|eapply check_valid; eauto]. destruct Ed as (e & -> & C & R).
    exists e. rewrite Sf. split; auto. split; [|split; [exact R|auto]].
    rewrite C. unfold read_back. destruct f; auto. destruct (contents h v) eqn:Ec; auto.
    exfalso. unfold contents, flat_content in Ec. destruct v as [|x|a]; try discriminate; [apply N; reflexivity|].
    destruct (nth_error h a) as [[?|?|? ?]|]; discriminate. }
  destruct f, v; try (apply D; [intros; discriminate|exact H]).
  injection H as <- <-. exists [new_generic_sensor]. split; auto. rewrite Sf. split; [|split].
  - cbn [contents]. rewrite nth_error_app2, Nat.sub_diag by lia. cbn. rewrite nth_error_app2, Nat.sub_diag by lia. reflexivity.
  - intros a [Ea|(b & l & Eb & En & I)].
    + injection Ea as <-. rewrite app_length. cbn. lia.
    + injection Eb as <-. rewrite nth_error_app2, Nat.sub_diag in En by lia. discriminate.
  - auto.
Qed.
Lemma set_accepts f v h s : acceptable f (contents h v) -> exists h' s', set_field f v h s = (Ok tt, (h', s')).
Proof.
  intros A. unfold set_field. assert (E : check f h v = Ok tt) by (apply check_iff; auto). rewrite E.
  destruct f, v; try (destruct (deepcopy h _)); eauto.
Qed.

(** ** Histories *)
Lemma nth_error_write h a c b : a < length h -> nth_error (write h a c) b = if b =? a then Some c else nth_error h b.
Proof.
  intros Ha. unfold write. destruct (Nat.eqb_spec b a) as [->|N].
  - rewrite nth_error_app2; rewrite firstn_length, Nat.min_l by lia; [|lia]. rewrite Nat.sub_diag. reflexivity.
  - destruct (Nat.lt_ge_cases b a) as [L|L].
    + rewrite nth_error_app1 by (rewrite firstn_length; lia). rewrite <- (firstn_skipn a h) at 2.
      rewrite nth_error_app1 by (rewrite firstn_length; lia). reflexivity.
    + rewrite nth_error_app2; rewrite firstn_length, Nat.min_l by lia; [|lia].
      destruct (b - a) as [|k] eqn:Ek; [lia|]. cbn [nth_error].
      rewrite <- (firstn_skipn (S a) h) at 2. rewrite nth_error_app2; rewrite firstn_length, Nat.min_l by lia; [|lia].
      f_equal. lia.
Qed.
Lemma length_write h a c : a < length h -> length (write h a c) = length h.
Proof. intros Ha. unfold write. rewrite app_length, firstn_length. cbn [length]. rewrite skipn_length. lia. Qed.
Lemma flat_write h a c v : a < length h -> v <> PRef a -> flat_content (write h a c) v = flat_content h v.
Proof.
  intros Ha N. destruct v as [|x|b]; auto. cbn. rewrite nth_error_write by exact Ha.
  destruct (Nat.eqb_spec b a) as [->|]; [congruence|reflexivity].
Qed.
Lemma contents_write h a c v : a < length h -> ~ reachable h v a -> contents (write h a c) v = contents h v.
Proof.
  intros Ha N. destruct v as [|x|b]; auto. cbn [contents]. rewrite nth_error_write by exact Ha.
  destruct (Nat.eqb_spec b a) as [->|Nb]; [contradiction N; apply reachable_self|].
  assert (F : flat_content (write h a c) (PRef b) = flat_content h (PRef b)) by (apply flat_write; congruence).
  destruct (nth_error h b) as [[l|l|i s]|] eqn:E; auto.
  f_equal. apply map_ext_in. intros u Hu. apply flat_write; auto. intros ->. apply N. right. exists b, l. auto.
Qed.
Lemma reachable_write h a c v b : a < length h -> ~ reachable h v a -> reachable (write h a c) v b -> reachable h v b.
Proof.
  intros Ha N [->|(d & l & -> & E & I)]; [left; reflexivity|]. right. exists d, l. split; auto. split; auto.
  rewrite nth_error_write in E by exact Ha. destruct (Nat.eqb_spec d a) as [->|]; auto.
  contradiction N. apply reachable_self.
Qed.

Lemma step_separated o st st' : separated st -> step o st = Some st' -> separated st'.
Proof.
  intros [U Rc Ex] H. destruct o as [c|a c|f v]; cbn [step] in H.
  - injection H as <-. constructor; cbn [st_heap st_sim st_user st_expected].
    + intros a [<-|Ha]; rewrite app_length; cbn; [lia|]. apply U in Ha. lia.
    + intros f a R. apply reachable_app in R.
      2:{ intros b E. apply (Rc f). rewrite E. apply reachable_self. }
      apply Rc in R. destruct R as [L N]. split; [rewrite app_length; lia|]. intros [<-|Ha]; [lia|auto].
    + intros f. rewrite contents_app; auto. intros a R. apply Rc in R. tauto.
  - destruct (in_dec Nat.eq_dec a (st_user st)) as [Ia|]; [|discriminate]. injection H as <-.
    pose proof (U a Ia) as La.
    assert (N : forall f, ~ reachable (st_heap st) (st_sim st f) a) by (intros f R; apply Rc in R; tauto).
    constructor; cbn [st_heap st_sim st_user st_expected].
    + intros b Hb. rewrite length_write by exact La. auto.
    + intros f b R. apply reachable_write in R; auto. rewrite length_write by exact La. apply Rc in R. exact R.
    + intros f. rewrite contents_write; auto.
  - destruct (set_field f v (st_heap st) (st_sim st)) as [r [h' s']] eqn:E. injection H as <-.
    destruct r as [[]|e].
    + apply set_ok in E. destruct E as (_ & e & -> & C & R & S).
      constructor; cbn [st_heap st_sim st_user st_expected fst snd].
      * intros a Ha. rewrite app_length. apply U in Ha. lia.
      * intros g a Rg. destruct (field_eq_dec g f) as [->|N].
        -- apply R in Rg. split; [lia|]. intros Ia. apply U in Ia. lia.
        -- rewrite S in Rg by exact N. apply reachable_app in Rg.
           2:{ intros b Eb. apply (Rc g). rewrite Eb. apply reachable_self. }
           apply Rc in Rg. rewrite app_length. split; [lia|tauto].
      * intros g. destruct (field_eq_dec g f) as [->|N]; [exact C|]. rewrite S by exact N.
        rewrite contents_app; auto. intros a Ra. apply Rc in Ra. tauto.
    + apply set_failed in E. destruct E as (-> & -> & _). constructor; cbn; auto.
Qed.
Lemma run_separated os st st' : separated st -> run os st = Some st' -> separated st'.
Proof.
  revert st. induction os as [|o t IH]; intros st S H; cbn [run] in H; [congruence|].
  destruct (step o st) as [st1|] eqn:E; [|discriminate]. eapply IH; [|exact H]. eapply step_separated; eauto.
Qed.

(** ** The constructor *)
Lemma set_all_app fs args h s h' s' : set_all fs args h s = (Ok tt, (h', s')) -> exists e, h' = h ++ e.
Proof.
  revert h s. induction fs as [|f t IH]; intros h s H; cbn [set_all] in H.
  - injection H as <- <-. exists []. rewrite app_nil_r. reflexivity.
  - destruct (set_field f (args f) h s) as [[[]|e] [h1 s1]] eqn:E; [|discriminate].
    apply set_ok in E. destruct E as (_ & e & -> & _). apply IH in H. destruct H as (e2 & ->). exists (e ++ e2).
    rewrite app_assoc. reflexivity.
Qed.
(** After setting all of [fs]: the set fields contain their arguments, the other ones are as before. *)
Lemma set_all_ok fs args : NoDup fs -> forall h s h' s',
  (forall f a, In f fs -> reachable h (args f) a -> a < length h) ->
  (forall f a, reachable h (s f) a -> a < length h) ->
  set_all fs args h s = (Ok tt, (h', s')) ->
  (forall f, In f fs -> contents h' (s' f) = read_back f (contents h (args f))) /\
  (forall f, ~ In f fs -> s' f = s f) /\ (forall f a, In f fs -> reachable h' (s' f) a -> length h <= a < length h').
Proof.
  induction 1 as [|f t Nf Nd IH]; intros h s h' s' Ra Rs H; cbn [set_all] in H.
  - injection H as <- <-. repeat split; intros; try contradiction; auto.
  - destruct (set_field f (args f) h s) as [[[]|e] [h1 s1]] eqn:E; [|discriminate].
    apply set_ok in E. destruct E as (_ & e & -> & C & R & S). pose proof (set_all_app _ _ _ _ _ _ H) as (e2 & ->).
    assert (Ra' : forall g a, In g t -> reachable (h ++ e) (args g) a -> a < length (h ++ e)).
    { intros g a Ig Rg. apply reachable_app in Rg.
      - apply Ra in Rg; [|right; exact Ig]. rewrite app_length. lia.
      - intros b Eb. apply (Ra g); [right; exact Ig|]. rewrite Eb. apply reachable_self. }
    assert (Rs' : forall g a, reachable (h ++ e) (s1 g) a -> a < length (h ++ e)).
    { intros g a Rg. destruct (field_eq_dec g f) as [->|N]; [apply R in Rg; lia|]. rewrite S in Rg by exact N.
      apply reachable_app in Rg; [apply Rs in Rg; rewrite app_length; lia|].
      intros b Eb. apply (Rs g). rewrite Eb. apply reachable_self. }
    destruct (IH _ _ _ _ Ra' Rs' H) as (I1 & I2 & I3).
    assert (Ef : s' f = s1 f) by (apply I2; exact Nf).
    split; [|split].
    + intros g [<-|Ig].
      * rewrite Ef. rewrite contents_app; [exact C|]. intros a Rf. apply R in Rf. lia.
      * rewrite I1 by exact Ig. rewrite contents_app; auto. intros a Rg. apply Ra in Rg; [exact Rg|right; exact Ig].
    + intros g N. rewrite I2 by (intros I; apply N; right; exact I). apply S. intros ->. apply N. left; reflexivity.
    + intros g a [<-|Ig] Rg.
      * rewrite Ef in Rg. apply reachable_app in Rg; [apply R in Rg; rewrite !app_length in *; lia|].
        intros b Eb. apply R. rewrite Eb. apply reachable_self.
      * apply I3 in Rg; [|exact Ig]. rewrite app_length in Rg. lia.
Qed.
Lemma all_fields f : In f initial.
Proof. destruct f; cbn; tauto. Qed.
Lemma construct_ok args h h' s' :
  (forall f a, reachable h (args f) a -> a < length h) ->
  construct args h = (Ok tt, (h', s')) ->
  (exists e, h' = h ++ e) /\
  forall f, contents h' (s' f) = read_back f (contents h (args f)) /\
            forall a, reachable h' (s' f) a -> length h <= a < length h'.
Proof.
  intros Ra H. unfold construct in H. split; [eapply set_all_app; exact H|].
  assert (Nd : NoDup initial).
  { unfold initial. repeat (constructor; [cbn; intuition discriminate|]). constructor. }
  destruct (set_all_ok initial args Nd h (fun _ => PNone) h' s') as (A & _ & B); auto.
  - intros f a _. apply Ra.
  - intros f a [E|(b & l & E & _)]; discriminate.
  - intros f. split; [apply A, all_fields|intros a; apply B, all_fields].
Qed.
Lemma construct_accepts args h :
  (forall f a, reachable h (args f) a -> a < length h) ->
  (forall f, acceptable f (contents h (args f))) -> exists h' s', construct args h = (Ok tt, (h', s')).
Proof.
  intros Ra A. unfold construct. generalize (fun _ : field => PNone) as s. 
  assert (G : forall fs h1 s, (exists e, h1 = h ++ e) -> exists h' s', set_all fs args h1 s = (Ok tt, (h', s'))).
  { induction fs as [|f t IH]; intros h1 s (e & ->); cbn [set_all]; [eauto|].
    destruct (set_accepts f (args f) (h ++ e) s) as (h2 & s2 & E).
    - rewrite contents_app by apply Ra. apply A.
    - rewrite E. apply set_ok in E. destruct E as (_ & e2 & -> & _). apply IH. exists (e ++ e2). rewrite app_assoc. reflexivity. }
  intros s. apply G. exists []. rewrite app_nil_r. reflexivity.
Qed.
Lemma set_accepts_iff f v h s : (exists h' s', set_field f v h s = (Ok tt, (h', s'))) <->
  acceptable f (contents h v) \/ (list_field f /\ contents h v = AnArray []).
Proof.
  rewrite <- check_iff. split.
  - intros (h' & s' & H). apply set_ok in H. tauto.
  - intros E. unfold set_field. rewrite E. destruct f, v; try (destruct (deepcopy h _)); eauto.
Qed.
Lemma set_list_limits f v h s l : In f [FLimitG1; FLimitG2; FLimitS1; FLimitS2] -> lookup h v = Some (CList l) ->
  set_field f v h s = (Err AttributeError, (h, s)).
Proof.
  intros Hf Hv. unfold set_field.
  assert (E : check f h v = Err AttributeError).
  { cbn in Hf. destruct v as [|x|a]; try discriminate.
    destruct Hf as [<-|[<-|[<-|[<-|[]]]]]; cbn [check]; unfold check_limits; rewrite Hv; reflexivity. }
  rewrite E. reflexivity.
Qed.
Lemma set_read_back f v h s h' s' : set_field f v h s = (Ok tt, (h', s')) ->
  exists e, h' = h ++ e /\ contents h' (get_field f s') = read_back f (contents h v) /\
  (forall a, reachable h' (get_field f s') a -> length h <= a < length h') /\ forall g, g <> f -> get_field g s' = get_field g s.
Proof. intros H. apply set_ok in H. exact (proj2 H). Qed.

Lemma set_refusal f v h s e st : set_field f v h s = (Err e, st) -> e = refusal f (contents h v).
Proof.
  unfold set_field. destruct (check f h v) as [|e'] eqn:C.
  { intros H. exfalso. destruct f; destruct v; try discriminate; destruct (deepcopy h _); discriminate. }
  intros H. injection H as <- _. unfold contents. destruct f; cbn [check refusal] in *; unfold check_limits, check_instance, check_list, raise_if in C; destruct v as [|x|a]; cbn [lookup flat_content] in *; try discriminate;
    repeat match type of C with
    | context [match nth_error h a with _ => _ end] => destruct (nth_error h a) as [[l|l|im t]|] eqn:E; cbn [flat_content] in *; rewrite ?E
    | context [if ?b then _ else _] => destruct b
    end; try discriminate; try (injection C as <-; rewrite ?E; reflexivity).
Qed.
(** The first wrong argument decides about the exception. *)
Lemma construct_refused args h e st : (forall f a, reachable h (args f) a -> a < length h) -> construct args h = (Err e, st) ->
  exists before f after, arguments = before ++ f :: after /\ Forall (fun g => accepted g (contents h (args g))) before /\
    ~ accepted f (contents h (args f)) /\ e = refusal f (contents h (args f)).
Proof.
  intros Ra. unfold construct. change initial with arguments. generalize (fun _ : field => PNone) as s.
  assert (G : forall fs h1 s, (exists x, h1 = h ++ x) -> set_all fs args h1 s = (Err e, st) ->
    exists before f after, fs = before ++ f :: after /\ Forall (fun g => accepted g (contents h (args g))) before /\
      ~ accepted f (contents h (args f)) /\ e = refusal f (contents h (args f))).
  { induction fs as [|f t IH]; intros h1 s (x & ->) H; cbn [set_all] in H; [discriminate|].
    assert (Cf : contents (h ++ x) (args f) = contents h (args f)) by (apply contents_app, Ra).
    destruct (set_field f (args f) (h ++ x) s) as [[[]|e1] [h2 s2]] eqn:E.
    - assert (A : accepted f (contents h (args f))).
      { rewrite <- Cf. apply (set_accepts_iff f (args f) (h ++ x) s). eauto. }
      apply set_ok in E. destruct E as (_ & y & -> & _). destruct (IH _ _ (ex_intro _ (x ++ y) (eq_sym (app_assoc h x y))) H) as (b & g & a & -> & B & N & R).
      exists (f :: b), g, a. split; [reflexivity|]. split; [constructor; assumption|]. split; assumption.
    - injection H as -> <-. exists [], f, t. split; [reflexivity|]. split; [constructor|]. split.
      + intros A. rewrite <- Cf in A. apply (set_accepts_iff f (args f) (h ++ x) s) in A. destruct A as (h' & s' & A). congruence.
      + rewrite <- Cf. exact (set_refusal _ _ _ _ _ _ E). }
  intros s. apply G. exists []. rewrite app_nil_r. reflexivity.
Qed.
