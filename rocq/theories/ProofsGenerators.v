(** Proofs about the random generators of distortions. *)
From Verif Require Import RPrelude ModelGenerators SpecGenerators ExamplesGenerators.

Section Proofs.
Context {G D X V : Type}.
Variable draw : D -> G -> X * G.
Notation noise := (@noise D X V).
Notation generators := (@generators G).
Notation run := (run draw).
Notation run_all := (run_all draw).

(** ** Programs on renamed generators *)
Definition rename (f : ref -> ref) (o : noise) : noise := mk_noise (noise_function o) (f (own o)) (map f (samplers o)).
Definition inj (f : ref -> ref) (P : ref -> Prop) : Prop := forall a b, P a -> P b -> f a = f b -> a = b.
Definition view (f : ref -> ref) (P : ref -> Prop) (g g' : ref -> G) : Prop := forall r, P r -> g' (f r) = g r.

Lemma update_view f P g g' r s : inj f P -> P r -> view f P g g' -> view f P (update g r s) (update g' (f r) s).
Proof.
  intros I Pr W q Pq. unfold update. destruct (Nat.eqb_spec q r) as [->|N]; [rewrite Nat.eqb_refl; reflexivity|].
  destruct (Nat.eqb_spec (f q) (f r)) as [E|_]; [destruct (N (I q r Pq Pr E))|apply W; exact Pq].
Qed.
Lemma nth_in (i : nat) (l : list ref) (o : ref) : nth i l o = o \/ In (nth i l o) l.
Proof. destruct (Nat.lt_ge_cases i (length l)); [right; apply nth_In; assumption|left; apply nth_overflow; assumption]. Qed.
Lemma run_view f P (p : @program D X V) o l : inj f P -> P o -> (forall r, In r l -> P r) -> forall g g', view f P g g' ->
  fst (run p (f o) (map f l) g') = fst (run p o l g) /\ view f P (snd (run p o l g)) (snd (run p (f o) (map f l) g')).
Proof.
  intros I Po Pl. induction p as [v|i d k IH]; intros g g' W; cbn; [auto|].
  rewrite map_nth. assert (Pr : P (nth i l o)) by (destruct (nth_in i l o) as [->|Hn]; auto).
  rewrite (W _ Pr). destruct (draw d (g (nth i l o))) as [x s]. apply IH. apply update_view; assumption.
Qed.
Lemma run_all_view f P (l : list noise) : inj f P -> (forall r, uses l r -> P r) -> forall v g g', view f P g g' ->
  fst (run_all (map (rename f) l) v g') = fst (run_all l v g) /\ view f P (snd (run_all l v g)) (snd (run_all (map (rename f) l) v g')).
Proof.
  intros I. induction l as [|o l IH]; intros U v g g' W; cbn; [auto|].
  assert (Po : P (own o)) by (apply U; exists o; split; [left; reflexivity|auto]).
  assert (Ps : forall r, In r (samplers o) -> P r) by (intros r Hr; apply U; exists o; split; [left; reflexivity|auto]).
  assert (Ul : forall r, uses l r -> P r) by (intros r (q & Hq & Hr); apply U; exists q; split; [right|]; assumption).
  destruct (run_view f P (noise_function o v) (own o) (samplers o) I Po Ps g g' W) as [E1 W1].
  destruct (run _ (own o) (samplers o) g) as [w g1]. destruct (run _ (f (own o)) _ g') as [w' g1']. cbn [fst snd] in *. subst w'. apply IH; assumption.
Qed.
(** generators that are not used keep their state *)
Lemma run_frame (p : @program D X V) o l q : q <> o -> ~ In q l -> forall g, snd (run p o l g) q = g q.
Proof.
  intros No Nl. induction p as [v|i d k IH]; intros g; cbn; [reflexivity|]. destruct (draw d (g (nth i l o))) as [x s]. rewrite IH.
  unfold update. destruct (Nat.eqb_spec q (nth i l o)) as [E|_]; [|reflexivity]. exfalso. destruct (nth_in i l o) as [H|H]; congruence.
Qed.
Lemma run_all_frame (l : list noise) q : ~ uses l q -> forall v g, snd (run_all l v g) q = g q.
Proof.
  induction l as [|o l IH]; intros N v g; cbn; [reflexivity|].
  destruct (run (noise_function o v) (own o) (samplers o) g) as [w g1] eqn:E.
  rewrite IH by (intros (a & Ha & Hr); apply N; exists a; split; [right|]; assumption).
  change g1 with (snd (w, g1)). rewrite <- E. apply run_frame.
  - intros ->. apply N. exists o. split; [left; reflexivity|auto].
  - intros H. apply N. exists o. split; [left; reflexivity|auto].
Qed.

Lemma inj_id P : inj (fun r => r) P.
Proof. intros a b _ _ E. exact E. Qed.
Lemma rename_id (l : list noise) : map (rename (fun r => r)) l = l.
Proof. induction l as [|[n o s] l IH]; [reflexivity|]. cbn. rewrite IH. unfold rename. cbn. rewrite map_id. reflexivity. Qed.

(** ** Copies *)
Definition copied (h0 : generators) (st : generators * memo) : Prop :=
  (next h0 <= next (fst st))%nat /\ (forall r, (r < next h0)%nat -> gen (fst st) r = gen h0 r) /\
  (forall r c, find (snd st) r = Some c -> (next h0 <= c < next (fst st))%nat /\ gen (fst st) c = gen h0 r) /\
  (forall r q c, find (snd st) r = Some c -> find (snd st) q = Some c -> r = q).
Definition extends (m m' : memo) : Prop := forall r c, find m r = Some c -> find m' r = Some c.
Definition image (m : memo) (r : ref) : ref := match find m r with Some c => c | None => r end.

Lemma copy_ref_ok h0 r st c st' : copied h0 st -> (r < next h0)%nat -> copy_ref r st = (c, st') ->
  copied h0 st' /\ extends (snd st) (snd st') /\ find (snd st') r = Some c.
Proof.
  intros (A & B & C & I) L E. destruct st as [h m]. unfold copy_ref in E. cbn [fst snd] in *. destruct (find m r) as [c0|] eqn:F.
  - injection E as <- <-. split; [exact (conj A (conj B (conj C I)))|].
    split; [intros a b H; exact H|exact F].
  - injection E as <- <-. cbn [fst snd]. split; [split; [|split; [|split]]|split].
    + cbn. lia.
    + intros q Lq. cbn. unfold update. destruct (Nat.eqb_spec q (next h)); [lia|auto].
    + intros q d. cbn. unfold update. destruct (Nat.eqb_spec q r) as [->|N].
      * intros H. injection H as <-. rewrite Nat.eqb_refl. split; [lia|]. auto.
      * intros H. destruct (C q d H) as [L1 E1]. destruct (Nat.eqb_spec d (next h)); [lia|]. split; [lia|exact E1].
    + intros a b d. cbn. destruct (Nat.eqb_spec a r) as [->|Na], (Nat.eqb_spec b r) as [->|Nb]; intros H1 H2; auto.
      * injection H1 as <-. destruct (C b _ H2). lia.
      * injection H2 as <-. destruct (C a _ H1). lia.
      * exact (I a b d H1 H2).
    + intros a b H. cbn. destruct (Nat.eqb_spec a r) as [->|_]; [congruence|exact H].
    + cbn. rewrite Nat.eqb_refl. reflexivity.
Qed.
Lemma extends_image m m' r c : extends m m' -> find m r = Some c -> image m' r = c.
Proof. intros Y H. unfold image. rewrite (Y _ _ H). reflexivity. Qed.
Lemma copy_refs_ok h0 l : forall st cs st', copied h0 st -> (forall r, In r l -> (r < next h0)%nat) -> copy_refs l st = (cs, st') ->
  copied h0 st' /\ extends (snd st) (snd st') /\ (forall r, In r l -> find (snd st') r <> None) /\
  forall m, extends (snd st') m -> cs = map (image m) l.
Proof.
  induction l as [|r l IH]; intros st cs st' K L E; cbn in E.
  - injection E as <- <-. split; [exact K|]. split; [intros a b H; exact H|]. split; [intros ? []|reflexivity].
  - destruct (copy_ref r st) as [c st1] eqn:E1. destruct (copy_refs l st1) as [cs' st2] eqn:E2. injection E as <- <-.
    destruct (copy_ref_ok h0 r st c st1 K (L r (or_introl eq_refl)) E1) as (K1 & X1 & F1).
    destruct (IH st1 cs' st2 K1 (fun q Hq => L q (or_intror Hq)) E2) as (K2 & X2 & F2 & M2).
    split; [exact K2|]. split; [intros a b H; apply X2, X1, H|]. split.
    + intros q [<-|Hq]; [rewrite (X2 _ _ F1); discriminate|auto].
    + intros m Xm. cbn. f_equal; [|auto]. symmetry. apply (extends_image (snd st1)); [intros a b H; apply Xm, X2, H|exact F1].
Qed.
Lemma copy_list_ok h0 (l : list noise) : forall st cs st', copied h0 st -> (forall r, uses l r -> (r < next h0)%nat) -> copy_list l st = (cs, st') ->
  copied h0 st' /\ extends (snd st) (snd st') /\ (forall r, uses l r -> find (snd st') r <> None) /\
  forall m, extends (snd st') m -> cs = map (rename (image m)) l.
Proof.
  induction l as [|o l IH]; intros st cs st' K L E; cbn in E.
  - injection E as <- <-. split; [exact K|]. split; [intros a b H; exact H|]. split; [intros ? (? & [] & _)|reflexivity].
  - destruct (copy_ref (own o) st) as [a st1] eqn:E1. destruct (copy_refs (samplers o) st1) as [s st2] eqn:E2.
    destruct (copy_list l st2) as [cs' st3] eqn:E3. injection E as <- <-.
    destruct (copy_ref_ok h0 _ _ _ _ K (L _ (ex_intro _ o (conj (or_introl eq_refl) (or_introl eq_refl)))) E1) as (K1 & X1 & F1).
    destruct (copy_refs_ok h0 _ _ _ _ K1 (fun r Hr => L r (ex_intro _ o (conj (or_introl eq_refl) (or_intror Hr)))) E2) as (K2 & X2 & F2 & M2).
    destruct (IH st2 cs' st3 K2) as (K3 & X3 & F3 & M3); [|exact E3|].
    { intros r (q & Hq & Hr). apply L. exists q. split; [right|]; assumption. }
    split; [exact K3|]. split; [intros x y H; apply X3, X2, X1, H|]. split.
    + intros r (q & [<-|Hq] & Hr); [|apply F3; exists q; auto]. destruct Hr as [->|Hr].
      * rewrite (X3 _ _ (X2 _ _ F1)). discriminate.
      * specialize (F2 r Hr). destruct (find (snd st2) r) as [y|] eqn:Ey; [rewrite (X3 _ _ Ey); discriminate|congruence].
    + intros m Xm. cbn [map]. f_equal; [|auto]. unfold rename. f_equal.
      * symmetry. apply (extends_image (snd st1)); [intros x y H; apply Xm, X3, X2, H|exact F1].
      * apply M2. intros x y H. apply Xm, X3, H.
Qed.
(** the copies of a list are a renaming to new generators in the same states *)
Lemma deepcopy_ok (l : list noise) (h : generators) c h1 : (forall r, uses l r -> (r < next h)%nat) -> deepcopy l h = (c, h1) ->
  (next h <= next h1)%nat /\ (forall r, (r < next h)%nat -> gen h1 r = gen h r) /\
  exists f, c = map (rename f) l /\ inj f (uses l) /\ view f (uses l) (gen h) (gen h1) /\ forall r, uses l r -> (next h <= f r < next h1)%nat.
Proof.
  intros L E. unfold deepcopy in E. destruct (copy_list l (h, [])) as [c' [h' m]] eqn:E1. injection E as <- <-.
  destruct (copy_list_ok h l (h, []) c' (h', m)) as ((A & B & C & I) & _ & F & M); [|exact L|exact E1|].
  { split; [cbn; lia|]. split; [reflexivity|]. split; intros; discriminate. }
  cbn [fst snd] in *. split; [exact A|]. split; [exact B|]. exists (image m).
  assert (J : forall r, uses l r -> find m r = Some (image m r)) by (intros r U; specialize (F r U); unfold image; destruct (find m r); congruence).
  split; [apply M; intros x y H; exact H|]. split; [|split].
  - intros a b Ua Ub Eab. apply (I a b (image m a)); [exact (J a Ua)|rewrite Eab; exact (J b Ub)].
  - intros r U. apply (C r). exact (J r U).
  - intros r U. apply (C r). exact (J r U).
Qed.

(** ** Simulations *)
Variable to_potential to_response : V -> V.
Notation measures := (measures draw to_potential to_response).
Notation measures_apart := (measures_apart draw to_potential to_response).
Definition renamed (f1 f2 f3 : ref -> ref) (a : @simulation D X V) : @simulation D X V :=
  mk_simulation (map (rename f1) (occupation_noise a)) (map (rename f2) (potential_noise a)) (map (rename f3) (response_noise a)).
Lemma uses_rename f (l : list noise) q : uses (map (rename f) l) q -> exists r, uses l r /\ q = f r.
Proof.
  intros (o & Ho & Hq). apply in_map_iff in Ho. destruct Ho as (o' & <- & Ho). cbn in Hq. destruct Hq as [->|Hq].
  - exists (own o'). split; [exists o'; auto|reflexivity].
  - apply in_map_iff in Hq. destruct Hq as (r & <- & Hr). exists r. split; [exists o'; auto|reflexivity].
Qed.
Lemma view_frame f (P : ref -> Prop) (l : list noise) g g' v : (forall r q, P r -> uses l q -> f r <> q) -> view f P g g' -> view f P g (snd (run_all l v g')).
Proof. intros N W r Pr. rewrite run_all_frame; [apply W; exact Pr|]. intros U. exact (N r (f r) Pr U eq_refl). Qed.
Lemma measures_split a f1 f2 f3 :
  inj f1 (uses (occupation_noise a)) -> inj f2 (uses (potential_noise a)) -> inj f3 (uses (response_noise a)) ->
  (forall r q, uses (occupation_noise a) r -> uses (potential_noise a) q -> f1 r <> f2 q) ->
  (forall r q, uses (occupation_noise a) r -> uses (response_noise a) q -> f1 r <> f3 q) ->
  (forall r q, uses (potential_noise a) r -> uses (response_noise a) q -> f2 r <> f3 q) ->
  forall xs g g1 g2 g3, view f1 (uses (occupation_noise a)) g1 g -> view f2 (uses (potential_noise a)) g2 g -> view f3 (uses (response_noise a)) g3 g ->
  fst (measures (renamed f1 f2 f3 a) xs g) = measures_apart a xs g1 g2 g3.
Proof.
  intros I1 I2 I3 N12 N13 N23. induction xs as [|x xs IH]; intros g g1 g2 g3 W1 W2 W3; [reflexivity|].
  cbn [ModelGenerators.measures SpecGenerators.measures_apart]. unfold measure. cbn [occupation_noise potential_noise response_noise renamed].
  destruct (run_all_view f1 _ _ I1 (fun r U => U) x g1 g W1) as [E1 V1].
  assert (M12 : view f2 (uses (potential_noise a)) g2 (snd (run_all (map (rename f1) (occupation_noise a)) x g)))
    by (apply view_frame; [intros r q Pr U; destruct (uses_rename _ _ _ U) as (q' & U' & ->); intros E; exact (N12 q' r U' Pr (eq_sym E))|exact W2]).
  assert (M13 : view f3 (uses (response_noise a)) g3 (snd (run_all (map (rename f1) (occupation_noise a)) x g)))
    by (apply view_frame; [intros r q Pr U; destruct (uses_rename _ _ _ U) as (q' & U' & ->); intros E; exact (N13 q' r U' Pr (eq_sym E))|exact W3]).
  destruct (run_all (map (rename f1) (occupation_noise a)) x g) as [x1' ga] eqn:Ea. destruct (run_all (occupation_noise a) x g1) as [x1 ga1] eqn:Ea1.
  cbn [fst snd] in E1, V1, M12, M13. subst x1'.
  destruct (run_all_view f2 _ _ I2 (fun r U => U) (to_potential x1) g2 ga M12) as [E2 V2].
  assert (M21 : view f1 (uses (occupation_noise a)) ga1 (snd (run_all (map (rename f2) (potential_noise a)) (to_potential x1) ga)))
    by (apply view_frame; [intros r q Pr U; destruct (uses_rename _ _ _ U) as (q' & U' & ->); intros E; exact (N12 r q' Pr U' E)|exact V1]).
  assert (M23 : view f3 (uses (response_noise a)) g3 (snd (run_all (map (rename f2) (potential_noise a)) (to_potential x1) ga)))
    by (apply view_frame; [intros r q Pr U; destruct (uses_rename _ _ _ U) as (q' & U' & ->); intros E; exact (N23 q' r U' Pr (eq_sym E))|exact M13]).
  destruct (run_all (map (rename f2) (potential_noise a)) (to_potential x1) ga) as [x2' gb] eqn:Eb. destruct (run_all (potential_noise a) (to_potential x1) g2) as [x2 gb2] eqn:Eb2.
  cbn [fst snd] in E2, V2, M21, M23. subst x2'.
  destruct (run_all_view f3 _ _ I3 (fun r U => U) (to_response x2) g3 gb M23) as [E3 V3].
  assert (M31 : view f1 (uses (occupation_noise a)) ga1 (snd (run_all (map (rename f3) (response_noise a)) (to_response x2) gb)))
    by (apply view_frame; [intros r q Pr U; destruct (uses_rename _ _ _ U) as (q' & U' & ->); intros E; exact (N13 r q' Pr U' E)|exact M21]).
  assert (M32 : view f2 (uses (potential_noise a)) gb2 (snd (run_all (map (rename f3) (response_noise a)) (to_response x2) gb)))
    by (apply view_frame; [intros r q Pr U; destruct (uses_rename _ _ _ U) as (q' & U' & ->); intros E; exact (N23 r q' Pr U' E)|exact V2]).
  destruct (run_all (map (rename f3) (response_noise a)) (to_response x2) gb) as [x3' gc] eqn:Ec. destruct (run_all (response_noise a) (to_response x2) g3) as [x3 gc3] eqn:Ec3.
  cbn [fst snd] in E3, V3, M31, M32. subst x3'.
  specialize (IH gc ga1 gb2 gc3 M31 M32 V3).
  unfold renamed in IH. destruct (ModelGenerators.measures draw to_potential to_response _ xs gc) as [ys gd]. cbn [fst] in IH |- *. rewrite IH. reflexivity.
Qed.
Lemma measures_frame (s : @simulation D X V) q : ~ simulation_uses s q -> forall xs g, snd (measures s xs g) q = g q.
Proof.
  intros N. induction xs as [|x xs IH]; intros g; [reflexivity|]. cbn [ModelGenerators.measures]. unfold measure.
  pose proof (run_all_frame (occupation_noise s) q (fun U => N (or_introl U)) x g) as E1.
  destruct (run_all (occupation_noise s) x g) as [x1 g1].
  pose proof (run_all_frame (potential_noise s) q (fun U => N (or_intror (or_introl U))) (to_potential x1) g1) as E2.
  destruct (run_all (potential_noise s) (to_potential x1) g1) as [x2 g2].
  pose proof (run_all_frame (response_noise s) q (fun U => N (or_intror (or_intror U))) (to_response x2) g2) as E3.
  destruct (run_all (response_noise s) (to_response x2) g2) as [x3 g3]. specialize (IH g3).
  destruct (ModelGenerators.measures draw to_potential to_response s xs g3) as [ys g4]. cbn [snd] in *. congruence.
Qed.
Lemma simulation_built a h s h1 : exist a h -> new_simulation a h = (s, h1) ->
  (next h <= next h1)%nat /\ (forall r, (r < next h)%nat -> gen h1 r = gen h r) /\
  exists f1 f2 f3, s = renamed f1 f2 f3 a /\
    inj f1 (uses (occupation_noise a)) /\ inj f2 (uses (potential_noise a)) /\ inj f3 (uses (response_noise a)) /\
    view f1 (uses (occupation_noise a)) (gen h) (gen h1) /\ view f2 (uses (potential_noise a)) (gen h) (gen h1) /\ view f3 (uses (response_noise a)) (gen h) (gen h1) /\
    (forall r q, uses (occupation_noise a) r -> uses (potential_noise a) q -> f1 r <> f2 q) /\
    (forall r q, uses (occupation_noise a) r -> uses (response_noise a) q -> f1 r <> f3 q) /\
    (forall r q, uses (potential_noise a) r -> uses (response_noise a) q -> f2 r <> f3 q) /\
    (forall q, simulation_uses s q -> (next h <= q < next h1)%nat).
Proof.
  intros Z E. unfold new_simulation in E. destruct (deepcopy (occupation_noise a) h) as [o ho] eqn:E1.
  destruct (deepcopy (potential_noise a) ho) as [p hp] eqn:E2. destruct (deepcopy (response_noise a) hp) as [r hr] eqn:E3. injection E as <- <-.
  destruct (deepcopy_ok _ _ _ _ (fun r U => Z r (or_introl U)) E1) as (L1 & K1 & f1 & -> & I1 & V1 & R1).
  destruct (deepcopy_ok (potential_noise a) ho p hp) as (L2 & K2 & f2 & -> & I2 & V2 & R2); [|exact E2|].
  { intros q U. specialize (Z q (or_intror (or_introl U))). lia. }
  destruct (deepcopy_ok (response_noise a) hp r hr) as (L3 & K3 & f3 & -> & I3 & V3 & R3); [|exact E3|].
  { intros q U. specialize (Z q (or_intror (or_intror U))). lia. }
  split; [lia|]. split; [intros q Lq; rewrite K3, K2, K1 by lia; reflexivity|].
  exists f1, f2, f3. split; [reflexivity|]. split; [exact I1|]. split; [exact I2|]. split; [exact I3|].
  split; [intros q U; specialize (R1 q U); rewrite K3, K2 by lia; apply V1; exact U|].
  split; [intros q U; specialize (R2 q U); specialize (Z q (or_intror (or_introl U))); rewrite K3 by lia; rewrite (V2 q U); apply K1; exact Z|].
  split; [intros q U; specialize (Z q (or_intror (or_intror U))); rewrite (V3 q U), K2, K1 by lia; reflexivity|].
  split; [intros x y Ux Uy; specialize (R1 x Ux); specialize (R2 y Uy); lia|].
  split; [intros x y Ux Uy; specialize (R1 x Ux); specialize (R3 y Uy); lia|].
  split; [intros x y Ux Uy; specialize (R2 x Ux); specialize (R3 y Uy); lia|].
  intros q [U|[U|U]]; cbn in U; destruct (uses_rename _ _ _ U) as (y & Uy & ->).
  - specialize (R1 y Uy). lia.
  - specialize (R2 y Uy). lia.
  - specialize (R3 y Uy). lia.
Qed.
Lemma view_agree f (P : ref -> Prop) (g g1 g2 : ref -> G) : (forall r, P r -> g2 (f r) = g1 (f r)) -> view f P g g1 -> view f P g g2.
Proof. intros A W r Pr. rewrite A by exact Pr. apply W. exact Pr. Qed.
(** a new simulation draws from copies of the generators, one set per list, whatever happens to the other generators *)
Lemma simulation_apart a (h : generators) s h1 g xs : exist a h -> new_simulation a h = (s, h1) -> (forall q, (next h <= q < next h1)%nat -> g q = gen h1 q) ->
  fst (measures s xs g) = measures_apart a xs (gen h) (gen h) (gen h).
Proof.
  intros Z E A. destruct (simulation_built a h s h1 Z E) as (L & K & f1 & f2 & f3 & -> & I1 & I2 & I3 & V1 & V2 & V3 & N12 & N13 & N23 & R).
  assert (U : forall f l, (forall q, uses (map (rename f) l) q -> (next h <= q < next h1)%nat) -> forall r, uses l r -> g (f r) = gen h1 (f r)).
  { intros f l H r (o & Ho & Hr). apply A, H. exists (rename f o). split; [apply in_map; exact Ho|]. cbn. destruct Hr as [->|Hr]; [auto|right; apply in_map; exact Hr]. }
  apply measures_split; auto; (eapply view_agree; [|eassumption]); apply U; intros q H; apply R; unfold simulation_uses; cbn; auto.
Qed.
Lemma simulation_frame a (h : generators) s h1 xs g q : exist a h -> new_simulation a h = (s, h1) -> (q < next h \/ next h1 <= q)%nat -> snd (measures s xs g) q = g q.
Proof.
  intros Z E L. destruct (simulation_built a h s h1 Z E) as (_ & _ & f1 & f2 & f3 & _ & _ & _ & _ & _ & _ & _ & _ & _ & _ & R).
  apply measures_frame. intros U. specialize (R q U). lia.
Qed.
Lemma separate_apart a g xs : separate (occupation_noise a) (potential_noise a) -> separate (occupation_noise a) (response_noise a) ->
  separate (potential_noise a) (response_noise a) -> fst (measures a xs g) = measures_apart a xs g g g.
Proof.
  intros S1 S2 S3. assert (E : a = renamed (fun r => r) (fun r => r) (fun r => r) a) by (destruct a; unfold renamed; cbn; rewrite !rename_id; reflexivity).
  rewrite E at 1. apply measures_split; try (intros r q; auto); try (intros r U; reflexivity); try (intros H); try (intros H1 H2; subst; eauto).
Qed.
Lemma apart_agree (a : @simulation D X V) xs : forall g1 g2 g3 k1 k2 k3, (forall r, uses (occupation_noise a) r -> k1 r = g1 r) ->
  (forall r, uses (potential_noise a) r -> k2 r = g2 r) -> (forall r, uses (response_noise a) r -> k3 r = g3 r) ->
  measures_apart a xs k1 k2 k3 = measures_apart a xs g1 g2 g3.
Proof.
  induction xs as [|x xs IH]; intros g1 g2 g3 k1 k2 k3 A1 A2 A3; [reflexivity|]. cbn [SpecGenerators.measures_apart].
  pose proof (run_all_view (fun r => r) _ (occupation_noise a) (inj_id _) (fun r U => U) x g1 k1 A1) as H. rewrite rename_id in H. destruct H as [E1 W1].
  destruct (run_all (occupation_noise a) x k1) as [y1 p1], (run_all (occupation_noise a) x g1) as [x1 q1]. cbn [fst snd] in *. subst y1.
  pose proof (run_all_view (fun r => r) _ (potential_noise a) (inj_id _) (fun r U => U) (to_potential x1) g2 k2 A2) as H. rewrite rename_id in H. destruct H as [E2 W2].
  destruct (run_all (potential_noise a) (to_potential x1) k2) as [y2 p2], (run_all (potential_noise a) (to_potential x1) g2) as [x2 q2]. cbn [fst snd] in *. subst y2.
  pose proof (run_all_view (fun r => r) _ (response_noise a) (inj_id _) (fun r U => U) (to_response x2) g3 k3 A3) as H. rewrite rename_id in H. destruct H as [E3 W3].
  destruct (run_all (response_noise a) (to_response x2) k3) as [y3 p3], (run_all (response_noise a) (to_response x2) g3) as [x3 q3]. cbn [fst snd] in *. subst y3.
  f_equal. apply IH; assumption.
Qed.
End Proofs.

Lemma second_same {G D X V} (draw : D -> G -> X * G) (to_potential to_response : V -> V) a h s1 h1 s2 h2 xs ys zs :
  exist a h -> new_simulation a h = (s1, h1) ->
  new_simulation a (mk_generators (next h1) (snd (measures draw to_potential to_response s1 ys (gen h1)))) = (s2, h2) ->
  fst (measures draw to_potential to_response s2 xs (snd (measures draw to_potential to_response s1 zs (gen h2)))) =
  fst (measures draw to_potential to_response s1 xs (gen h1)).
Proof.
  intros E N1 N2. destruct (simulation_built a h s1 h1 E N1) as (L1 & K1 & _).
  set (g := snd (measures draw to_potential to_response s1 ys (gen h1))) in *.
  assert (E2 : exist a (mk_generators (next h1) g)) by (intros r U; specialize (E r U); cbn; lia).
  rewrite (simulation_apart draw to_potential to_response a _ s2 h2 _ xs E2 N2).
  2:{ intros q Lq. apply (simulation_frame draw to_potential to_response a h s1 h1 zs _ q E N1). cbn in Lq. lia. }
  rewrite (simulation_apart draw to_potential to_response a h s1 h1 (gen h1) xs E N1 (fun r _ => eq_refl)). cbn [gen].
  assert (A : forall r, (r < next h)%nat -> g r = gen h r)
    by (intros r Lr; unfold g; rewrite (simulation_frame draw to_potential to_response a h s1 h1 ys _ r E N1) by lia; apply K1; exact Lr).
  apply apart_agree; intros r U; apply A, E; unfold simulation_uses; auto.
Qed.
Lemma one_generator_twice : exists a (h h1 : @generators nat) (s : @simulation unit nat (list nat)) xs, exist a h /\ new_simulation a h = (s, h1) /\
  fst (measures count (fun v => v) (fun v => v) s xs (gen h1)) = [([], [10], [10; 10])]%nat /\
  fst (measures count (fun v => v) (fun v => v) a xs (gen h)) = [([], [10], [10; 11])]%nat.
Proof.
  exists one_generator, three_generators, (snd (new_simulation one_generator three_generators)), (fst (new_simulation one_generator three_generators)), [[]].
  split; [|vm_compute; auto]. intros r [(o & [] & _)|[(o & [<-|[]] & [->|[]])|(o & [<-|[]] & [->|[]])]]; cbn; lia.
Qed.
