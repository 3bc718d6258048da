From Verif Require Import RPrelude ModelSampling SpecSampling.
Local Open Scope R_scope.

Section P.
Context {G : Type} (r : rng G).

Ltac mm := unfold within, width, ordered, Rmin, Rmax, Rabs in *; cbn [fst snd] in *;
  repeat match goal with
  | |- context [Rle_dec ?a ?b] => destruct (Rle_dec a b)
  | H : context [Rle_dec ?a ?b] |- _ => destruct (Rle_dec a b)
  | |- context [Rcase_abs ?a] => destruct (Rcase_abs a)
  | H : context [Rcase_abs ?a] |- _ => destruct (Rcase_abs a) end; try lra.

Lemma narrow_spec total sr g rg w g' : uniform_ok r -> ordered total -> admissible_width sr ->
  narrow r total sr g = (rg, w, g') ->
  within total (fst rg) /\ within total (snd rg) /\ ordered rg /\
  width rg = match sr with None => width total | Some x => Rmin x (width total) end /\
  (w = true <-> exists x, sr = Some x /\ width total <= x).
Proof.
  intros U O A. destruct total as [a b]. unfold narrow, ordered in *. cbn [fst snd] in *. destruct sr as [x|].
  - cbn in A. destruct (Rleb_spec (b - a) x).
    + intros [= <- <- <-]. repeat split; intros; mm. exists x. split; [reflexivity|]. mm.
    + destruct (r_uniform r _ _ g) as [c g1] eqn:E. intros [= <- <- <-].
      pose proof (U (a + 1 / 2 * x) (b - 1 / 2 * x) g ltac:(lra)) as B. rewrite E in B. cbn [fst] in B.
      repeat split; intros; try discriminate; mm. destruct H as (y & [= <-] & H). mm.
  - intros [= <- <- <-]. repeat split; intros; try discriminate; mm. destruct H as (y & [=] & _).
Qed.

Lemma narrow_exp_spec total sr g rg w g' : uniform_ok r -> admissible_width sr ->
  narrow_exponential r total sr g = (rg, w, g') ->
  within total (fst rg) /\ within total (snd rg) /\ (fst total < snd total -> ordered rg) /\
  (snd total <= fst total -> ordered (snd rg, fst rg)) /\
  width rg = match sr with None => width total | Some x => Rmin x (width total) end /\
  (w = true <-> exists x, sr = Some x /\ width total <= x).
Proof.
  intros U A. destruct total as [a b]. unfold narrow_exponential. cbn [fst snd] in *. destruct sr as [x|].
  - cbn in A. destruct (Rleb_spec (Rmax a b - Rmin a b) x).
    + intros [= <- <- <-]. repeat split; intros; mm; exists x; (split; [reflexivity|]); mm.
    + destruct (r_uniform r _ _ g) as [c g1] eqn:E.
      pose proof (U (Rmin a b + 1 / 2 * x) (Rmax a b - 1 / 2 * x) g ltac:(lra)) as B. rewrite E in B. cbn [fst] in B.
      destruct (Rltb_spec a b); intros [= <- <- <-];
      (repeat split; intros; try discriminate; mm; destruct H as (y & [= <-] & H); mm).
  - intros [= <- <- <-]. repeat split; intros; try discriminate; mm; destruct H as (y & [=] & _).
Qed.

Lemma new_sampler_spec a total sr g s w g' : uniform_ok r -> admissible_range a total -> admissible_width sr ->
  new_sampler r a total sr g = (s, w, g') ->
  within total (fst (sm_range s)) /\ within total (snd (sm_range s)) /\
  width (sm_range s) = match sr with None => width total | Some x => Rmin x (width total) end /\
  (ordered total -> ordered (sm_range s)) /\ (ordered (snd total, fst total) -> ordered (snd (sm_range s), fst (sm_range s))) /\
  (w = true <-> exists x, sr = Some x /\ width total <= x) /\ last_sample s = None.
Proof.
  intros U O A. destruct a as [std mean| |mean sigma|scale]; cbn [new_sampler admissible_range] in *.
  1-3: destruct (narrow r total sr g) as [[rg w'] g1] eqn:E; intros [= <- <- <-]; cbn [sm_range last_sample sm_last];
    destruct (narrow_spec _ _ _ _ _ _ U O A E) as (H1 & H2 & H3 & H4 & H5); repeat (split; [assumption|]); split; [auto|];
    split; [|auto]; intros Q; destruct total as [p q], rg as [p' q']; unfold ordered in *; cbn [fst snd] in *;
    assert (p = q) by lra; subst q; mm.
  destruct (narrow_exponential r total sr g) as [[rg w'] g1] eqn:E; intros [= <- <- <-]; cbn [sm_range last_sample sm_last].
  destruct (narrow_exp_spec _ _ _ _ _ _ U A E) as (H1 & H2 & H3 & H3' & H4 & H5). repeat (split; [assumption|]).
  split; [|split; [exact H3'|auto]].
  intros Q. destruct (Rle_lt_or_eq_dec _ _ Q) as [L|L]; [exact (H3 L)|].
  destruct total as [p q], rg as [p' q']; cbn [fst snd] in *; subst q. mm.
Qed.

Definition dord (d : distribution) (rg : R * R) : Prop :=
  match d with DExponential _ => True | _ => ordered rg end.
Definition well_ordered (s : sampler) : Prop := dord (sm_dist s) (sm_range s).

Lemma rejected_within d rg v : dord d rg -> d <> DUniform ->
  rejected d rg v = false <-> within rg v.
Proof.
  intros O N. destruct d; cbn [rejected]; cbn in O; try (now elim N);
  rewrite Bool.orb_false_iff; (split; [intros [H1 H2]|intros H; split; (apply Rltb_false; mm)]);
  repeat match goal with H : Rltb ?a ?b = false |- _ => destruct (Rltb_spec a b); [discriminate|clear H] end; mm.
Qed.

Lemma draw_one d rg g : draw r d rg g = one_draw r d rg g.
Proof. destruct d; try reflexivity. cbn. destruct (r_exponential r scale g) as [e g1]. cbn. f_equal. ring. Qed.

Lemma draw_until_spec fuel d rg g v g' :
  draw_until r fuel d rg g = Some (v, g') ->
  exists n, (n < fuel)%nat /\ v = nth_draw r d rg n g /\ rejected d rg v = false /\
    forall k, (k < n)%nat -> rejected d rg (nth_draw r d rg k g) = true.
Proof.
  revert g. induction fuel as [|f IH]; intros g H; [discriminate|]. cbn [draw_until] in H. rewrite draw_one in H.
  destruct (one_draw r d rg g) as [v1 g1] eqn:E. destruct (rejected d rg v1) eqn:R.
  - destruct (IH _ H) as (n & L & Ev & Rv & K). exists (S n). split; [lia|]. cbn [nth_draw]. rewrite E. cbn [fst snd].
    split; [exact Ev|]. split; [exact Rv|]. intros [|k] Hk; cbn [nth_draw]; rewrite E; cbn [fst snd]; [exact R|apply K; lia].
  - injection H as <- <-. exists 0%nat. split; [lia|]. cbn [nth_draw]. rewrite E. split; [reflexivity|]. split; [exact R|]. lia.
Qed.
Lemma draw_until_none fuel d rg g : draw_until r fuel d rg g = None ->
  forall k, (k < fuel)%nat -> rejected d rg (nth_draw r d rg k g) = true.
Proof.
  revert g. induction fuel as [|f IH]; intros g H k Hk; [lia|]. cbn [draw_until] in H. rewrite draw_one in H.
  destruct (one_draw r d rg g) as [v1 g1] eqn:E. destruct (rejected d rg v1) eqn:R; [|discriminate].
  destruct k; cbn [nth_draw]; rewrite E; cbn [fst snd]; [exact R|apply IH; [exact H|lia]].
Qed.

(** A call returns the first draw within the range, and returns as soon as there is one. *)
Lemma sample_first s fuel g v s' g' : uniform_ok r -> well_ordered s ->
  sample_parameter r fuel s g = Some (v, s', g') ->
  within (sm_range s) v /\ last_sample s' = Some v /\ sm_range s' = sm_range s /\ sm_dist s' = sm_dist s /\
  exists n, (n < fuel)%nat /\ v = nth_draw r (sm_dist s) (sm_range s) n g /\
    forall k, (k < n)%nat -> ~ within (sm_range s) (nth_draw r (sm_dist s) (sm_range s) k g).
Proof.
  intros U O H. unfold sample_parameter in H. destruct (draw_until r fuel _ _ g) as [[v1 g1]|] eqn:E; [|discriminate].
  injection H as <- <- <-. destruct (draw_until_spec _ _ _ _ _ _ E) as (n & L & Ev & Rv & K). cbn.
  unfold well_ordered in O. destruct (sm_dist s) as [m sd| |m sg|sc] eqn:D.
  2:{ assert (n = 0)%nat as -> by (destruct n; [reflexivity|]; discriminate (K 0%nat ltac:(lia))).
      split; [|repeat (split; [reflexivity|]); exists 0%nat; repeat (split; [assumption|]); lia].
      cbn [nth_draw one_draw] in Ev. destruct (sm_range s) as [lo hi]. cbn [fst snd] in *. subst v1.
      cbn in O. specialize (U lo hi g O). unfold ordered in O. cbn in *. mm. }
  all: split; [apply (rejected_within _ _ _ O) in Rv; [exact Rv|discriminate]|]; repeat (split; [reflexivity|]);
    exists n; repeat (split; [assumption|]); intros k Hk W; apply (rejected_within _ _ _ O ltac:(discriminate)) in W;
    rewrite (K k Hk) in W; discriminate.
Qed.
Lemma sample_returns s fuel g n : uniform_ok r -> well_ordered s -> (n < fuel)%nat ->
  within (sm_range s) (nth_draw r (sm_dist s) (sm_range s) n g) ->
  exists v s' g', sample_parameter r fuel s g = Some (v, s', g').
Proof.
  intros U O L W. unfold sample_parameter. destruct (draw_until r fuel _ _ g) as [[v1 g1]|] eqn:E; [eauto|].
  pose proof (draw_until_none _ _ _ _ E n L) as K. unfold well_ordered in O.
  destruct (sm_dist s) eqn:D; [|discriminate K| |];
  apply (rejected_within _ _ _ O ltac:(discriminate)) in W; rewrite W in K; discriminate.
Qed.

Lemma within_sub total rg v : within total (fst rg) -> within total (snd rg) -> within rg v -> within total v.
Proof. destruct total, rg. intros. mm. Qed.
Lemma within_diff rg x y : within rg x -> within rg y -> Rabs (x - y) <= width rg.
Proof. destruct rg. intros. mm. Qed.

Lemma new_well_ordered a total sr g s w g' : uniform_ok r -> admissible_range a total -> admissible_width sr ->
  new_sampler r a total sr g = (s, w, g') -> well_ordered s.
Proof.
  intros U O A H. destruct (new_sampler_spec _ _ _ _ _ _ _ U O A H) as (_ & _ & _ & Q & _).
  unfold well_ordered, dord. destruct a; cbn [new_sampler admissible_range] in *.
  1-3: destruct (narrow r total sr g) as [[rg w'] g1] eqn:E; injection H as <- <- <-; cbn in *; auto.
  destruct (narrow_exponential r total sr g) as [[rg w'] g1] eqn:E; injection H as <- <- <-; cbn; exact I.
Qed.

Lemma sample_many_spec fuel n s g vs s' g' : uniform_ok r -> well_ordered s ->
  sample_many r fuel n s g = Some (vs, s', g') ->
  length vs = n /\ Forall (within (sm_range s)) vs /\ sm_range s' = sm_range s /\ sm_dist s' = sm_dist s /\
  last_sample s' = match rev vs with [] => last_sample s | v :: _ => Some v end.
Proof.
  intros U. revert s g vs s' g'. induction n as [|n IH]; intros s g vs s' g' O H; cbn [sample_many] in H.
  - injection H as <- <- <-. repeat split; constructor.
  - destruct (sample_parameter r fuel s g) as [[[v s1] g1]|] eqn:E; [|discriminate].
    destruct (sample_many r fuel n s1 g1) as [[[vs1 s2] g2]|] eqn:E2; [|discriminate]. injection H as <- <- <-.
    destruct (sample_first _ _ _ _ _ _ U O E) as (W & L & Rg & D & _).
    assert (O1 : well_ordered s1) by (unfold well_ordered in *; rewrite D, Rg; exact O).
    destruct (IH _ _ _ _ _ O1 E2) as (Ln & F & R2 & D2 & L2). rewrite Rg in *. rewrite D in *.
    cbn [length]. repeat split; try congruence; [constructor; assumption|].
    rewrite L2. cbn [rev]. destruct (rev vs1) as [|x t]; cbn; [exact L|reflexivity].
Qed.

(** ** Statements used by the properties *)
Lemma sampled_in_total a total sr g s w g1 fuel n g2 vs s' g3 : uniform_ok r -> admissible_range a total -> admissible_width sr ->
  new_sampler r a total sr g = (s, w, g1) -> sample_many r fuel n s g2 = Some (vs, s', g3) ->
  length vs = n /\ Forall (within total) vs.
Proof.
  intros U O A H E. destruct (new_sampler_spec _ _ _ _ _ _ _ U O A H) as (W1 & W2 & _).
  destruct (sample_many_spec _ _ _ _ _ _ _ U (new_well_ordered _ _ _ _ _ _ _ U O A H) E) as (L & F & _).
  split; [exact L|]. eapply Forall_impl; [|exact F]. intros v. apply within_sub; assumption.
Qed.
Lemma sampled_close a total x g s w g1 fuel n g2 vs s' g3 : uniform_ok r -> admissible_range a total -> 0 <= x ->
  new_sampler r a total (Some x) g = (s, w, g1) -> sample_many r fuel n s g2 = Some (vs, s', g3) ->
  forall u v, In u vs -> In v vs -> Rabs (u - v) <= x.
Proof.
  intros U O A H E u v Iu Iv. change (admissible_width (Some x)) in A. destruct (new_sampler_spec _ _ _ _ _ _ _ U O A H) as (_ & _ & Wd & _).
  destruct (sample_many_spec _ _ _ _ _ _ _ U (new_well_ordered _ _ _ _ _ _ _ U O A H) E) as (_ & F & _).
  rewrite Forall_forall in F. pose proof (within_diff _ _ _ (F _ Iu) (F _ Iv)). rewrite Wd in *. mm.
Qed.
Lemma sampled_first a total sr g s w g1 fuel g2 : uniform_ok r -> admissible_range a total -> admissible_width sr ->
  new_sampler r a total sr g = (s, w, g1) ->
  let drawn k := nth_draw r (sm_dist s) (sm_range s) k g2 in
  (forall v s' g3, sample_parameter r fuel s g2 = Some (v, s', g3) ->
     exists n, (n < fuel)%nat /\ v = drawn n /\ within (sm_range s) (drawn n) /\ forall k, (k < n)%nat -> ~ within (sm_range s) (drawn k)) /\
  (sample_parameter r fuel s g2 = None -> forall k, (k < fuel)%nat -> ~ within (sm_range s) (drawn k)).
Proof.
  intros U O A H drawn. pose proof (new_well_ordered _ _ _ _ _ _ _ U O A H) as Wo. split.
  - intros v s' g3 E. destruct (sample_first _ _ _ _ _ _ U Wo E) as (W & _ & _ & _ & n & L & Ev & K).
    exists n. unfold drawn. rewrite <- Ev. auto.
  - intros E k L W. destruct (sample_returns s fuel g2 k U Wo L W) as (v & s' & g' & E'). congruence.
Qed.
Lemma sampled_last fuel n s g vs v s' g' : uniform_ok r -> well_ordered s ->
  sample_many r fuel n s g = Some (vs ++ [v], s', g') -> last_sample s' = Some v.
Proof.
  intros U O E. destruct (sample_many_spec _ _ _ _ _ _ _ U O E) as (_ & _ & _ & _ & L). rewrite L, rev_app_distr. reflexivity.
Qed.

(** The default mean is the centre of the narrowed range. *)
Lemma default_mean_spec std total x g s w g1 m sd : ordered total -> 0 <= x < width total ->
  new_sampler r (ANormal std None) total (Some x) g = (s, w, g1) -> sm_dist s = DNormal m sd ->
  sd = std /\ m = fst (r_uniform r (fst total + 1 / 2 * x) (snd total - 1 / 2 * x) g).
Proof.
  intros O A H D. cbn [new_sampler] in H. unfold narrow in H. destruct total as [a b]. cbn [fst snd] in *.
  rewrite Rleb_false in H by mm. destruct (r_uniform r _ _ g) as [c g2]. injection H as <- <- <-. cbn in D. injection D as <- <-.
  split; [reflexivity|]. cbn. lra.
Qed.
Lemma default_mean_total std mean total g s w g1 m sd :
  new_sampler r (ANormal std mean) total None g = (s, w, g1) -> sm_dist s = DNormal m sd ->
  sd = std /\ m = match mean with Some m' => m' | None => (fst total + snd total) / 2 end.
Proof. cbn. intros [= <- <- <-]. cbn. intros [= <- <-]. auto. Qed.
End P.

(** Generators used as examples: numbers are taken from a list of seeds. *)
Definition demo_rng : rng (list R) := {|
  r_uniform lo hi g := match g with [] => (lo, []) | u :: t => (lo + Rmax 0 (Rmin 1 u) * (hi - lo), t) end;
  r_normal m sd g := match g with [] => (m, []) | u :: t => (m + u * sd, t) end;
  r_lognormal m sd g := match g with [] => (exp m, []) | u :: t => (exp (m + u * sd), t) end;
  r_exponential sc g := match g with [] => (0, []) | u :: t => (u * sc, t) end |}.
Lemma demo_rng_ok : uniform_ok demo_rng.
Proof.
  intros lo hi g H. cbn. destruct g as [|u t]; cbn; [lra|].
  assert (0 <= Rmax 0 (Rmin 1 u) <= 1) by (unfold Rmax, Rmin; repeat destruct Rle_dec; lra).
  set (q := Rmax 0 (Rmin 1 u)) in *. clearbody q. nra.
Qed.
(** Reversed ranges never yield a normal sample. *)
Lemma reversed_never {G} (r : rng G) std mean a b g s w g1 fuel g2 : b < a ->
  new_sampler r (ANormal std mean) (a, b) None g = (s, w, g1) -> sample_parameter r fuel s g2 = None.
Proof.
  intros L. cbn. intros [= <- <- <-]. unfold sample_parameter. cbn [sm_dist sm_range].
  enough (draw_until r fuel (DNormal match mean with Some m => m | None => (a + b) / 2 end std) (a, b) g2 = None) as -> by reflexivity.
  revert g2. induction fuel as [|f IH]; intros g2; [reflexivity|]. cbn [draw_until]. destruct (draw r _ _ g2) as [v g3].
  cbn [rejected fst snd]. replace (Rltb v a || Rltb b v)%bool with true; [apply IH|].
  symmetry. apply Bool.orb_true_iff. destruct (Rlt_dec v a); [left|right]; apply Rltb_true; lra.
Qed.
