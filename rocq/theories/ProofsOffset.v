(** Proofs about barriers with any denominator offset. *)
From Verif Require Import RPrelude ModelSupport ModelSensor SpecSupport SpecSensor ProofsSupport ProofsSensor.
Local Open Scope R_scope.

Lemma reached_range p x pct : glf_admissible p -> percentage_reached p x pct ->
  strictly_between (asymptote_left p) (glf_far_asymptote p) (Rmin (asymptote_left p) (asymptote_right p) + pct * Rabs (asymptote_right p - asymptote_left p)).
Proof. intros H E. unfold percentage_reached in E. rewrite <- E. apply glf_bound. exact H. Qed.
Lemma reached_there p x pct : glf_admissible p -> percentage_reached p x pct -> percentage_reached p (glf_percentage p pct) pct.
Proof.
  intros H E. pose proof (reached_range p x pct H E) as B. unfold percentage_reached, glf_percentage.
  rewrite rmin_abs. apply (proj2 (glf_round_trip p H)). exact B.
Qed.
Lemma any_offset p pinch full b : glf_admissible p -> barrier_glf p pinch full = Ok b ->
  ((exists x, percentage_reached p x pinch) -> percentage_reached p (pinch_off b) pinch) /\
  ((exists x, percentage_reached p x full) -> percentage_reached p (fully_conductive b) full) /\
  (forall x, get_value b x = glf p x).
Proof.
  intros H E. unfold barrier_glf, raise_if in E. destruct (Rleb (asymmetry p) 0); [discriminate|]. injection E as <-. cbn.
  split; [|split; [|reflexivity]]; intros [x Hx]; exact (reached_there p x _ H Hx).
Qed.
Lemma reachable p pct : glf_admissible p -> asymptote_left p < asymptote_right p ->
  ((exists x, percentage_reached p x pct) <-> 0 < pct /\ pct * Rpower (denominator_offset p) (1 / asymmetry p) < 1).
Proof.
  intros H L. pose proof (Rpower_pos (denominator_offset p) (1 / asymmetry p)) as P.
  assert (F : glf_far_asymptote p = asymptote_left p + (asymptote_right p - asymptote_left p) / Rpower (denominator_offset p) (1 / asymmetry p)) by reflexivity.
  set (c := Rpower _ _) in *.
  assert (Q : forall v, strictly_between (asymptote_left p) (glf_far_asymptote p) v <-> asymptote_left p < v /\ (v - asymptote_left p) * c < asymptote_right p - asymptote_left p).
  { intros v. rewrite F. assert (D : 0 < (asymptote_right p - asymptote_left p) / c) by (apply Rdiv_lt_0_compat; lra).
    assert (E : (asymptote_right p - asymptote_left p) / c * c = asymptote_right p - asymptote_left p) by (field; lra).
    unfold strictly_between. split.
    - intros [Hv|Hv]; [|lra]. split; [lra|]. rewrite <- E. apply Rmult_lt_compat_r; lra.
    - intros [H1 H2]. left. split; [exact H1|]. rewrite <- E in H2. apply Rmult_lt_reg_r in H2; lra. }
  assert (V : Rmin (asymptote_left p) (asymptote_right p) + pct * Rabs (asymptote_right p - asymptote_left p)
    = asymptote_left p + pct * (asymptote_right p - asymptote_left p)) by (rewrite Rmin_left, Rabs_pos_eq by lra; reflexivity).
  assert (Z : strictly_between (asymptote_left p) (glf_far_asymptote p) (Rmin (asymptote_left p) (asymptote_right p) + pct * Rabs (asymptote_right p - asymptote_left p))
    <-> 0 < pct /\ pct * c < 1).
  { rewrite V, Q. set (h := asymptote_right p - asymptote_left p) in *. assert (0 < h) by (unfold h; lra).
    replace (asymptote_left p + pct * h - asymptote_left p) with (pct * h) by ring. split; intros [H1 H2].
    - split; [apply (Rmult_lt_reg_r h); lra|]. apply (Rmult_lt_reg_r h); [assumption|]. replace (pct * c * h) with (pct * h * c) by ring. lra.
    - split; [assert (0 < pct * h) by (apply Rmult_lt_0_compat; assumption); lra|]. replace (pct * h * c) with (pct * c * h) by ring.
      apply (Rmult_lt_compat_r h) in H2; [lra|assumption]. }
  split.
  - intros [x Hx]. apply Z. exact (reached_range p x pct H Hx).
  - intros B. apply Z in B. exists (inverse_glf p (Rmin (asymptote_left p) (asymptote_right p) + pct * Rabs (asymptote_right p - asymptote_left p))).
    unfold percentage_reached. apply (proj2 (glf_round_trip p H)). exact B.
Qed.
Lemma reachable_falling p pct : glf_admissible p -> asymptote_right p < asymptote_left p ->
  ((exists x, percentage_reached p x pct) <-> pct < 1 /\ (1 - pct) * Rpower (denominator_offset p) (1 / asymmetry p) < 1).
Proof.
  intros H L. pose proof (Rpower_pos (denominator_offset p) (1 / asymmetry p)) as P.
  assert (F : glf_far_asymptote p = asymptote_left p + (asymptote_right p - asymptote_left p) / Rpower (denominator_offset p) (1 / asymmetry p)) by reflexivity.
  set (c := Rpower _ _) in *.
  assert (Q : forall v, strictly_between (asymptote_left p) (glf_far_asymptote p) v <-> v < asymptote_left p /\ (asymptote_left p - v) * c < asymptote_left p - asymptote_right p).
  { intros v. replace (glf_far_asymptote p) with (asymptote_left p - (asymptote_left p - asymptote_right p) / c) by (rewrite F; field; lra).
    assert (D : 0 < (asymptote_left p - asymptote_right p) / c) by (apply Rdiv_lt_0_compat; lra).
    assert (E : (asymptote_left p - asymptote_right p) / c * c = asymptote_left p - asymptote_right p) by (field; lra).
    unfold strictly_between. split.
    - intros [Hv|Hv]; [lra|]. split; [lra|]. rewrite <- E. apply Rmult_lt_compat_r; lra.
    - intros [H1 H2]. right. rewrite <- E in H2. apply Rmult_lt_reg_r in H2; lra. }
  assert (V : Rmin (asymptote_left p) (asymptote_right p) + pct * Rabs (asymptote_right p - asymptote_left p)
    = asymptote_right p + pct * (asymptote_left p - asymptote_right p)) by (rewrite Rmin_right, Rabs_left by lra; ring).
  assert (Z : strictly_between (asymptote_left p) (glf_far_asymptote p) (Rmin (asymptote_left p) (asymptote_right p) + pct * Rabs (asymptote_right p - asymptote_left p))
    <-> pct < 1 /\ (1 - pct) * c < 1).
  { rewrite V, Q. set (h := asymptote_left p - asymptote_right p) in *. assert (0 < h) by (unfold h; lra).
    replace (asymptote_left p - (asymptote_right p + pct * h)) with ((1 - pct) * h) by (unfold h; ring).
    assert (W : asymptote_right p + pct * h < asymptote_left p <-> 0 < (1 - pct) * h).
    { replace ((1 - pct) * h) with (asymptote_left p - (asymptote_right p + pct * h)) by (unfold h; ring). lra. }
    rewrite W. split; intros [H1 H2].
    - split; [assert (0 < 1 - pct) by (apply (Rmult_lt_reg_r h); lra); lra|].
      apply (Rmult_lt_reg_r h); [assumption|]. replace ((1 - pct) * c * h) with ((1 - pct) * h * c) by ring. lra.
    - split; [apply Rmult_lt_0_compat; lra|]. replace ((1 - pct) * h * c) with ((1 - pct) * c * h) by ring.
      apply (Rmult_lt_compat_r h) in H2; [lra|assumption]. }
  split.
  - intros [x Hx]. apply Z. exact (reached_range p x pct H Hx).
  - intros B. apply Z in B. exists (inverse_glf p (Rmin (asymptote_left p) (asymptote_right p) + pct * Rabs (asymptote_right p - asymptote_left p))).
    unfold percentage_reached. apply (proj2 (glf_round_trip p H)). exact B.
Qed.
(** A barrier that reaches half of its height only. *)
Definition half_barrier : glf_params :=
  {| asymptote_left := 0; asymptote_right := 1; growth_rate := 1; asymmetry := 1; shape_factor := 1; denominator_offset := 2; offset := 0 |}.
Lemma half_admissible : glf_admissible half_barrier.
Proof. unfold glf_admissible. cbn. repeat split; lra. Qed.
Lemma never_reached : glf_admissible half_barrier /\ (forall pct, 0 < pct < 1/2 -> exists x, percentage_reached half_barrier x pct) /\
  (forall pct x, 1/2 <= pct -> ~ percentage_reached half_barrier x pct).
Proof.
  assert (E : Rpower (denominator_offset half_barrier) (1 / asymmetry half_barrier) = 2).
  { cbn. replace (1 / 1) with 1 by field. apply Rpower_1. lra. }
  split; [exact half_admissible|]. split.
  - intros pct H. apply reachable; [exact half_admissible|cbn; lra|]. rewrite E. lra.
  - intros pct x H X. assert (Y : 0 < pct /\ pct * Rpower (denominator_offset half_barrier) (1 / asymmetry half_barrier) < 1).
    { apply reachable; [exact half_admissible|cbn; lra|eauto]. }
    rewrite E in Y. lra.
Qed.
Lemma half_made pinch full : exists b, barrier_glf half_barrier pinch full = Ok b.
Proof.
  unfold barrier_glf, raise_if. cbn [asymmetry half_barrier]. destruct (Rleb 1 0) eqn:E; [|eexists; reflexivity].
  revert E. rewrite Rleb_false by lra. discriminate.
Qed.
Lemma never_reached_offset : exists p, glf_admissible p /\ (forall pinch full, exists b, barrier_glf p pinch full = Ok b) /\
  (forall pct, 0 < pct < 1/2 -> exists x, percentage_reached p x pct) /\
  (forall pct x, 1/2 <= pct -> ~ percentage_reached p x pct).
Proof. exists half_barrier. destruct never_reached as (A & B & C). auto using half_made. Qed.
