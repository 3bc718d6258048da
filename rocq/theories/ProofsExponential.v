(** Proofs about the exponential sampler. *)
From Verif Require Import RPrelude ModelSampling SpecSampling ProofsSampling.
From Verif Require Import ModelConfig.
Local Open Scope R_scope.

Section P.
Context {G : Type}.
Variable r : rng G.

Lemma sampler_distribution a total sr g s w g1 : new_sampler r a total sr g = (s, w, g1) ->
  match a with
  | ANormal std (Some mean) => sm_dist s = DNormal mean std
  | ANormal std None => sm_dist s = DNormal ((fst (sm_range s) + snd (sm_range s)) / 2) std
  | AUniform => sm_dist s = DUniform
  | ALogNormal mean sigma => sm_dist s = DLogNormal mean sigma
  | AExponential scale => sm_dist s = DExponential scale
  end.
Proof.
  destruct a as [std [m|]| | |]; cbn [new_sampler].
  1-4: destruct (narrow r total sr g) as [[rg w'] g'] eqn:E; intros [= <- <- <-]; cbn; auto.
  destruct (narrow_exponential r total sr g) as [[rg w'] g'] eqn:E; intros [= <- <- <-]; reflexivity.
Qed.

Lemma exponential_drawn scale rg n g : exists g', nth_draw r (DExponential scale) rg n g =
  fst rg + fst (r_exponential r scale g') * (snd rg - fst rg).
Proof. revert g. induction n as [|n IH]; intros g; cbn [nth_draw one_draw fst snd]; [exists g; ring|apply IH]. Qed.

Lemma exponential_sample scale total sr g s w g1 fuel g2 v s' g3 : uniform_ok r -> admissible_width sr ->
  new_sampler r (AExponential scale) total sr g = (s, w, g1) -> sample_parameter r fuel s g2 = Some (v, s', g3) ->
  exists g', v = fst (sm_range s) + fst (r_exponential r scale g') * (snd (sm_range s) - fst (sm_range s)).
Proof.
  intros U A H E. pose proof (sampler_distribution _ _ _ _ _ _ _ H) as D. simpl in D.
  pose proof (new_well_ordered r (AExponential scale) total sr g s w g1 U I A H) as Wo.
  destruct (sample_first r _ _ _ _ _ _ U Wo E) as (_ & _ & _ & _ & n & _ & -> & _). rewrite D. apply exponential_drawn.
Qed.

Lemma exponential_ordered scale total sr g s w g1 fuel g2 v s' g3 : uniform_ok r -> ordered total -> admissible_width sr ->
  new_sampler r (AExponential scale) total sr g = (s, w, g1) -> sample_parameter r fuel s g2 = Some (v, s', g3) ->
  let lo := Rmin (fst (sm_range s)) (snd (sm_range s)) in let hi := Rmax (fst (sm_range s)) (snd (sm_range s)) in
  exists g', v = lo + fst (r_exponential r scale g') * (hi - lo).
Proof.
  intros U O A H E. destruct (exponential_sample _ _ _ _ _ _ _ _ _ _ _ _ U A H E) as (g' & ->). exists g'.
  destruct (new_sampler_spec r (AExponential scale) total sr g s w g1 U I A H) as (_ & _ & _ & Q & _). specialize (Q O). unfold ordered in Q.
  rewrite Rmin_left, Rmax_right by exact Q. reflexivity.
Qed.

Lemma exponential_reversed scale total sr g s w g1 fuel g2 v s' g3 : uniform_ok r -> snd total <= fst total -> admissible_width sr ->
  new_sampler r (AExponential scale) total sr g = (s, w, g1) -> sample_parameter r fuel s g2 = Some (v, s', g3) ->
  let lo := Rmin (fst (sm_range s)) (snd (sm_range s)) in let hi := Rmax (fst (sm_range s)) (snd (sm_range s)) in
  exists g', v = hi - fst (r_exponential r scale g') * (hi - lo).
Proof.
  intros U O A H E. destruct (exponential_sample _ _ _ _ _ _ _ _ _ _ _ _ U A H E) as (g' & ->). exists g'.
  destruct (new_sampler_spec r (AExponential scale) total sr g s w g1 U I A H) as (_ & _ & _ & _ & Q & _). specialize (Q O). unfold ordered in Q. cbn [fst snd] in Q.
  rewrite Rmin_right, Rmax_left by exact Q. ring.
Qed.
End P.

Lemma quantile p q : 0 < p < 1 -> 0 < q ->
  let scale := q / ln (1 / (1 - p)) in
  0 < scale /\ exponential_cdf scale q = p /\ p < exponential_cdf scale q / exponential_cdf scale 1.
Proof.
  intros Hp Hq scale. assert (L : 0 < ln (1 / (1 - p))).
  { rewrite <- ln_1. apply ln_increasing; [lra|]. apply (Rmult_lt_reg_r (1 - p)); [lra|]. field_simplify; lra. }
  assert (Sp : 0 < scale) by (apply Rdiv_lt_0_compat; lra).
  assert (E : exponential_cdf scale q = p).
  { unfold exponential_cdf, scale. replace (q / (q / ln (1 / (1 - p)))) with (ln (1 / (1 - p))) by (field; lra).
    rewrite exp_Ropp, exp_ln by (apply Rdiv_lt_0_compat; lra). field. lra. }
  split; auto. split; auto. rewrite E.
  assert (0 < exponential_cdf scale 1 < 1).
  { unfold exponential_cdf. split; [|pose proof (exp_pos (- (1 / scale))); lra].
    assert (exp (- (1 / scale)) < exp 0); [|rewrite exp_0 in *; lra]. apply exp_increasing.
    assert (0 < 1 / scale) by (apply Rdiv_lt_0_compat; lra). lra. }
  apply (Rmult_lt_reg_r (exponential_cdf scale 1)); [lra|]. unfold Rdiv. rewrite Rmult_assoc, Rinv_l by lra. nra.
Qed.

Lemma config_quantile k : 0 < k -> exponential_cdf (exponential_scale k) (0.6 * k) = 0.99.
Proof. intros H. exact (proj1 (proj2 (quantile 0.99 (0.6 * k) ltac:(lra) ltac:(lra)))). Qed.
