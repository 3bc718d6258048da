(** Samples and generator after sampling. *)
From Verif Require Import RPrelude SpecHeights ModelSampling SpecSampling ProofsSampling ProofsExponential.
Local Open Scope R_scope.

Section P.
Context {G : Type}.
Variable r : rng G.

Lemma draw_one d rg g : draw r d rg g = one_draw r d rg g.
Proof. destruct d; try reflexivity. cbn. destruct (r_exponential r scale g). cbn. f_equal. ring. Qed.

Lemma nth_draw_after d rg n : forall g, SpecSampling.nth_draw r d rg n g = SpecHeights.nth_draw (one_draw r d rg) n g.
Proof. induction n as [|n IH]; intros g; [reflexivity|]. exact (IH _). Qed.

Lemma until_after d rg : forall fuel g v g3, draw_until r fuel d rg g = Some (v, g3) ->
  exists n, (n < fuel)%nat /\ v = SpecHeights.nth_draw (one_draw r d rg) n g /\ g3 = SpecHeights.after_draws (one_draw r d rg) (S n) g /\
    rejected d rg v = false /\ forall k, (k < n)%nat -> rejected d rg (SpecHeights.nth_draw (one_draw r d rg) k g) = true.
Proof.
  induction fuel as [|fuel IH]; intros g v g3 H; [discriminate|]. cbn [draw_until] in H. rewrite draw_one in H.
  destruct (one_draw r d rg g) as [x g1] eqn:E. destruct (rejected d rg x) eqn:Rj.
  - destruct (IH g1 v g3 H) as (n & L & Ev & Eg & Rv & K). exists (S n). split; [lia|].
    split; [|split; [|split; [exact Rv|]]].
    + rewrite Ev. unfold SpecHeights.nth_draw. cbn [SpecHeights.after_draws]. now rewrite E.
    + rewrite Eg. cbn [SpecHeights.after_draws]. now rewrite E.
    + intros [|k] Lk; unfold SpecHeights.nth_draw; cbn [SpecHeights.after_draws]; rewrite E; [exact Rj|]. apply K. lia.
  - injection H as <- <-. exists 0%nat. split; [lia|]. unfold SpecHeights.nth_draw. cbn [SpecHeights.after_draws]. rewrite E. cbn.
    repeat split; [exact Rj|]. intros k Lk. lia.
Qed.

Lemma sampled_after fuel s g v s' g3 : sample_parameter r fuel s g = Some (v, s', g3) ->
  let number := one_draw r (sm_dist s) (sm_range s) in
  exists n, (n < fuel)%nat /\ v = SpecHeights.nth_draw number n g /\ g3 = SpecHeights.after_draws number (S n) g /\
    (sm_dist s = DUniform -> n = 0%nat) /\
    (sm_dist s <> DUniform -> ordered (sm_range s) -> forall k, (k < n)%nat -> ~ within (sm_range s) (SpecHeights.nth_draw number k g)).
Proof.
  intros H number. unfold sample_parameter in H. destruct (draw_until r fuel (sm_dist s) (sm_range s) g) as [[x gx]|] eqn:E; [|discriminate].
  injection H as <- <- <-. destruct (until_after _ _ _ _ _ _ E) as (n & L & Ev & Eg & Rv & K). exists n. repeat split; auto.
  - intros D. destruct n as [|n]; [reflexivity|]. specialize (K 0%nat ltac:(lia)). rewrite D in K. discriminate.
  - intros D O k Lk W. specialize (K k Lk). unfold within, ordered in *. rewrite Rmin_left, Rmax_right in W by exact O. fold number in K.
    destruct (sm_dist s); cbn [rejected] in K; try (now elim D); try (rewrite Rmin_left, Rmax_right in K by exact O);
      rewrite !Rltb_false in K by lra; discriminate.
Qed.

Lemma exponential_after scale rg n : forall g, SpecHeights.after_draws (one_draw r (DExponential scale) rg) n g = SpecHeights.after_draws (r_exponential r scale) n g.
Proof. induction n as [|n IH]; intros g; [reflexivity|]. cbn [SpecHeights.after_draws one_draw snd]. apply IH. Qed.

Lemma exponential_draws scale total sr g s w g1 fuel g2 v s' g3 :
  new_sampler r (AExponential scale) total sr g = (s, w, g1) -> sample_parameter r fuel s g2 = Some (v, s', g3) ->
  let first := fst (sm_range s) in let last := snd (sm_range s) in
  let number k := SpecHeights.nth_draw (r_exponential r scale) k g2 in
  exists n, (n < fuel)%nat /\ v = first + number n * (last - first) /\ g3 = SpecHeights.after_draws (r_exponential r scale) (S n) g2 /\
    (first <> last -> 0 <= number n <= 1 /\ forall k, (k < n)%nat -> ~ 0 <= number k <= 1).
Proof.
  intros H E. pose proof (sampler_distribution r _ _ _ _ _ _ _ H) as D. simpl in D. intros first last number.
  unfold sample_parameter in E. destruct (draw_until r fuel (sm_dist s) (sm_range s) g2) as [[x gx]|] eqn:Q; [|discriminate].
  injection E as <- <- <-. destruct (until_after _ _ _ _ _ _ Q) as (n & L & Ev & Eg & Rv & K). rewrite D in *.
  assert (V : forall k, SpecHeights.nth_draw (one_draw r (DExponential scale) (sm_range s)) k g2 = first + number k * (last - first)).
  { intros k. unfold SpecHeights.nth_draw at 1. rewrite exponential_after. cbn [one_draw fst]. unfold number, first, last, SpecHeights.nth_draw. ring. }
  exists n. split; [exact L|]. rewrite V in Ev. split; [exact Ev|]. split; [rewrite Eg; apply exponential_after|].
  intros Ne. assert (Z : forall e, rejected (DExponential scale) (sm_range s) (first + e * (last - first)) = false <-> 0 <= e <= 1).
  { intros e. cbn [rejected]. fold first last. rewrite Bool.orb_false_iff.
    destruct (Rlt_dec first last) as [A|A].
    - rewrite Rmin_left, Rmax_right by lra.
      destruct (Rltb_spec (first + e * (last - first)) first) as [B|B]; destruct (Rltb_spec last (first + e * (last - first))) as [C|C]; split; intros T; try (destruct T; discriminate); try split; try reflexivity; try nra.
    - assert (last < first) by lra. rewrite Rmin_right, Rmax_left by lra.
      destruct (Rltb_spec (first + e * (last - first)) last) as [B|B]; destruct (Rltb_spec first (first + e * (last - first))) as [C|C]; split; intros T; try (destruct T; discriminate); try split; try reflexivity; try nra. }
  split; [apply Z; rewrite <- Ev; exact Rv|]. intros k Lk T. apply Z in T. specialize (K k Lk). rewrite V in K. congruence.
Qed.
End P.
