(** Total charge transitions that cross. *)
From Verif Require Import RPrelude Arr ModelSupport ModelTct ModelCsd SpecTct SpecCsd SpecOrder
  ProofsTct ProofsTctShape ProofsScan ProofsOrder.
Local Open Scope R_scope.
Definition flat_tct : tct_params := mk_tct 1 1 1 (-1) 0 0 0 0.
Definition steep_tct : tct_params := mk_tct 1 1 2 (-2) (-1) 4 (-1) 4.
Lemma flat_corner : corner flat_tct (0, 0). Proof. unfold corner; cbn; lra. Qed.
Lemma steep_corner : corner steep_tct (-1, 4). Proof. unfold corner; cbn; lra. Qed.
Lemma flat_bounded : bounded_tct 2 0 None flat_tct.
Proof.
  split; [|split; [unfold peak; cbn; lra|split; [|split; [|exact I]]]]; [|cbn; rewrite Rabs_pos_eq; lra|cbn; rewrite Rabs_left; lra].
  split; [cbn; lra|]. split; [cbn; lra|]. exists (0, 0). split; [exact flat_corner|]. cbn. lra.
Qed.
Lemma steep_bounded : bounded_tct 2 0 None steep_tct.
Proof.
  split; [|split; [unfold peak; cbn; lra|split; [|split; [|exact I]]]]; [|cbn; rewrite Rabs_pos_eq; lra|cbn; rewrite Rabs_left; lra].
  split; [cbn; lra|]. split; [cbn; lra|]. exists (-1, 4). split; [exact steep_corner|]. cbn. lra.
Qed.
Lemma left_part p n f : bounded_tct 2 0 None p -> (1 <= n)%nat -> is_tct p None (Some n) f ->
  forall x, x <= start_x p -> f x = start_y p + slope_left p * (x - start_x p).
Proof.
  intros B Hn Hf. destruct (bounded_good 2 0 None p B) as [A Gm]. destruct (tct_total p None None A Gm I) as (f0 & H0).
  destruct (tct_outer p None n f0 f A Gm Hn H0 Hf) as (_ & H1 & _). exact H1.
Qed.
Lemma steeper_crosses : exists p q f g, bounded_tct 2 0 None p /\ bounded_tct 2 0 None q /\
  (exists d, interdot_vector p q 0 d /\ rises 1 p d) /\ is_tct p None (Some 1%nat) f /\ is_tct q None (Some 2%nat) g /\
  exists x, g x < f x.
Proof.
  destruct (bounded_good 2 0 None _ flat_bounded) as [A1 G1]. destruct (bounded_good 2 0 None _ steep_bounded) as [A2 G2].
  destruct (tct_total flat_tct None (Some 1%nat) A1 G1 (le_n _)) as (f & Hf). destruct (tct_total steep_tct None (Some 2%nat) A2 G2 ltac:(cbn; lia)) as (g & Hg).
  exists flat_tct, steep_tct, f, g. split; [exact flat_bounded|]. split; [exact steep_bounded|]. split.
  - eexists. split; [exists (0, 0), (-1, 4); split; [exact flat_corner|split; [exact steep_corner|reflexivity]]|].
    unfold rises, peak_point. cbn. lra.
  - split; [exact Hf|]. split; [exact Hg|]. exists (-10).
    rewrite (left_part _ 1 f flat_bounded ltac:(lia) Hf), (left_part _ 2 g steep_bounded ltac:(lia) Hg); cbn; lra.
Qed.
