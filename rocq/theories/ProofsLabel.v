(** A connected-component labelling exists and is computable: repeatedly take the smallest number in
    the neighbourhood. *)
From Verif Require Import Prelude Arr ModelCsd SpecCsd ProofsRegions.

Section Label.
Variable m : arr2 nat.
Let all := pixels_of (rows m) (cols m).

Definition free (a : nat * nat) : bool := (fst a <? rows m) && (snd a <? cols m) && (value_at m a =? 0).
Definition neighbours (a : nat * nat) : list (nat * nat) :=
  [(S (fst a), snd a); (fst a, S (snd a))] ++
  (if fst a =? 0 then [] else [(fst a - 1, snd a)]) ++ (if snd a =? 0 then [] else [(fst a, snd a - 1)]).

Lemma free_spec a : free a = true <-> unlabelled m a.
Proof.
  unfold free, unlabelled, in_image. rewrite !andb_true_iff, !Nat.ltb_lt, Nat.eqb_eq. tauto.
Qed.
Lemma neighbours_spec a b : In b (neighbours a) <-> adjacent a b.
Proof.
  destruct a as [i j], b as [i' j']. unfold neighbours, adjacent. simpl.
  destruct (Nat.eqb_spec i 0), (Nat.eqb_spec j 0); simpl; split; intros H;
    repeat match goal with
    | H : _ \/ _ |- _ => destruct H
    | H : (_, _) = (_, _) |- _ => inversion H; clear H
    | H : _ /\ _ |- _ => destruct H
    end; subst; try lia; try tauto;
    first [left; f_equal; lia | right; left; f_equal; lia | right; right; left; f_equal; lia
          | right; right; right; left; f_equal; lia | idtac].
Qed.

Definition lower (f : nat * nat -> nat) (a : nat * nat) : nat :=
  fold_right Nat.min (f a) (map f (filter free (neighbours a))).
Definition start (a : nat * nat) : nat := S (fst a * cols m + snd a).

Definition total (f : nat * nat -> nat) : nat := list_sum (map f all).
Definition stable (f : nat * nat -> nat) : bool :=
  forallb (fun a => negb (free a) || (lower f a =? f a)) all.
Definition step (f : nat * nat -> nat) (a : nat * nat) : nat := if free a then lower f a else f a.
Fixpoint settle (fuel : nat) (f : nat * nat -> nat) : nat * nat -> nat :=
  match fuel with
  | O => f
  | S n => if stable f then f else settle n (step f)
  end.
Definition component_label : arr2 nat :=
  mk_arr2 (rows m) (cols m) (fun i j => if free (i, j) then settle (S (total start)) start (i, j) else 0).

Lemma lower_le f a : lower f a <= f a /\ forall b, In b (neighbours a) -> free b = true -> lower f a <= f b.
Proof.
  unfold lower. split.
  - induction (map f (filter free (neighbours a))); simpl; lia.
  - intros b I F. assert (J : In (f b) (map f (filter free (neighbours a)))) by (apply in_map, filter_In; auto).
    induction (map f (filter free (neighbours a))) as [|x t IH]; [destruct J|]. simpl.
    destruct J as [->|J]; [lia|]. specialize (IH J). lia.
Qed.
Lemma lower_from f a : exists b, lower f a = f b /\ (b = a \/ (adjacent a b /\ free b = true)).
Proof.
  unfold lower.
  assert (G : forall l, (forall x, In x l -> exists b, x = f b /\ (adjacent a b /\ free b = true)) ->
    exists b, fold_right Nat.min (f a) l = f b /\ (b = a \/ (adjacent a b /\ free b = true))).
  { induction l as [|x t IH]; intros H; simpl; [exists a; auto|].
    destruct IH as (b & E & Hb); [intros y Hy; apply H; right; auto|].
    destruct (H x (or_introl eq_refl)) as (b' & E' & Hb').
    destruct (Nat.min_spec x (fold_right Nat.min (f a) t)) as [[_ ->]|[_ ->]]; [exists b'|exists b]; auto. }
  apply G. intros x Hx. apply in_map_iff in Hx. destruct Hx as (b & <- & I). apply filter_In in I.
  exists b. split; auto. rewrite neighbours_spec in I. exact I.
Qed.

(** the label of a pixel is the number of a connected pixel *)
Definition sound (f : nat * nat -> nat) : Prop :=
  forall a, unlabelled m a -> exists b, f a = start b /\ connected m a b.

Lemma adjacent_sym a b : adjacent a b -> adjacent b a.
Proof. unfold adjacent. lia. Qed.
Lemma connected_trans a b c : connected m a b -> connected m b c -> connected m a c.
Proof.
  intros H H'. revert H. induction H' as [|b c d Hbc IH Adj Hd]; intros Hab; auto. exact (conn_step m a c d (IH Hab) Adj Hd).
Qed.
Lemma connected_ends a b : connected m a b -> unlabelled m a /\ unlabelled m b.
Proof. induction 1; tauto. Qed.
Lemma connected_sym a b : connected m a b -> connected m b a.
Proof.
  induction 1 as [|a b c Hab IH Adj Hc]; [constructor; auto|].
  apply connected_trans with b; auto. econstructor; [constructor; exact Hc|apply adjacent_sym; auto|].
  apply (connected_ends _ _ Hab).
Qed.

Lemma start_sound : sound start.
Proof. intros a Ha. exists a. split; auto. constructor; auto. Qed.
Lemma step_sound f : sound f -> sound (step f).
Proof.
  intros S a Ha. unfold step. rewrite (proj2 (free_spec a) Ha).
  destruct (lower_from f a) as (b & E & [->|[Adj Fb]]); [rewrite E; apply S; auto|].
  rewrite E. apply free_spec in Fb. destruct (S b Fb) as (c & Ec & Cc). exists c. split; auto.
  apply connected_trans with b; auto. econstructor; [constructor; auto|auto|auto].
Qed.

Lemma sum_le (f g : nat * nat -> nat) l : (forall a, In a l -> f a <= g a) -> list_sum (map f l) <= list_sum (map g l).
Proof.
  induction l as [|x t IH]; intros H; simpl; [lia|]. pose proof (H x (or_introl eq_refl)).
  assert (list_sum (map f t) <= list_sum (map g t)) by (apply IH; intros; apply H; right; auto). lia.
Qed.
Lemma sum_lt (f g : nat * nat -> nat) l a : (forall a, In a l -> f a <= g a) -> In a l -> f a < g a ->
  list_sum (map f l) < list_sum (map g l).
Proof.
  induction l as [|x t IH]; intros H I L; [destruct I|]. simpl. pose proof (H x (or_introl eq_refl)).
  assert (list_sum (map f t) <= list_sum (map g t)) by (apply sum_le; intros; apply H; right; auto).
  destruct I as [->|I]; [lia|]. assert (list_sum (map f t) < list_sum (map g t)); [|lia].
  apply IH; auto. intros; apply H; right; auto.
Qed.

Lemma stable_spec f : stable f = true <-> forall a, unlabelled m a -> lower f a = f a.
Proof.
  unfold stable. rewrite forallb_forall. split.
  - intros H a Ha. pose proof (proj2 (free_spec a) Ha) as Fa.
    assert (I : In a all) by (apply in_pixels; destruct Ha as [[A B] _]; auto).
    specialize (H a I). rewrite Fa in H. simpl in H. apply Nat.eqb_eq; auto.
  - intros H a _. destruct (free a) eqn:E; auto. simpl. apply Nat.eqb_eq, H, free_spec; auto.
Qed.

Lemma step_less f : stable f = false -> total (step f) < total f.
Proof.
  intros H. assert (Ex : exists a, In a all /\ free a = true /\ lower f a <> f a).
  { unfold stable in H. clear - H. induction all as [|a t IH]; simpl in H; [discriminate|].
    destruct (free a) eqn:E, (Nat.eqb_spec (lower f a) (f a)); simpl in H;
      try (destruct IH as (b & I & R'); [exact H|exists b; split; [right; auto|auto]]).
    exists a. split; [left; auto|auto]. }
  destruct Ex as (a & I & Fa & N). apply sum_lt with a; auto.
  - intros b _. unfold step. destruct (free b); auto. apply (proj1 (lower_le f b)).
  - unfold step. rewrite Fa. pose proof (proj1 (lower_le f a)). lia.
Qed.

Lemma settle_stable fuel : forall f, total f < fuel -> stable (settle fuel f) = true.
Proof.
  induction fuel as [|n IH]; intros f H; [lia|]. simpl. destruct (stable f) eqn:E; auto.
  apply IH. pose proof (step_less f E). lia.
Qed.
Lemma settle_sound fuel : forall f, sound f -> sound (settle fuel f).
Proof.
  induction fuel as [|n IH]; intros f H; simpl; auto. destruct (stable f); auto. apply IH, step_sound; auto.
Qed.

Lemma component_labelling : is_labelling m component_label.
Proof.
  set (f := settle (S (total start)) start).
  assert (St : forall a, unlabelled m a -> lower f a = f a).
  { apply stable_spec, settle_stable. lia. }
  assert (So : sound f) by (apply settle_sound, start_sound).
  assert (V : forall a, unlabelled m a -> value_at component_label a = f a).
  { intros a Ha. unfold value_at, component_label. simpl. rewrite <- surjective_pairing.
    rewrite (proj2 (free_spec a) Ha). reflexivity. }
  split.
  - intros a Ha. destruct (Nat.eq_dec (value_at m a) 0) as [E|E].
    + rewrite V by (split; auto). destruct (So a (conj Ha E)) as (b & Eb & _). unfold start in Eb. lia.
    + unfold value_at at 1, component_label. simpl. rewrite <- surjective_pairing.
      destruct (free a) eqn:Fa; [apply free_spec in Fa; destruct Fa; contradiction|]. tauto.
  - intros a b Ha Hb. rewrite !V by auto. split.
    + intros E. destruct (So a Ha) as (c & Ec & Cc). destruct (So b Hb) as (c' & Ec' & Cc').
      rewrite Ec, Ec' in E. assert (c = c').
      { destruct (connected_ends _ _ Cc) as [_ [[_ C1] _]]. destruct (connected_ends _ _ Cc') as [_ [[_ C2] _]].
        unfold start in E. apply Nat.succ_inj in E. destruct c as [i j], c' as [i' j']. simpl in *.
        assert (i = i') by nia. subst. f_equal. lia. }
      subst c'. eapply connected_trans; [exact Cc|apply connected_sym; auto].
    + induction 1 as [|a b c Hab IH Adj Hc]; auto. destruct (connected_ends _ _ Hab) as [_ Hb'].
      rewrite IH by auto. apply Nat.le_antisymm.
      * rewrite <- (St b Hb'). apply lower_le; [apply neighbours_spec; auto|apply free_spec; auto].
      * rewrite <- (St c Hc). apply lower_le; [apply neighbours_spec, adjacent_sym; auto|apply free_spec; auto].
Qed.
End Label.
