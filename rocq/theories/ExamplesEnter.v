(** A scan across the right branch of the first TCT of the concrete configuration of ExamplesCsd. *)
From Verif Require Import RPrelude Arr ModelSupport SpecSupport ProofsSupport ModelTct SpecTct ProofsTct ProofsTctShape
  ModelCsd SpecCsd SpecEnter ProofsCsd ProofsOcc ProofsRegions ProofsMask ProofsDriver ProofsFine ProofsScan ProofsLabel ExamplesCsd ProofsEnter2.
Local Open Scope R_scope.

Lemma couple_branch : on_branch (couple (1/4)) 1 0 true (1/4) (1, -1) /\ straight_part (couple (1/4)) 1 0 true (1, -1) /\ outer true 1 0.
Proof.
  split; [|split; [|reflexivity]].
  - exists (first_tct (1/4)), (0, 0). unfold corner, outer, peak_point, branch_vector, first_tct. simpl. repeat split; try lra; try lia; f_equal; lra.
  - exists (first_tct (1/4)), (0, 0). unfold corner, outer, peak_point, first_tct. simpl. repeat split; try lra.
Qed.
Lemma view0 v : tct_view 0 v = v.
Proof. unfold tct_view, rotate_point. rewrite Ropp_0, cos_0, sin_0. destruct v; simpl. f_equal; ring. Qed.
Lemma couple_step : exists o o' l l',
  ideal_csd_geometric component_label (couple (1/4)) [1; 1] [-3/2; -1/2] (ResInt 2) 0 None Sigmoid None = Ok (Csd1 [o'; o] [l'; l]) /\
  fst o' + snd o' = 0 /\ fst o + snd o = 1.
Proof.
  assert (He : 0 <= 1/4 <= 1/4) by lra.
  destruct (csd_1d component_label (couple (1/4)) 1 1 (-3/2) (-1/2) (ResInt 2) 2 0 None Sigmoid None (22/10) (couple_proper _ He) ltac:(discriminate) eq_refl eq_refl)
    as (occ & lead & E & Lo & Ll & _ & _ & Q).
  destruct occ as [|o' [|o [|]]]; try discriminate. destruct lead as [|l' [|l [|]]]; try discriminate.
  exists o, o', l, l'. split; [exact E|].
  destruct (tct_funs_exist None (couple (1/4)) (couple_proper _ He) 0) as [F HF].
  destruct (couple_values _ He F HF) as [_ V2].
  destruct (HF 0%nat (first_tct (1/4)) eq_refl) as [_ N1]. simpl in N1.
  destruct couple_branch as (Br & St & _).
  assert (F1 : F 0%nat 1 = -1).
  { refine (branch_on_tct (couple (1/4)) None 1 0 true (1/4) (1, -1) (first_tct (1/4)) (F 0%nat) eq_refl _ _ N1 Br St); [apply first_admissible; lra|split; [discriminate|intros _; apply first_admissible; lra]]. }
  specialize (V2 1 ltac:(lra)).
  assert (K : forall i x m, (i < 2)%nat -> nth_error [o'; o] i = Some x -> electrons (couple (1/4)) None 0 (1, -3/2 + INR i) m -> fst x + snd x = INR m).
  { intros i x m Hi Ex El. destruct (Q i x Ex) as (m' & Hm & Po). unfold pixel_voltage in Hm, Po. simpl in Hm, Po.
    replace (1 + INR i * ((1 - 1) / 1), -3 / 2 + INR i * ((-1 / 2 - -3 / 2) / 1)) with (1, -3/2 + INR i) in * by (f_equal; field).
    assert (m' = m). { destruct Hm as [Hm|[Hm _]]; [eapply electrons_unique; eauto|exfalso; eapply electrons_not_above_all; eauto]. }
    subst m'. destruct (pixel_occ_bounds _ _ _ _ _ _ _ Po) as (_ & S1 & _). exact S1. }
  split.
  - rewrite (K 0%nat o' 0%nat); auto. split; [intros; lia|].
    apply (below_F _ _ _ F HF); [simpl; lia|]. rewrite view0. simpl. rewrite F1. lra.
  - rewrite (K 1%nat o 1%nat); auto. split.
    + intros k Hk. assert (k = 1%nat) by lia. subst k. apply (above_F _ _ _ F HF); [simpl; lia|]. rewrite view0. simpl. rewrite F1. lra.
    + apply (below_F _ _ _ F HF); [simpl; lia|]. rewrite view0. simpl. lra.
Qed.
