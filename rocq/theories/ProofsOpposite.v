(** Proofs about dot jumps of 1D scans whose gates are swept in opposite directions. *)
From Verif Require Import RPrelude Arr ModelJumps SpecJumps ProofsJumps ModelDistortions SpecDistortions ProofsDistortions.
Local Open Scope R_scope.

Lemma opposite_apply {A} (isnan : A -> bool) nan junk have_gen gen1 gen2 axis noise s lim1 lim2 : ~ is_2d s -> fst lim1 <= snd lim1 -> fst lim2 < snd lim2 ->
  let apply := jump_apply isnan nan junk have_gen gen1 gen2 in
  apply axis noise s lim1 (swapped lim2) = map_ok reverse_lines (apply axis noise (reverse_lines s) lim1 lim2).
Proof.
  intros D H1 H2 apply. unfold apply. destruct s as [o l|]; [|simpl in D; tauto]. unfold jump_apply; simpl reverse_lines.
  rewrite !sort_swapped. rewrite (descending_true (swapped lim2)) by (unfold swapped; simpl; lra).
  rewrite (descending_false lim1), (descending_false lim2) by lra. simpl orb. cbv iota.
  destruct (jump1d_component _ _ _ _ _ _ _ _ _ (fun d => amap1 fst (fst d)) _ _); simpl; [|reflexivity].
  destruct (jump1d_component _ _ _ _ _ _ _ _ _ (fun d => amap1 snd (fst d)) _ _); simpl; [|reflexivity].
  destruct l as [l|]; simpl; [|reflexivity].
  destruct (jump1d_component _ _ _ _ _ _ _ _ _ snd _ _); simpl; reflexivity.
Qed.

Lemma grid_mirror l n i : (i < n)%nat -> (2 <= n)%nat -> grid_point l n (n - 1 - i) = grid_point (swapped l) n i.
Proof.
  intros Hi Hn. unfold grid_point, swapped. cbn [fst snd]. rewrite !minus_INR by lia. change (INR 1) with 1.
  assert (2 <= INR n) by (change 2 with (INR 2); apply le_INR; exact Hn). field. lra.
Qed.
Lemma grid_lower l n i s step : (2 <= n)%nat -> grid_point (fst l - INR s * step, snd l - INR s * step) n i = grid_point l n i - INR s * step.
Proof.
  intros Hn. unfold grid_point. cbn [fst snd]. rewrite !minus_INR by lia. change (INR 1) with 1.
  assert (2 <= INR n) by (change 2 with (INR 2); apply le_INR; exact Hn). field. lra.
Qed.
Lemma opposite_shown f axis noise n lim1 lim2 : (axis = 0 \/ axis = 1)%Z -> fst lim1 <= snd lim1 -> snd lim2 < fst lim2 -> length noise = n -> (2 <= n)%nat ->
  let step := (snd lim1 - fst lim1) / INR n in
  exists occ' lead', jump_apply nan_opt None (fun _ _ => None) true (real_gen1 f) (real_gen2 f) axis noise
      (Scan1 (fst (real_gen1 f lim1 lim2 n)) (Some (snd (real_gen1 f lim1 lim2 n)))) lim1 lim2 = Ok (Scan1 occ' (Some lead')) /\
    len1 occ' = n /\ len1 lead' = n /\
    forall i, (i < n)%nat -> let s := nth (n - 1 - i) noise 0%nat in
      let shown := if (s =? 0)%nat then f (grid_point lim1 n i) (grid_point lim2 n i)
                   else if (axis =? 1)%Z then f (grid_point lim1 n (n - 1 - i) - INR s * step) (grid_point lim2 n i)
                   else f (grid_point lim1 n (n - 1 - i)) (grid_point lim2 n i - INR s * step) in
      cell1 occ' i = (Some shown, Some shown) /\ cell1 lead' i = Some shown.
Proof.
  intros Hx H1 H2 Hl Hn step.
  assert (Esw : lim2 = swapped (swapped lim2)) by (destruct lim2; reflexivity).
  set (l2 := swapped lim2) in *. assert (H2' : fst l2 < snd l2) by (unfold l2, swapped; cbn; lra).
  pose proof (opposite_apply nan_opt None (fun _ _ => None) true (real_gen1 f) (real_gen2 f) axis noise
    (Scan1 (fst (real_gen1 f lim1 lim2 n)) (Some (snd (real_gen1 f lim1 lim2 n)))) lim1 l2 (fun x => x) H1 H2') as E. cbv zeta in E.
  replace (swapped l2) with lim2 in E by (rewrite Esw at 1; reflexivity).
  destruct (jump_apply_1d nan_opt None eq_refl (fun _ _ => None) (real_gen1 f) (real_gen2 f) axis noise
              (flip1 (fst (real_gen1 f lim1 lim2 n))) (flip1 (snd (real_gen1 f lim1 lim2 n))) lim1 l2) as (occ' & lead' & E' & L1 & L2 & F).
  { exact Hx. } { exact H1. } { lra. } { exact Hl. } { reflexivity. }
  { intros s Hs. destruct (axis =? 1)%Z; split; [split; reflexivity|reflexivity|split; reflexivity|reflexivity]. }
  cbn [flip1 real_gen1 fst snd amap1 sample1 len1] in L1, L2, F.
  exists (flip1 occ'), (flip1 lead'). split; [rewrite E; cbn [reverse_lines option_map]; rewrite E'; reflexivity|].
  split; [exact L1|]. split; [exact L2|].
  intros i Hi s shown. cbn [flip1 cell1]. rewrite L1, L2. destruct (F (n - 1 - i)%nat ltac:(lia)) as [F1 F2]. rewrite F1, F2. fold s.
  fold step. unfold shown. destruct (s =? 0)%nat.
  - cbn [flip1 cell1 amap1 sample1 len1]. replace (n - 1 - (n - 1 - i))%nat with i by lia. auto.
  - assert (M : grid_point l2 n (n - 1 - i) = grid_point lim2 n i) by (rewrite grid_mirror by assumption; rewrite <- Esw; reflexivity).
    clear F F1 F2 E E'. destruct (axis =? 1)%Z; cbn [real_gen1 fst snd amap1 sample1 cell1]; unfold shifted_limits; rewrite grid_lower, M by exact Hn; auto.
Qed.
Lemma opposite_refutation : exists (f : R -> R -> R) lim1 lim2 n i noise occ' lead',
  (forall v w w', f v w = f v w') /\ fst lim1 < snd lim1 /\ snd lim2 < fst lim2 /\ length noise = n /\ (i < n)%nat /\
  jump_apply nan_opt None (fun _ _ => None) true (real_gen1 f) (real_gen2 f) 0 noise
      (Scan1 (fst (real_gen1 f lim1 lim2 n)) (Some (snd (real_gen1 f lim1 lim2 n)))) lim1 lim2 = Ok (Scan1 occ' (Some lead')) /\
  cell1 lead' i <> cell1 (snd (real_gen1 f lim1 lim2 n)) i.
Proof.
  destruct (opposite_shown (fun v _ => v) 0 [0; 1]%nat 2 (0, 1) (1, 0)) as (occ' & lead' & E & _ & _ & F); cbn [fst snd length]; auto; try lra.
  exists (fun v _ => v), (0, 1), (1, 0), 2%nat, 0%nat, [0; 1]%nat, occ', lead'. cbn [fst snd length]. repeat split; try lra; try lia; auto.
  destruct (F 0%nat ltac:(lia)) as [_ F2]. cbv zeta in F2. rewrite F2. cbn. unfold grid_point. cbn. intros H. injection H. lra.
Qed.
