(** Property theorems about dot jumps of 1D scans whose gates are swept in opposite directions. *)
From Verif Require Import RPrelude Arr ModelJumps ModelDistortions SpecDistortions ProofsDistortions ProofsOpposite.
Local Open Scope R_scope.

(** C57: if gate 1 is swept upwards and gate 2 downwards, pixels with a jump show the voltage of gate 1 that belongs to the
    opposite end of the scan, since both ranges are sorted although the data lie on the other diagonal. *)
Theorem C57_opposite_partial (f : R -> R -> R) axis noise n lim1 lim2 :
  (axis = 0 \/ axis = 1)%Z -> fst lim1 <= snd lim1 -> snd lim2 < fst lim2 -> length noise = n -> (2 <= n)%nat ->
  let step := (snd lim1 - fst lim1) / INR n in
  exists occ' lead', jump_apply nan_opt None (fun _ _ => None) true (real_gen1 f) (real_gen2 f) axis noise
      (Scan1 (fst (real_gen1 f lim1 lim2 n)) (Some (snd (real_gen1 f lim1 lim2 n)))) lim1 lim2 = Ok (Scan1 occ' (Some lead')) /\
    len1 occ' = n /\ len1 lead' = n /\
    forall i, (i < n)%nat -> let s := nth (n - 1 - i) noise 0%nat in
      let shown := if (s =? 0)%nat then f (grid_point lim1 n i) (grid_point lim2 n i)
                   else if (axis =? 1)%Z then f (grid_point lim1 n (n - 1 - i) - INR s * step) (grid_point lim2 n i)
                   else f (grid_point lim1 n (n - 1 - i)) (grid_point lim2 n i - INR s * step) in
      cell1 occ' i = (Some shown, Some shown) /\ cell1 lead' i = Some shown.
Proof. exact (opposite_shown f axis noise n lim1 lim2). Qed.
Print Assumptions C57_opposite_partial.

(** So a jump along gate 2 changes data that depend on gate 1 only. *)
Theorem C57_opposite_refuted : exists (f : R -> R -> R) lim1 lim2 n i noise occ' lead',
  (forall v w w', f v w = f v w') /\ fst lim1 < snd lim1 /\ snd lim2 < fst lim2 /\ length noise = n /\ (i < n)%nat /\
  jump_apply nan_opt None (fun _ _ => None) true (real_gen1 f) (real_gen2 f) 0 noise
      (Scan1 (fst (real_gen1 f lim1 lim2 n)) (Some (snd (real_gen1 f lim1 lim2 n)))) lim1 lim2 = Ok (Scan1 occ' (Some lead')) /\
  cell1 lead' i <> cell1 (snd (real_gen1 f lim1 lim2 n)) i.
Proof. exact opposite_refutation. Qed.
Print Assumptions C57_opposite_refuted.

Example C57_opposite_example : exists occ' lead',
  jump_apply nan_opt None (fun _ _ => None) true (real_gen1 (fun v _ => v)) (real_gen2 (fun v _ => v)) 0 [0; 0; 1]%nat
      (Scan1 (fst (real_gen1 (fun v _ => v) (0, 2) (5, 3) 3)) (Some (snd (real_gen1 (fun v _ => v) (0, 2) (5, 3) 3)))) (0, 2) (5, 3) = Ok (Scan1 occ' (Some lead')) /\
  cell1 lead' 0 = Some 2 /\ cell1 lead' 1 = Some 1 /\ cell1 lead' 2 = Some 2.
Proof.
  destruct (opposite_shown (fun v _ => v) 0 [0; 0; 1]%nat 3 (0, 2) (5, 3)) as (occ' & lead' & E & _ & _ & F); cbn [fst snd length]; auto; try lra.
  exists occ', lead'. split; [exact E|]. cbv zeta in F.
  destruct (F 0%nat ltac:(lia)) as [_ ->], (F 1%nat ltac:(lia)) as [_ ->], (F 2%nat ltac:(lia)) as [_ ->].
  cbn. unfold grid_point. cbn. repeat split; f_equal; lra.
Qed.
