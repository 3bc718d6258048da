(** Proofs about the warnings of a sensor used alone and of dot jumps. *)
From Verif Require Import RPrelude Arr ModelCsd ModelJumps ModelDistortions ModelSensor ModelSimulation ModelWarnings SpecDistortions SpecWarnings ProofsDistortions ProofsJumps.
Local Open Scope R_scope.

Lemma potential_warned s occ v1 v2 :
  In DeformedPlunger (potential_warnings s occ v1 v2) <-> ss_deform s <> [] /\ occ <> OccOther /\ (is_sweep v1 = true \/ is_sweep v2 = true).
Proof.
  unfold potential_warnings. destruct (ss_deform s) as [|d l]; cbn [length Nat.eqb negb andb].
  - destruct occ; cbn [In]; split; try (intros []; fail); intros (H & _); now contradiction H.
  - destruct occ; destruct (is_sweep v1), (is_sweep v2); cbn [orb In]; split; intros H;
      solve [ now left | now repeat split; auto; discriminate | destruct H as (_ & _ & [D|D]); discriminate D
            | destruct H as (_ & D & _); now contradiction D | destruct H as [[]|[]] | destruct H
            | split; [discriminate|split; [discriminate|auto]] ].
Qed.

Lemma jump_warned {G} (binomial : G -> bool * G) sample_scale axis freeze sh lim1 lim2 g :
  square sh -> (axis = 0 \/ axis = 1)%Z -> (if (axis =? 1)%Z then fst lim1 <> snd lim1 else fst lim2 <> snd lim2) ->
  jump_warning binomial sample_scale axis freeze sh lim1 lim2 g = true <->
  freeze = false /\ fst (binomial g) = true /\ fst (sample_scale (snd (binomial g))) * px_per_volt sh lim1 lim2 axis < 1.
Proof.
  intros Sq Ax Ne. destruct (conversion_square sh lim1 lim2 Sq) as (C & _). specialize (C axis Ax Ne).
  unfold jump_warning. rewrite C. destruct freeze.
  - split; [discriminate|intros (D & _); discriminate D].
  - destruct (binomial g) as [act g1]. cbn [fst snd]. destruct act; cbn [negb].
    + destruct (sample_scale g1) as [v g2]. cbn [fst]. split.
      * intros H. repeat split. destruct (Rltb_spec (v * px_per_volt sh lim1 lim2 axis) 1); [assumption|discriminate].
      * intros (_ & _ & H). now apply Rltb_true.
    + split; [discriminate|intros (_ & D & _); discriminate D].
Qed.

(** Blocks of one pixel *)
Lemma ones_loop {G} (draw : G -> nat * G) : forall n size bi noise g,
  (forall i, (i < length noise)%nat -> Nat.even i = true -> nth i noise 0%nat = 0%nat) -> bi = Nat.odd (length noise) ->
  forall i, Nat.even i = true -> nth i (fst (block_loop 0%nat draw (repeat 1%nat n) size bi noise g)) 0%nat = 0%nat.
Proof.
  assert (W : forall noise : list nat, (forall i, (i < length noise)%nat -> Nat.even i = true -> nth i noise 0%nat = 0%nat) ->
    forall i, Nat.even i = true -> nth i noise 0%nat = 0%nat).
  { intros noise H i E. destruct (Nat.lt_ge_cases i (length noise)); [now apply H|now apply nth_overflow]. }
  induction n as [|n IH]; intros size bi noise g Hn Hb; cbn [repeat block_loop Nat.ltb Nat.leb].
  - cbn [fst]. now apply W.
  - destruct (draw g) as [h g1].
    assert (N : forall i, (i < length (noise ++ [if bi then h else 0]))%nat -> Nat.even i = true -> nth i (noise ++ [if bi then h else 0%nat]) 0%nat = 0%nat).
    { intros i L E. rewrite app_length in L. cbn [length] in L. destruct (Nat.lt_ge_cases i (length noise)).
      - rewrite app_nth1 by assumption. now apply Hn.
      - replace i with (length noise) in * by lia. rewrite nth_middle, Hb. unfold Nat.odd. now rewrite E. }
    cbv zeta. cbn [repeat]. destruct (_ <=? _)%nat.
    + cbn [fst]. now apply W.
    + apply IH; [exact N|]. rewrite app_length, Nat.add_1_r, Nat.odd_succ, Hb. unfold Nat.odd. now rewrite Bool.negb_involutive.
Qed.

Lemma ones_noise {G} (poisson : G -> nat * G) widths size g : fst (widths size g) = repeat 1%nat size ->
  forall i, Nat.even i = true -> nth i (fst (generate_dot_jumps_blockwise poisson false widths size g)) 0%nat = 0%nat.
Proof.
  intros E i Ev. unfold generate_dot_jumps_blockwise. destruct (widths size g) as [w g1]. cbn [fst] in E. subst w.
  pose proof (ones_loop poisson size size false [] g1) as O. unfold block_noise.
  destruct (block_loop 0%nat poisson (repeat 1%nat size) size false [] g1) as [l g2]. cbn [fst] in *.
  change (nth i (map uint8 (firstn size l)) (uint8 0) = 0%nat). rewrite map_nth.
  destruct (Nat.lt_ge_cases i size) as [L|L].
  - rewrite <- (firstn_skipn size l) in O. assert (Z : nth i (firstn size l) 0%nat = 0%nat).
    { destruct (Nat.lt_ge_cases i (length (firstn size l))) as [M|M]; [|now apply nth_overflow].
      rewrite <- (app_nth1 _ (skipn size l) 0%nat M). apply O; [intros j Hj; cbn [length] in Hj; lia|reflexivity|exact Ev]. }
    now rewrite Z.
  - rewrite nth_overflow; [reflexivity|]. rewrite firstn_length. lia.
Qed.

Lemma jump_lengths {A G} isnan nan junk have_gen gen1 gen2 binomial sample_scale sample_lam geometric poisson axis freeze st (g : G) (s : scan A) lim1 lim2 s' st' g' :
  (forall n g0, fst (geometric 1 n g0) = repeat 1%nat n) ->
  jump_warning binomial sample_scale axis freeze (scan_shape s) lim1 lim2 g = true ->
  jump_noise_function isnan nan junk have_gen gen1 gen2 binomial sample_scale sample_lam geometric poisson axis freeze st g s lim1 lim2 = Ok (s', st', g') ->
  exists noise, js_noise st' = Some noise /\ forall i, Nat.even i = true -> nth i noise 0%nat = 0%nat.
Proof.
  intros Geo. unfold jump_warning, jump_noise_function. destruct freeze; [discriminate|]. cbn [andb].
  destruct (binomial g) as [act g1]. destruct (negb act); [discriminate|].
  destruct (sample_scale g1) as [v g2]. destruct (sample_lam g2) as [lam g3].
  destruct (jump_px_per_volt axis (scan_shape s) lim1 lim2) as [k|]; [|discriminate]. intros W. cbn [bind]. cbv zeta. rewrite W.
  destruct (jump_size axis (scan_shape s)) as [size|]; [|discriminate]. cbn [bind].
  replace (1 / 1) with 1 by lra.
  pose proof (ones_noise (poisson (lam * k)) (geometric 1) size g3 (Geo size g3)) as O.
  destruct (generate_dot_jumps_blockwise (poisson (lam * k)) false (geometric 1) size g3) as [noise g4]. cbn [fst] in O.
  destruct (jump_apply _ _ _ _ _ _ _ noise s lim1 lim2) as [s1|]; [|discriminate]. cbn [bind].
  intros E. injection E as _ <- _. exists noise. split; [reflexivity|exact O].
Qed.

Lemma jump_nonsquare {G} (binomial : G -> bool * G) g : fst (binomial g) = true ->
  exists lim1 lim2 v, fst lim1 < snd lim1 /\ fst lim2 < snd lim2 /\
    (jump_warning binomial (fun g => (v, g)) 1 false (Shape2 2 100) lim1 lim2 g = true /\ 25 < v * px_per_volt (Shape2 2 100) lim1 lim2 1) /\
    (jump_warning binomial (fun g => (v, g)) 1 false (Shape2 100 2) lim1 lim2 g = false /\ v * px_per_volt (Shape2 100 2) lim1 lim2 1 < 1).
Proof.
  intros B. exists (0, 1), (0, 1), 0.3. unfold jump_warning. destruct (binomial g) as [act g1]. cbn [fst] in B. subst act. cbn [negb].
  assert (K : forall r c, jump_px_per_volt 1 (Shape2 r c) (0, 1) (0, 1) = Ok (INR r / 1)).
  { intros r c. unfold jump_px_per_volt. cbn [Z.eqb Pos.eqb]. unfold div_range, volt_range. cbn [fst snd].
    rewrite Reqb_false. 2: { unfold Rmax, Rmin. destruct (Rle_dec 0 1); lra. }
    do 2 f_equal. unfold Rmax, Rmin. destruct (Rle_dec 0 1); lra. }
  assert (P : forall r c, px_per_volt (Shape2 r c) (0, 1) (0, 1) 1 = INR c / 1).
  { intros r c. unfold px_per_volt, pixels_along, range_along. cbn [Z.eqb Pos.eqb fst snd]. now rewrite Rminus_0_r, Rabs_R1. }
  rewrite !K, !P. cbn [fst snd]. rewrite !INR_IZR_INZ. cbn [Z.of_nat Pos.of_succ_nat Pos.succ]. repeat split; try lra.
  - apply Rltb_true. lra.
  - apply Rltb_false. lra.
Qed.
Lemma jump_fixed {G} (binomial : G -> bool * G) sample_scale axis freeze sh lim1 lim2 g : (axis = 0 \/ axis = 1)%Z ->
  (if (axis =? 1)%Z then fst lim1 = snd lim1 else fst lim2 = snd lim2) -> jump_warning binomial sample_scale axis freeze sh lim1 lim2 g = false.
Proof.
  intros A F. unfold jump_warning. destruct freeze; [reflexivity|]. destruct (binomial g) as [act g1]. destruct (negb act); [reflexivity|].
  destruct (sample_scale g1) as [v g2]. assert (D : forall n lim, fst lim = snd lim -> exists e, div_range n lim = Err e).
  { intros n lim E. unfold div_range, volt_range. cbv zeta. rewrite E. rewrite Rmax_left, Rmin_left by lra. rewrite Reqb_true by lra. eexists. reflexivity. }
  destruct A as [-> | ->]; cbn [Z.eqb] in F; destruct sh; cbn [jump_px_per_volt Z.eqb];
    match goal with |- context [div_range ?n ?l] => destruct (D n l F) as [e E]; rewrite E end; reflexivity.
Qed.
