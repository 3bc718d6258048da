(** Proofs about pixel voltages and sampled parameters in double precision. *)
From Flocq Require Import Core Relative.
From Verif Require Import RPrelude ModelFloat ModelFloatRange SpecFloatRange ProofsFloat.
Local Open Scope R_scope.

Notation u := (pow2 (-53)).
Definition grid (x : R) : Prop := exists m : Z, x = IZR m * pow2 (-1074).

Lemma grid_0 : grid 0.
Proof. exists 0%Z. simpl. ring. Qed.
Lemma grid_double x : double x -> grid x.
Proof.
  intros H. red in H. unfold generic_format in H. rewrite H. clear H. set (m := Ztrunc _).
  set (e := cexp radix2 binary64 x). assert (He : (-1074 <= e)%Z) by (unfold e, cexp, binary64, FLT_exp; lia).
  exists (m * 2 ^ (e + 1074))%Z. unfold F2R. cbn [Fnum Fexp]. rewrite mult_IZR.
  change (2 ^ (e + 1074))%Z with (radix2 ^ (e + 1074))%Z. rewrite (IZR_Zpower radix2) by lia.
  rewrite Rmult_assoc, <- bpow_plus. do 2 f_equal. ring.
Qed.
Lemma grid_plus x y : grid x -> grid y -> grid (x + y).
Proof. intros [m ->] [n ->]. exists (m + n)%Z. rewrite plus_IZR. ring. Qed.
Lemma grid_minus x y : grid x -> grid y -> grid (x - y).
Proof. intros [m ->] [n ->]. exists (m - n)%Z. rewrite minus_IZR. ring. Qed.
Lemma grid_times n x : grid x -> grid (INR n * x).
Proof. intros [m ->]. exists (Z.of_nat n * m)%Z. rewrite mult_IZR, <- INR_IZR_INZ. ring. Qed.

Lemma u_pos : 0 < u.
Proof. apply bpow_gt_0. Qed.
Lemma half_ulp_1 : / 2 * pow2 (-53 + 1) = u.
Proof. rewrite bpow_succ. field. Qed.
Lemma rel_grid x : grid x -> Rabs (fl x - x) <= u * Rabs x.
Proof.
  intros [m ->]. rewrite <- half_ulp_1.
  exact (relative_error_N_FLT_F2R_emin radix2 (-1074) 53 ltac:(reflexivity) (fun z => negb (Z.even z)) m).
Qed.
Lemma rel_normal x : pow2 (-1022) <= Rabs x -> Rabs (fl x - x) <= u * Rabs x.
Proof.
  intros H. rewrite <- half_ulp_1.
  exact (relative_error_N_FLT radix2 (-1074) 53 ltac:(reflexivity) (fun z => negb (Z.even z)) x H).
Qed.
Lemma double_opp x : double x -> double (- x).
Proof. apply generic_format_opp. Qed.
Lemma fl_opp x : fl (- x) = - fl x.
Proof. unfold fl. apply round_NE_opp. Qed.
Lemma fl_0 : fl 0 = 0.
Proof. apply fl_id. apply (double_int 0). lia. Qed.
Lemma fl_ge0 x : 0 <= x -> 0 <= fl x.
Proof. intros H. rewrite <- fl_0. apply fl_le. exact H. Qed.

Section Ascending.
Variables (a b : R) (m : nat).
Hypothesis (Da : double a) (Db : double b).
Hypothesis (Hm : (1 <= m)%nat) (Hm2 : (Z.of_nat m < 2 ^ 50)%Z).
Hypothesis (Hab : pow2 (-900) <= b - a).
Let delta := fl (b - a).
Let step := fl (delta / INR m).

Lemma u_small : u <= / 8 * / 1125899906842624.
Proof. change u with (/ IZR (2 ^ 53)). change (2 ^ 53)%Z with (8 * 1125899906842624)%Z. rewrite mult_IZR, Rinv_mult. lra. Qed.
Lemma m_ge1 : 1 <= INR m.
Proof. apply (le_INR 1). exact Hm. Qed.
Lemma m_bound : INR m + 1 <= 1125899906842624.
Proof. rewrite INR_IZR_INZ, <- plus_IZR. apply IZR_le. change 1125899906842624%Z with (2 ^ 50)%Z. lia. Qed.
Lemma p900 : 0 < pow2 (-900).
Proof. apply bpow_gt_0. Qed.
Lemma delta_bounds : (b - a) * (1 - u) <= delta <= (b - a) * (1 + u).
Proof.
  pose proof (rel_grid (b - a) (grid_minus _ _ (grid_double _ Db) (grid_double _ Da))) as E. fold delta in E.
  pose proof p900. rewrite (Rabs_pos_eq (b - a)) in E by lra. apply Rabs_le_inv in E. lra.
Qed.
Lemma delta_pos : pow2 (-901) <= delta.
Proof.
  pose proof delta_bounds as [H _]. pose proof u_small. pose proof p900.
  assert (pow2 (-901) = pow2 (-900) / 2) as -> by apply (bpow_pred (-900)).
  apply Rle_trans with ((b - a) * (1 / 2)); [lra|]. apply Rle_trans with ((b - a) * (1 - u)); [|exact H].
  apply Rmult_le_compat_l; lra.
Qed.
Lemma quotient_normal : pow2 (-1022) <= delta / INR m.
Proof.
  pose proof delta_pos. pose proof m_ge1. pose proof m_bound.
  apply Rle_trans with (pow2 (-901) / IZR (2 ^ 50)).
  - change (IZR (2 ^ 50)) with (pow2 50). unfold Rdiv. rewrite <- bpow_opp, <- bpow_plus. apply bpow_le. lia.
  - unfold Rdiv. apply Rmult_le_compat; [apply bpow_ge_0|left; apply Rinv_0_lt_compat; apply (IZR_lt 0); lia|exact H|].
    apply Rinv_le_contravar; [lra|]. change (2 ^ 50)%Z with 1125899906842624%Z. lra.
Qed.
Lemma step_bounds : delta / INR m * (1 - u) <= step <= delta / INR m * (1 + u).
Proof.
  pose proof quotient_normal as Q. pose proof (bpow_gt_0 radix2 (-1022)).
  pose proof (rel_normal (delta / INR m)) as E. rewrite (Rabs_pos_eq (delta / INR m)) in E by lra.
  specialize (E Q). fold step in E. apply Rabs_le_inv in E. lra.
Qed.
Lemma step_pos : 0 < step.
Proof.
  pose proof step_bounds as [H _]. pose proof quotient_normal as Q. pose proof (bpow_gt_0 radix2 (-1022)). pose proof u_small.
  apply Rlt_le_trans with (2 := H). apply Rmult_lt_0_compat; lra.
Qed.
Definition offset i := fl (INR i * step).
Lemma offset_rel i : INR i * step * (1 - u) <= offset i <= INR i * step * (1 + u).
Proof.
  pose proof step_pos as P. pose proof (pos_INR i).
  pose proof (rel_grid (INR i * step) (grid_times _ _ (grid_double _ (fl_double _)))) as E. fold (offset i) in E.
  rewrite (Rabs_pos_eq (INR i * step)) in E by (apply Rmult_le_pos; lra). apply Rabs_le_inv in E. lra.
Qed.
Lemma offset_mono i j : (i <= j)%nat -> offset i <= offset j.
Proof. intros H. apply fl_le. apply Rmult_le_compat_r; [left; exact step_pos|apply le_INR; exact H]. Qed.
Lemma offset_ge0 i : 0 <= offset i.
Proof. apply fl_ge0. apply Rmult_le_pos; [apply pos_INR|left; exact step_pos]. Qed.
(** three roundings *)
Lemma offset_exact i : let x := INR i * ((b - a) / INR m) in x * (1 - u) ^ 3 <= offset i <= x * (1 + u) ^ 3.
Proof.
  intros x. pose proof (offset_rel i) as O. pose proof step_bounds as St. pose proof delta_bounds as D.
  pose proof u_small as U. pose proof u_pos as U0. pose proof m_ge1 as M. pose proof (pos_INR i) as I.
  assert (Mi : 0 < / INR m) by (apply Rinv_0_lt_compat; lra).
  split.
  - apply Rle_trans with (2 := proj1 O).
    replace (x * (1 - u) ^ 3) with (INR i * ((b - a) * (1 - u) * / INR m * (1 - u)) * (1 - u)) by (unfold x, Rdiv; ring).
    apply Rmult_le_compat_r; [lra|]. apply Rmult_le_compat_l; [exact I|]. apply Rle_trans with (2 := proj1 St).
    apply Rmult_le_compat_r; [lra|]. apply Rmult_le_compat_r; [lra|]. apply D.
  - apply Rle_trans with (1 := proj2 O).
    replace (x * (1 + u) ^ 3) with (INR i * ((b - a) * (1 + u) * / INR m * (1 + u)) * (1 + u)) by (unfold x, Rdiv; ring).
    apply Rmult_le_compat_r; [lra|]. apply Rmult_le_compat_l; [exact I|]. apply Rle_trans with (1 := proj2 St).
    apply Rmult_le_compat_r; [lra|]. apply Rmult_le_compat_r; [lra|]. apply D.
Qed.
Lemma cube_up : (1 + u) ^ 3 <= 1 + 4 * u.
Proof. pose proof u_small. pose proof u_pos. nra. Qed.
Lemma cube_down : 1 - 4 * u <= (1 - u) ^ 3.
Proof. pose proof u_small. pose proof u_pos. nra. Qed.
Lemma offset_error i : (i <= m)%nat -> Rabs (offset i - INR i * ((b - a) / INR m)) <= 4 * u * (b - a).
Proof.
  intros Hi. pose proof (offset_exact i) as H. cbv zeta in H. set (x := INR i * ((b - a) / INR m)) in *.
  pose proof m_ge1 as M. pose proof p900. pose proof cube_up. pose proof cube_down. pose proof u_pos.
  assert (X0 : 0 <= x). { unfold x. apply Rmult_le_pos; [apply pos_INR|]. apply Rmult_le_pos; [lra|]. left. apply Rinv_0_lt_compat. lra. }
  assert (X1 : x <= b - a).
  { unfold x. apply Rle_trans with (INR m * ((b - a) / INR m)); [|right; field; lra].
    apply Rmult_le_compat_r; [|apply le_INR; exact Hi]. apply Rmult_le_pos; [lra|]. left. apply Rinv_0_lt_compat. lra. }
  apply Rabs_le. split.
  - apply Rle_trans with (- (4 * u * x)); [apply Ropp_le_contravar, Rmult_le_compat_l; lra|].
    apply Rle_trans with (x * (1 - 4 * u) - x); [lra|]. apply Rplus_le_compat_r. apply Rle_trans with (2 := proj1 H).
    apply Rmult_le_compat_l; assumption.
  - apply Rle_trans with (4 * u * x); [|apply Rmult_le_compat_l; lra].
    apply Rle_trans with (x * (1 + 4 * u) - x); [|lra]. apply Rplus_le_compat_r. apply Rle_trans with (1 := proj2 H).
    apply Rmult_le_compat_l; assumption.
Qed.
(** the pixels before the last *)
Lemma offset_below i : (i < m)%nat -> offset i <= b - a.
Proof.
  intros Hi. pose proof (proj2 (offset_exact i)) as H. cbv zeta in H. apply Rle_trans with (1 := H).
  pose proof m_ge1 as M. pose proof m_bound as MB. pose proof cube_up as C. pose proof u_small as U. pose proof u_pos as U0. pose proof p900 as P.
  assert (I : INR i <= INR m - 1). { apply (le_INR (S i)) in Hi. rewrite S_INR in Hi. lra. }
  pose proof (pos_INR i) as I0. assert (Mi : 0 < / INR m) by (apply Rinv_0_lt_compat; lra).
  apply Rle_trans with ((INR m - 1) * ((b - a) / INR m) * (1 + 4 * u)).
  - apply Rmult_le_compat; [apply Rmult_le_pos; [exact I0|apply Rmult_le_pos; lra]|apply pow_le; lra| |exact C].
    apply Rmult_le_compat_r; [apply Rmult_le_pos; lra|exact I].
  - replace ((INR m - 1) * ((b - a) / INR m) * (1 + 4 * u)) with ((b - a) * ((INR m - 1) * (1 + 4 * u) * / INR m)) by (unfold Rdiv; ring).
    rewrite <- (Rmult_1_r (b - a)) at 2. apply Rmult_le_compat_l; [lra|].
    apply Rmult_le_reg_r with (INR m); [lra|]. rewrite Rmult_assoc, Rinv_l by lra.
    assert (INR m * (4 * u) <= 1 / 2). { apply Rle_trans with (1125899906842624 * (4 * (/ 8 * / 1125899906842624))); [apply Rmult_le_compat; lra|lra]. }
    nra.
Qed.
Lemma pixel_between i : (i < m)%nat -> a <= fl (offset i + a) <= b.
Proof.
  intros Hi. pose proof (offset_ge0 i). pose proof (offset_below i Hi). rewrite <- (fl_id a Da) at 1. rewrite <- (fl_id b Db).
  split; apply fl_le; lra.
Qed.
Lemma pixel_mono i j : (i <= j)%nat -> fl (offset i + a) <= fl (offset j + a).
Proof. intros H. apply fl_le. apply Rplus_le_compat_r. apply offset_mono. exact H. Qed.
Lemma range_magnitude : b - a <= 2 * magnitude a b.
Proof.
  unfold magnitude. pose proof (Rmax_l (Rabs a) (Rabs b)). pose proof (Rmax_r (Rabs a) (Rabs b)).
  pose proof (Rle_abs (- a)). rewrite Rabs_Ropp in *. pose proof (Rle_abs b). lra.
Qed.
Lemma between_magnitude x : a <= x <= b -> Rabs x <= magnitude a b.
Proof.
  intros H. unfold magnitude. pose proof (Rmax_l (Rabs a) (Rabs b)). pose proof (Rmax_r (Rabs a) (Rabs b)).
  pose proof (Rle_abs (- a)). rewrite Rabs_Ropp in *. pose proof (Rle_abs b). apply Rabs_le. lra.
Qed.
Lemma pixel_error i : (i < m)%nat -> Rabs (fl (offset i + a) - (a + INR i * ((b - a) / INR m))) <= pow2 (-49) * magnitude a b.
Proof.
  intros Hi. pose proof (offset_error i ltac:(lia)) as E. pose proof (offset_ge0 i) as G. pose proof (offset_below i Hi) as B.
  pose proof (rel_grid (offset i + a) (grid_plus _ _ (grid_double _ (fl_double _)) (grid_double _ Da))) as F.
  pose proof (between_magnitude (offset i + a) ltac:(lra)) as Q. pose proof range_magnitude as RM. pose proof u_pos as U.
  replace (pow2 (-49)) with (16 * u). 2: { change 16 with (pow2 4). rewrite <- bpow_plus. reflexivity. }
  set (x := INR i * ((b - a) / INR m)) in *. set (y := offset i) in *. set (M := magnitude a b) in *.
  replace (fl (y + a) - (a + x)) with ((fl (y + a) - (y + a)) + (y - x)) by ring.
  apply Rle_trans with (1 := Rabs_triang _ _).
  assert (u * Rabs (y + a) <= u * M) by (apply Rmult_le_compat_l; lra).
  assert (4 * u * (b - a) <= 4 * u * (2 * M)) by (apply Rmult_le_compat_l; lra).
  assert (0 <= u * M). { apply Rmult_le_pos; [lra|]. apply Rle_trans with (2 := Q). apply Rabs_pos. }
  lra.
Qed.
End Ascending.

(** ** np.linspace *)
Definition pixel (a b : R) (m i : nat) : R :=
  let delta := fl (b - a) in
  let step := fl (delta / INR m) in
  fl (fl (if Reqb step 0 then fl (INR i / INR m) * delta else INR i * step) + a).
Lemma linspace_unfold a b m : (1 <= m)%nat -> float_linspace a b (S m) = map (pixel a b m) (seq 0 m) ++ [b].
Proof. destruct m as [|m]; [lia|reflexivity]. Qed.
Lemma linspace_nth a b m i : (1 <= m)%nat ->
  nth_error (float_linspace a b (S m)) i = if (i <? m)%nat then Some (pixel a b m i) else if (i =? m)%nat then Some b else None.
Proof.
  intros Hm. rewrite linspace_unfold by exact Hm.
  destruct (Nat.ltb_spec i m).
  - rewrite nth_error_app1 by (rewrite map_length, seq_length; assumption). rewrite nth_error_map_seq.
    destruct (Nat.ltb_spec i m); [reflexivity|lia].
  - rewrite nth_error_app2 by (rewrite map_length, seq_length; assumption). rewrite map_length, seq_length.
    destruct (Nat.eqb_spec i m) as [->|N]; [rewrite Nat.sub_diag; reflexivity|].
    apply nth_error_None. simpl. lia.
Qed.
Lemma linspace_length a b n : length (float_linspace a b n) = n.
Proof.
  destruct n as [|[|m]]; [reflexivity|reflexivity|]. rewrite linspace_unfold by lia.
  rewrite app_length, map_length, seq_length. simpl. lia.
Qed.
Lemma pixel_opp a b m i : pixel (- a) (- b) m i = - pixel a b m i.
Proof.
  unfold pixel. replace (- b - - a) with (- (b - a)) by ring. rewrite fl_opp. set (delta := fl (b - a)).
  replace (- delta / INR m) with (- (delta / INR m)) by (unfold Rdiv; ring). rewrite fl_opp. set (step := fl (delta / INR m)).
  destruct (Reqb_spec step 0) as [Z|N].
  - rewrite (Reqb_true (- step) 0) by lra.
    replace (fl (INR i / INR m) * - delta) with (- (fl (INR i / INR m) * delta)) by ring. rewrite fl_opp.
    rewrite <- (fl_opp (_ + a)). f_equal. ring.
  - rewrite (Reqb_false (- step) 0) by lra. replace (INR i * - step) with (- (INR i * step)) by ring. rewrite fl_opp.
    rewrite <- (fl_opp (_ + a)). f_equal. ring.
Qed.
Lemma pixel_const a m i : double a -> pixel a a m i = a.
Proof.
  intros D. unfold pixel. rewrite Rminus_eq_0, fl_0. replace (0 / INR m) with 0 by (unfold Rdiv; ring). rewrite fl_0.
  rewrite (Reqb_true 0 0) by reflexivity. rewrite Rmult_0_r, fl_0, Rplus_0_l. apply fl_id. exact D.
Qed.
Lemma pixel_asc a b m i : double a -> double b -> (1 <= m)%nat -> (Z.of_nat m < 2 ^ 50)%Z -> pow2 (-900) <= b - a ->
  pixel a b m i = fl (offset a b m i + a).
Proof.
  intros Da Db H1 H2 H3. unfold pixel. rewrite Reqb_false.
  - reflexivity.
  - pose proof (step_pos a b m Da Db H1 H2 H3). lra.
Qed.

Lemma wide_cases a b : wide a b -> a = b \/ pow2 (-900) <= b - a \/ pow2 (-900) <= - b - - a.
Proof. intros [H|H]; [left; exact H|right]. unfold Rabs in H. destruct (Rcase_abs (b - a)); [right|left]; lra. Qed.
Lemma magnitude_opp a b : magnitude (- a) (- b) = magnitude a b.
Proof. unfold magnitude. rewrite !Rabs_Ropp. reflexivity. Qed.
Lemma linspace_in_range a b n : double a -> double b -> (Z.of_nat n <= 2 ^ 50)%Z -> wide a b ->
  Forall (fun v => Rmin a b <= v <= Rmax a b) (float_linspace a b n).
Proof.
  intros Da Db Hn W. pose proof (Rmin_l a b). pose proof (Rmin_r a b). pose proof (Rmax_l a b). pose proof (Rmax_r a b).
  destruct n as [|[|m']]; [apply Forall_nil|apply Forall_cons; [lra|apply Forall_nil]|].
  set (m := S m') in *. assert (Hm1 : (1 <= m)%nat) by (unfold m; lia). rewrite linspace_unfold by exact Hm1.
  apply Forall_app. split; [|apply Forall_cons; [lra|apply Forall_nil]].
  apply Forall_forall. intros v Hv. apply in_map_iff in Hv. destruct Hv as (i & <- & Hi). apply in_seq in Hi.
  destruct (wide_cases a b W) as [->|[Up|Dn]].
  - rewrite pixel_const by exact Db. lra.
  - rewrite pixel_asc by (auto; lia). pose proof (pixel_between a b m Da Db Hm1 ltac:(lia) Up i ltac:(lia)). lra.
  - pose proof (pixel_between (- a) (- b) m (double_opp _ Da) (double_opp _ Db) Hm1 ltac:(lia) Dn i ltac:(lia)) as B.
    rewrite <- pixel_asc, pixel_opp in B by (auto using double_opp; lia). lra.
Qed.
Lemma linspace_ascending a b n i j vi vj : double a -> double b -> (Z.of_nat n <= 2 ^ 50)%Z -> wide a b -> a <= b -> (i <= j)%nat ->
  nth_error (float_linspace a b n) i = Some vi -> nth_error (float_linspace a b n) j = Some vj -> vi <= vj.
Proof.
  intros Da Db Hn W Hab Hij Hi Hj.
  pose proof (linspace_in_range a b n Da Db Hn W) as F. rewrite Forall_forall in F.
  pose proof (F vi (nth_error_In _ _ Hi)) as Bi. pose proof (F vj (nth_error_In _ _ Hj)) as Bj.
  rewrite Rmin_left, Rmax_right in * by exact Hab.
  destruct n as [|[|m']]; [destruct i; discriminate Hi| |].
  { destruct i as [|i]; [|destruct i; discriminate Hi]. destruct j as [|j]; [|destruct j; discriminate Hj].
    simpl in Hi, Hj. inversion Hi. inversion Hj. lra. }
  set (m := S m') in *. assert (Hm1 : (1 <= m)%nat) by (unfold m; lia). rewrite linspace_nth in Hi, Hj by exact Hm1.
  destruct (Nat.ltb_spec j m) as [Lj|Lj].
  - destruct (Nat.ltb_spec i m); [|lia]. injection Hi as <-. injection Hj as <-.
    destruct (wide_cases a b W) as [->|[Up|Dn]].
    + rewrite !pixel_const by exact Db. lra.
    + rewrite !pixel_asc by (auto; lia). apply (pixel_mono a b m); auto; lia.
    + pose proof (bpow_gt_0 radix2 (-900)). lra.
  - destruct (Nat.eqb_spec j m); [|discriminate Hj]. injection Hj as <-. lra.
Qed.
Lemma linspace_opp a b n : float_linspace (- a) (- b) n = map Ropp (float_linspace a b n).
Proof.
  destruct n as [|[|m']]; [reflexivity|reflexivity|]. rewrite !linspace_unfold by lia. rewrite map_app, map_map.
  f_equal. apply map_ext. intros i. apply pixel_opp.
Qed.
Lemma nth_opp a b n i v : nth_error (float_linspace a b n) i = Some v -> nth_error (float_linspace (- a) (- b) n) i = Some (- v).
Proof. intros H. rewrite linspace_opp. apply map_nth_error. exact H. Qed.
Lemma wide_opp a b : wide a b -> wide (- a) (- b).
Proof. intros [->|H]; [left; reflexivity|right]. replace (- b - - a) with (- (b - a)) by ring. rewrite Rabs_Ropp. exact H. Qed.
Lemma linspace_monotone a b n i j vi vj : double a -> double b -> (Z.of_nat n <= 2 ^ 50)%Z -> wide a b -> (i <= j)%nat ->
  nth_error (float_linspace a b n) i = Some vi -> nth_error (float_linspace a b n) j = Some vj ->
  (a <= b -> vi <= vj) /\ (b <= a -> vj <= vi).
Proof.
  intros Da Db Hn W Hij Hi Hj. split; intros Hab.
  - exact (linspace_ascending a b n i j vi vj Da Db Hn W Hab Hij Hi Hj).
  - pose proof (linspace_ascending (- a) (- b) n i j (- vi) (- vj) (double_opp _ Da) (double_opp _ Db) Hn (wide_opp _ _ W) ltac:(lra) Hij
      (nth_opp _ _ _ _ _ Hi) (nth_opp _ _ _ _ _ Hj)). lra.
Qed.
Lemma magnitude_ge0 a b : 0 <= magnitude a b.
Proof. unfold magnitude. pose proof (Rabs_pos a). pose proof (Rmax_l (Rabs a) (Rabs b)). lra. Qed.
Lemma linspace_error a b n i v : double a -> double b -> (2 <= n)%nat -> (Z.of_nat n <= 2 ^ 50)%Z -> wide a b ->
  nth_error (float_linspace a b n) i = Some v -> Rabs (v - exact_voltage a b n i) <= pow2 (-49) * magnitude a b.
Proof.
  intros Da Db Hn2 Hn W Hi. destruct n as [|[|m']]; [lia|lia|]. unfold exact_voltage.
  set (m := S m') in *. replace (S m - 1)%nat with m by lia. assert (Hm1 : (1 <= m)%nat) by (unfold m; lia).
  rewrite linspace_nth in Hi by exact Hm1. pose proof (magnitude_ge0 a b) as G. pose proof (bpow_ge_0 radix2 (-49)) as G2.
  assert (Z0 : Rabs 0 <= pow2 (-49) * magnitude a b) by (rewrite Rabs_R0; apply Rmult_le_pos; assumption).
  assert (M1 : 1 <= INR m) by (apply (le_INR 1); exact Hm1).
  destruct (Nat.ltb_spec i m) as [Li|Li].
  - injection Hi as <-. destruct (wide_cases a b W) as [->|[Up|Dn]].
    + rewrite pixel_const by exact Db. replace (b - (b + INR i * ((b - b) / INR m))) with 0 by (field; lra). exact Z0.
    + rewrite pixel_asc by (auto; lia). apply (pixel_error a b m); auto; lia.
    + pose proof (pixel_error (- a) (- b) m (double_opp _ Da) (double_opp _ Db) Hm1 ltac:(lia) Dn i Li) as E.
      rewrite <- pixel_asc, pixel_opp, magnitude_opp in E by (auto using double_opp; lia). rewrite <- Rabs_Ropp.
      replace (- (pixel a b m i - (a + INR i * ((b - a) / INR m)))) with (- pixel a b m i - (- a + INR i * ((- b - - a) / INR m))) by (field; lra).
      exact E.
  - destruct (Nat.eqb_spec i m) as [->|]; [|discriminate Hi]. injection Hi as <-.
    replace (b - (a + INR m * ((b - a) / INR m))) with 0 by (field; lra). exact Z0.
Qed.
Lemma linspace_distinct a b n i j vi vj : double a -> double b -> (2 <= n)%nat -> (Z.of_nat n <= 2 ^ 50)%Z -> wide a b ->
  pow2 (-48) * magnitude a b < (b - a) / INR (n - 1) -> (i < j)%nat ->
  nth_error (float_linspace a b n) i = Some vi -> nth_error (float_linspace a b n) j = Some vj -> vi < vj.
Proof.
  intros Da Db Hn2 Hn W P Hij Hi Hj.
  pose proof (linspace_error a b n i vi Da Db Hn2 Hn W Hi) as Ei. pose proof (linspace_error a b n j vj Da Db Hn2 Hn W Hj) as Ej.
  apply Rabs_le_inv in Ei. apply Rabs_le_inv in Ej. unfold exact_voltage in *. set (p := (b - a) / INR (n - 1)) in *.
  assert (B : pow2 (-48) = 2 * pow2 (-49)) by apply (bpow_succ (-49)). rewrite B in P.
  assert (0 <= pow2 (-49) * magnitude a b) by (apply Rmult_le_pos; [apply bpow_ge_0|apply magnitude_ge0]).
  apply (le_INR (S i)) in Hij. rewrite S_INR in Hij.
  assert (INR i * p + p <= INR j * p). { replace (INR i * p + p) with ((INR i + 1) * p) by ring. apply Rmult_le_compat_r; lra. }
  lra.
Qed.
Lemma linspace_first a b n : double a -> (1 <= n)%nat -> nth_error (float_linspace a b n) 0 = Some a.
Proof.
  intros Da Hn. destruct n as [|[|m]]; [lia|reflexivity|]. rewrite linspace_nth by lia. replace (0 <? S m)%nat with true by reflexivity. f_equal.
  unfold pixel. simpl (INR 0). replace (0 / INR (S m)) with 0 by (unfold Rdiv; ring). rewrite fl_0, !Rmult_0_l.
  destruct (Reqb _ 0); rewrite fl_0, Rplus_0_l; apply fl_id; exact Da.
Qed.
Lemma linspace_last a b n : (2 <= n)%nat -> nth_error (float_linspace a b n) (n - 1) = Some b.
Proof.
  intros Hn. destruct n as [|[|m]]; [lia|lia|]. replace (S (S m) - 1)%nat with (S m) by lia. rewrite linspace_nth by lia.
  rewrite Nat.ltb_irrefl, Nat.eqb_refl. reflexivity.
Qed.

(** ** Rounding to a given mantissa *)
Lemma fl_near M e x : (-1074 <= e)%Z -> (2 ^ 52 <= M < 2 ^ 53)%Z -> pow2 (e + 52) <= x < pow2 (e + 53) ->
  Rabs (x - IZR M * pow2 e) < pow2 (e - 1) -> fl x = IZR M * pow2 e.
Proof.
  intros He HM Hx H. pose proof (bpow_gt_0 radix2 (e + 52)) as P0. pose proof (bpow_gt_0 radix2 e) as P.
  assert (Hm : mag radix2 x = (e + 53)%Z :> Z).
  { apply mag_unique. rewrite Rabs_pos_eq by lra. replace (e + 53 - 1)%Z with (e + 52)%Z by ring. exact Hx. }
  assert (Hc : cexp radix2 binary64 x = e). { unfold cexp. rewrite Hm. unfold binary64, FLT_exp. lia. }
  unfold fl, round, F2R, scaled_mantissa. rewrite Hc. cbn [Fnum Fexp]. f_equal. f_equal. apply Znearest_imp.
  replace (x * pow2 (- e) - IZR M) with ((x - IZR M * pow2 e) * pow2 (- e)).
  2: { rewrite Rmult_minus_distr_r, Rmult_assoc, <- bpow_plus, Z.add_opp_diag_r. simpl. ring. }
  rewrite Rabs_mult, (Rabs_pos_eq (pow2 (- e))) by apply bpow_ge_0.
  apply Rlt_le_trans with (pow2 (e - 1) * pow2 (- e)); [apply Rmult_lt_compat_r; [apply bpow_gt_0|exact H]|].
  rewrite <- bpow_plus. replace (e - 1 + - e)%Z with (-1)%Z by ring. simpl. lra.
Qed.
(** numbers below the normal ones *)
Lemma fl_subnormal x : Rabs x < pow2 (-1022) -> fl x = IZR (ZnearestE (x * pow2 1074)) * pow2 (-1074).
Proof.
  intros H. destruct (Req_dec x 0) as [->|N].
  { rewrite fl_0, Rmult_0_l. assert (ZnearestE 0 = 0%Z) as ->; [|ring]. apply Znearest_imp. rewrite Rminus_0_r, Rabs_R0. lra. }
  assert (Hc : cexp radix2 binary64 x = (-1074)%Z).
  { unfold cexp, binary64, FLT_exp. assert (mag radix2 x <= -1022)%Z by (apply mag_le_bpow; assumption). lia. }
  unfold fl, round, F2R, scaled_mantissa. rewrite Hc. reflexivity.
Qed.

(** ** A reversed sweep *)
Definition third : R := IZR 6004799503160661 * pow2 (-54).
Lemma pow2_54 : pow2 (-54) = / 18014398509481984.
Proof. reflexivity. Qed.
Lemma fl_third : fl (1 / 3) = third.
Proof.
  unfold third. apply fl_near; [lia|lia| |].
  - change (pow2 (-54 + 52)) with (/ 4). change (pow2 (-54 + 53)) with (/ 2). lra.
  - rewrite pow2_54. change (pow2 (-54 - 1)) with (/ 36028797018963968).
    apply Rabs_def1; lra.
Qed.
Lemma double_1' : double 1.
Proof. apply (double_int 1). lia. Qed.
Lemma forward_pixel : nth_error (float_linspace 0 1 4) 1 = Some third.
Proof.
  rewrite linspace_nth by lia. change (1 <? 3)%nat with true. cbn iota. f_equal. unfold pixel.
  rewrite Rminus_0_r, (fl_id 1) by exact double_1'. replace (INR 3) with 3 by (simpl; ring). rewrite fl_third.
  rewrite Reqb_false. 2: { unfold third. rewrite pow2_54. lra. }
  replace (INR 1 * third) with third by (simpl; ring). assert (fl third = third) as E by (rewrite <- fl_third; apply fl_id, fl_double).
  rewrite E, Rplus_0_r, E. reflexivity.
Qed.
Lemma pow2_half : pow2 (-54) = u / 2.
Proof. exact (bpow_pred (-53)). Qed.
Lemma backward_pixel : nth_error (float_linspace 1 0 4) 2 = Some (IZR 3002399751580331 * pow2 (-53)).
Proof.
  rewrite linspace_nth by lia. change (2 <? 3)%nat with true. cbn iota. f_equal. unfold pixel.
  rewrite (fl_id (0 - 1)) by (replace (0 - 1) with (IZR (-1)) by ring; apply double_int; lia).
  replace (INR 3) with 3 by (simpl; ring). replace ((0 - 1) / 3) with (- (1 / 3)) by field. rewrite fl_opp, fl_third.
  rewrite Reqb_false. 2: { unfold third. rewrite pow2_54. lra. }
  replace (INR 2 * - third) with (- (IZR 6004799503160661 * pow2 (-53))).
  2: { unfold third. rewrite pow2_half. simpl (INR 2). field. }
  assert (Dd : double (IZR 6004799503160661 * pow2 (-53))).
  { replace (IZR 6004799503160661 * pow2 (-53)) with (2 * third).
    2: { unfold third. rewrite pow2_half. field. }
    apply generic_format_FLT. exists (Float radix2 6004799503160661 (-53)); [|reflexivity|cbn; lia].
    unfold third, F2R. cbn [Fnum Fexp]. rewrite pow2_half. field. }
  rewrite fl_opp, (fl_id _ Dd).
  replace (- (IZR 6004799503160661 * pow2 (-53)) + 1) with (IZR 3002399751580331 * pow2 (-53)).
  2: { change (pow2 (-53)) with (/ 9007199254740992). lra. }
  apply fl_id. apply double_scaled; lia.
Qed.
Lemma reverse_differs : nth_error (rev (float_linspace 1 0 4)) 1 <> nth_error (float_linspace 0 1 4) 1.
Proof.
  rewrite forward_pixel. assert (nth_error (rev (float_linspace 1 0 4)) 1 = nth_error (float_linspace 1 0 4) 2) as -> by reflexivity.
  rewrite backward_pixel. intros E. injection E as E. unfold third in E.
  rewrite pow2_54 in E. change (pow2 (-53)) with (/ 9007199254740992) in E. lra.
Qed.

(** ** A range below 2^-900 *)
Lemma subnormal_overshoot : let b := 3 * pow2 (-1074) in double b /\ nth_error (float_linspace 0 b 6) 4 = Some (4 * pow2 (-1074)).
Proof.
  intros b. assert (Db : double b) by (apply (double_scaled 3); lia). split; [exact Db|].
  rewrite linspace_nth by lia. change (4 <? 5)%nat with true. cbn iota. f_equal. unfold pixel.
  rewrite Rminus_0_r, (fl_id b Db). replace (INR 5) with 5 by (simpl; ring).
  pose proof (bpow_gt_0 radix2 (-1074)) as P.
  assert (S1 : fl (b / 5) = pow2 (-1074)).
  { assert (E1 : pow2 (-1074) * pow2 1074 = 1) by (rewrite <- bpow_plus; reflexivity).
    rewrite fl_subnormal.
    - assert (ZnearestE (b / 5 * pow2 1074) = 1%Z) as ->; [|simpl; ring]. apply Znearest_imp. unfold b.
      replace (3 * pow2 (-1074) / 5 * pow2 1074) with (3 / 5 * (pow2 (-1074) * pow2 1074)) by field. rewrite E1.
      apply Rabs_def1; lra.
    - unfold b. rewrite Rabs_pos_eq by lra. apply Rlt_trans with (pow2 (-1074)); [lra|]. apply bpow_lt. lia. }
  rewrite S1, Reqb_false by lra. assert (D4 : double (4 * pow2 (-1074))) by (apply (double_scaled 4); lia).
  replace (INR 4 * pow2 (-1074)) with (4 * pow2 (-1074)) by (simpl; ring). rewrite (fl_id _ D4), Rplus_0_r. apply fl_id. exact D4.
Qed.

(** ** Uniform numbers *)
Lemma random_bounds v : random_double v -> 0 <= v <= 1 - u.
Proof.
  intros (k & Hk & ->). pose proof u_pos as U. assert (K0 : 0 <= IZR k) by (apply (IZR_le 0); lia).
  assert (K1 : IZR k <= IZR (2 ^ 53 - 1)) by (apply IZR_le; lia). split; [apply Rmult_le_pos; lra|].
  replace (1 - u) with (IZR (2 ^ 53 - 1) * u); [apply Rmult_le_compat_r; lra|].
  change u with (/ 9007199254740992). change (2 ^ 53 - 1)%Z with 9007199254740991%Z. lra.
Qed.
Lemma grid_small x : grid x -> Rabs x < pow2 (-1021) -> double x.
Proof.
  intros [m ->] H. apply generic_format_FLT. exists (Float radix2 m (-1074)); [reflexivity| |cbn [Fexp]; lia].
  cbn [Fnum]. change (radix2 ^ 53)%Z with (2 ^ 53)%Z. apply lt_IZR. rewrite abs_IZR.
  rewrite Rabs_mult, (Rabs_pos_eq (pow2 (-1074))) in H by apply bpow_ge_0.
  replace (pow2 (-1021)) with (IZR (2 ^ 53) * pow2 (-1074)) in H.
  - apply Rmult_lt_reg_r in H; [exact H|apply bpow_gt_0].
  - change (IZR (2 ^ 53)) with (pow2 53). rewrite <- bpow_plus. reflexivity.
Qed.
(** the largest product is not above the unrounded range *)
Lemma product_below x : grid x -> 0 <= x -> fl (fl x * (1 - u)) <= x.
Proof.
  intros G H. set (d := fl x). pose proof u_pos as U. pose proof u_small as U2.
  assert (D0 : 0 <= d) by (apply fl_ge0; exact H). assert (Dd : double d) by apply fl_double.
  assert (L : fl (d * (1 - u)) <= d).
  { rewrite <- (fl_id d Dd) at 2. apply fl_le. nra. }
  destruct (Rle_or_lt d x) as [Le|Gt]; [lra|].
  (* x is not a double, so it is not small *)
  assert (Big : pow2 (-1021) <= x).
  { destruct (Rle_or_lt (pow2 (-1021)) x) as [B|B]; [exact B|exfalso].
    unfold d in Gt. rewrite fl_id in Gt; [lra|]. apply grid_small; [exact G|]. rewrite Rabs_pos_eq by exact H. exact B. }
  pose proof (bpow_gt_0 radix2 (-1021)) as P21. assert (Dp : 0 < d) by lra.
  assert (Pd : double (pred radix2 binary64 d)) by (apply generic_format_pred; [typeclasses eauto|exact Dd]).
  assert (Px : pred radix2 binary64 d <= x).
  { destruct (Rle_or_lt (pred radix2 binary64 d) x) as [B|B]; [exact B|exfalso].
    assert (d <= pred radix2 binary64 d). { unfold d at 1. rewrite <- (fl_id _ Pd). apply fl_le. lra. }
    pose proof (pred_lt_id radix2 binary64 d ltac:(lra)). lra. }
  apply Rle_trans with (2 := Px).
  destruct (mag radix2 d) as [e He]. specialize (He ltac:(lra)). rewrite Rabs_pos_eq in He by lra.
  assert (He1 : (-1020 <= e)%Z).
  { assert (pow2 (-1021) < pow2 e) by lra. apply lt_bpow in H0. lia. }
  destruct (Req_dec d (pow2 (e - 1))) as [Eq|Ne].
  - (* power of two *)
    assert (E : pred radix2 binary64 d = d * (1 - u)).
    { rewrite Eq at 1. rewrite pred_bpow. unfold binary64 at 1, FLT_exp. replace (Z.max (e - 1 - 53) (-1074)) with (e - 1 + -53)%Z by lia.
      rewrite bpow_plus, Eq. ring. }
    rewrite <- E. rewrite (fl_id _ Pd). lra.
  - apply round_N_le_midp; [typeclasses eauto|exact Pd|]. rewrite succ_pred by (typeclasses eauto || exact Dd).
    assert (C : d - pred radix2 binary64 d = pow2 (e - 53)).
    { rewrite pred_eq_pos by lra. unfold pred_pos. rewrite (mag_unique radix2 d e) by (rewrite Rabs_pos_eq by lra; exact He).
      rewrite Req_bool_false by exact Ne. rewrite ulp_neq_0 by lra. unfold cexp. rewrite (mag_unique radix2 d e) by (rewrite Rabs_pos_eq by lra; exact He).
      unfold binary64, FLT_exp. replace (Z.max (e - 53) (-1074)) with (e - 53)%Z by lia. ring. }
    assert (pow2 (e - 53) / 2 < d * u).
    { replace (pow2 (e - 53) / 2) with (pow2 (e - 1) * u).
      - apply Rmult_lt_compat_r; [exact U|]. lra.
      - rewrite <- bpow_plus. rewrite <- bpow_pred. f_equal. lia. }
    lra.
Qed.
Lemma uniform_between v low high : random_double v -> double low -> double high -> low <= high -> low <= float_uniform v low high <= high.
Proof.
  intros Hv Dl Dh H. pose proof (random_bounds v Hv) as V. pose proof u_pos as U. pose proof u_small as U2.
  assert (G : grid (high - low)) by (apply grid_minus; apply grid_double; assumption).
  set (d := fl (high - low)). assert (D0 : 0 <= d) by (apply fl_ge0; lra).
  assert (P0 : 0 <= fl (d * v)) by (apply fl_ge0; apply Rmult_le_pos; lra).
  assert (P1 : fl (d * v) <= high - low).
  { apply Rle_trans with (2 := product_below (high - low) G ltac:(lra)). apply fl_le. fold d. apply Rmult_le_compat_l; lra. }
  unfold float_uniform. fold d. rewrite <- (fl_id low Dl) at 1. rewrite <- (fl_id high Dh). split; apply fl_le; lra.
Qed.
Lemma uniform_double v low high : double (float_uniform v low high).
Proof. apply fl_double. Qed.

(** ** Narrowed ranges *)
Lemma narrow_bounds v t0 t1 w : random_double v -> double t0 -> double t1 -> t0 <= t1 -> double w -> 0 <= w -> double (1/2 * w) ->
  let rg := float_narrow v (t0, t1) w in
  double (fst rg) /\ double (snd rg) /\ fst rg <= snd rg /\
  t0 - pow2 (-51) * magnitude t0 t1 <= fst rg /\ snd rg <= t1 + pow2 (-51) * magnitude t0 t1.
Proof.
  intros Hv D0 D1 H01 Dw Hw Dh. pose proof (magnitude_ge0 t0 t1) as M0. pose proof u_pos as U. pose proof u_small as U2.
  replace (pow2 (-51)) with (4 * u). 2: { change 4 with (pow2 2). rewrite <- bpow_plus. reflexivity. }
  assert (UM : 0 <= u * magnitude t0 t1) by (apply Rmult_le_pos; lra).
  unfold float_narrow. cbn [fst snd]. destruct (Rleb_spec (fl (t1 - t0)) w) as [Le|Gt]; cbn [fst snd].
  { repeat split; auto; lra. }
  rewrite (fl_id _ Dh). set (h := 1/2 * w) in *. assert (Hh : 0 <= h) by (unfold h; lra).
  assert (W : w < t1 - t0).
  { destruct (Rlt_or_le w (t1 - t0)) as [L|L]; [exact L|exfalso]. apply fl_le in L. rewrite (fl_id w Dw) in L. lra. }
  assert (Gh : grid h) by (apply grid_double; exact Dh).
  assert (Bl : t0 <= t0 + h <= t1) by (unfold h; lra). assert (Bh : t0 <= t1 - h <= t1) by (unfold h; lra).
  assert (L1 : fl (t0 + h) <= fl (t1 - h)) by (apply fl_le; unfold h; lra).
  pose proof (uniform_between v _ _ Hv (fl_double (t0 + h)) (fl_double (t1 - h)) L1) as C.
  set (c := float_uniform v (fl (t0 + h)) (fl (t1 - h))) in *.
  assert (Mag : forall x, t0 <= x <= t1 -> Rabs x <= magnitude t0 t1).
  { intros x Hx. unfold magnitude. pose proof (Rmax_l (Rabs t0) (Rabs t1)). pose proof (Rmax_r (Rabs t0) (Rabs t1)).
    pose proof (Rle_abs (- t0)). rewrite Rabs_Ropp in *. pose proof (Rle_abs t1). apply Rabs_le. lra. }
  pose proof (rel_grid (t0 + h) (grid_plus _ _ (grid_double _ D0) Gh)) as El. pose proof (Mag _ Bl) as Ml.
  pose proof (rel_grid (t1 - h) (grid_minus _ _ (grid_double _ D1) Gh)) as Eh. pose proof (Mag _ Bh) as Mh.
  set (M := magnitude t0 t1) in *.
  assert (El' : t0 + h - u * M <= fl (t0 + h)).
  { apply Rabs_le_inv in El. assert (u * Rabs (t0 + h) <= u * M) by (apply Rmult_le_compat_l; lra). lra. }
  assert (Eh' : fl (t1 - h) <= t1 - h + u * M).
  { apply Rabs_le_inv in Eh. assert (u * Rabs (t1 - h) <= u * M) by (apply Rmult_le_compat_l; lra). lra. }
  (* fl (c - h) is at least the rounded lower end *)
  assert (Gl : grid (fl (t0 + h) - h)) by (apply grid_minus; [apply grid_double, fl_double|exact Gh]).
  assert (Gu : grid (fl (t1 - h) + h)) by (apply grid_plus; [apply grid_double, fl_double|exact Gh]).
  pose proof (rel_grid _ Gl) as Fl. pose proof (rel_grid _ Gu) as Fu.
  assert (Mono : forall x y, x <= y -> fl x <= fl y) by (intros; apply fl_le; assumption).
  pose proof (Mono (fl (t0 + h) - h) (c - h) ltac:(lra)) as Cl. pose proof (Mono (c + h) (fl (t1 - h) + h) ltac:(lra)) as Cu.
  split; [apply fl_double|]. split; [apply fl_double|]. split; [apply fl_le; lra|].
  assert (Abs : Rabs t0 <= M /\ Rabs t1 <= M) by (split; apply Mag; lra).
  assert (uuM : u * (u * M) <= u * M). { apply Rmult_le_compat_l; [lra|]. rewrite <- (Rmult_1_l M) at 2. apply Rmult_le_compat_r; lra. }
  split.
  - destruct (Rle_or_lt t0 (fl (t0 + h) - h)) as [B|B].
    + apply Mono in B. rewrite (fl_id t0 D0) in B. lra.
    + assert (X : Rabs (fl (t0 + h) - h) <= M + u * M).
      { replace (fl (t0 + h) - h) with (t0 - (t0 - (fl (t0 + h) - h))) by ring. apply Rabs_le. destruct Abs as [A0 _]. apply Rabs_le_inv in A0. lra. }
      apply (Rmult_le_compat_l u) in X; [|lra]. rewrite Rmult_plus_distr_l in X. apply Rabs_le_inv in Fl. lra.
  - destruct (Rle_or_lt (fl (t1 - h) + h) t1) as [B|B].
    + apply Mono in B. rewrite (fl_id t1 D1) in B. lra.
    + assert (X : Rabs (fl (t1 - h) + h) <= M + u * M).
      { apply Rabs_le. destruct Abs as [_ A1]. apply Rabs_le_inv in A1. lra. }
      apply (Rmult_le_compat_l u) in X; [|lra]. rewrite Rmult_plus_distr_l in X. apply Rabs_le_inv in Fu. lra.
Qed.
Lemma sample_bounds v1 v2 t0 t1 w : random_double v1 -> random_double v2 -> double t0 -> double t1 -> t0 <= t1 -> double w -> 0 <= w -> double (1/2 * w) ->
  t0 - pow2 (-51) * magnitude t0 t1 <= float_sample v1 v2 (t0, t1) w <= t1 + pow2 (-51) * magnitude t0 t1.
Proof.
  intros H1 H2 D0 D1 H01 Dw Hw Dh. destruct (narrow_bounds v1 t0 t1 w H1 D0 D1 H01 Dw Hw Dh) as (A & B & C & E & F).
  unfold float_sample. pose proof (uniform_between v2 _ _ H2 A B C). lra.
Qed.
Lemma random_0 : random_double 0.
Proof. exists 0%Z. split; [lia|]. simpl. ring. Qed.
Lemma double_2 : double 2. Proof. apply (double_int 2). lia. Qed.
Lemma double_4 : double 4. Proof. apply (double_int 4). lia. Qed.
Lemma uniform_0 low high : double low -> float_uniform 0 low high = low.
Proof. intros D. unfold float_uniform. rewrite Rmult_0_r, fl_0, Rplus_0_r. apply fl_id. exact D. Qed.
Lemma narrow_leaves : double (pow2 (-60)) /\ float_sample 0 0 (pow2 (-60), 4) 2 = 0.
Proof.
  assert (D60 : double (pow2 (-60))) by (rewrite <- (Rmult_1_l (pow2 (-60))); apply (double_scaled 1); lia).
  split; [exact D60|]. assert (P : 0 < pow2 (-60) <= / 1000000).
  { split; [apply bpow_gt_0|]. change (pow2 (-60)) with (/ 1152921504606846976). lra. }
  unfold float_sample, float_narrow. cbn [fst snd].
  assert (E3 : 3 <= fl (4 - pow2 (-60))).
  { rewrite <- (fl_id 3) at 1 by (apply (double_int 3); lia). apply fl_le. lra. }
  rewrite Rleb_false by lra. replace (1 / 2 * 2) with 1 by field. rewrite (fl_id 1 double_1').
  rewrite uniform_0 by apply fl_double.
  assert (fl (pow2 (-60) + 1) = 1) as E1.
  { transitivity (IZR 4503599627370496 * pow2 (-52)); [|change (pow2 (-52)) with (/ 4503599627370496); lra].
    apply fl_near; [lia|lia| |].
    - change (pow2 (-52 + 52)) with 1. change (pow2 (-52 + 53)) with 2. lra.
    - replace (IZR 4503599627370496 * pow2 (-52)) with 1 by (change (pow2 (-52)) with (/ 4503599627370496); lra).
      replace (pow2 (-60) + 1 - 1) with (pow2 (-60)) by ring. rewrite Rabs_pos_eq by lra. apply bpow_lt. lia. }
  rewrite E1. cbn [fst snd]. rewrite uniform_0 by exact double_1'. replace (1 - 1) with 0 by ring. exact fl_0.
Qed.
