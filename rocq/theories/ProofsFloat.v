(** Proofs about occupations in double precision. *)
From Flocq Require Import Core.
From Verif Require Import RPrelude Arr ModelSupport ModelTct ModelCsd ModelFloat SpecFloat SpecCsd ProofsCsd.
Local Open Scope R_scope.

#[global] Instance prec53 : Prec_gt_0 53. Proof. unfold Prec_gt_0. lia. Qed.
#[global] Instance valid64 : Valid_exp binary64. Proof. unfold binary64. exact (FLT_exp_valid (-1074) 53). Qed.

Lemma fl_le x y : x <= y -> fl x <= fl y.
Proof. apply round_le; typeclasses eauto. Qed.
Lemma fl_id x : double x -> fl x = x.
Proof. apply round_generic. typeclasses eauto. Qed.
Lemma fl_double x : double (fl x).
Proof. apply generic_format_round; typeclasses eauto. Qed.
Lemma double_scaled z e : (Z.abs z <= 2 ^ 52)%Z -> (-1074 <= e)%Z -> double (IZR z * bpow radix2 e).
Proof.
  intros Hz He. apply generic_format_FLT. exists (Float radix2 z e); [reflexivity| |exact He].
  cbn [Fnum]. change (radix2 ^ 53)%Z with (2 * 2 ^ 52)%Z. lia.
Qed.
Lemma double_int z : (Z.abs z <= 2 ^ 52)%Z -> double (IZR z).
Proof. intros Hz. replace (IZR z) with (IZR z * bpow radix2 0) by (simpl; ring). apply double_scaled; lia. Qed.
Lemma double_half : double (1/2).
Proof. replace (1/2) with (IZR 1 * bpow radix2 (-1)) by (simpl; lra). apply double_scaled; lia. Qed.
Lemma double_INR n : (Z.of_nat n <= 2 ^ 52)%Z -> double (INR n).
Proof. intros Hn. rewrite INR_IZR_INZ. apply double_int. lia. Qed.

(** ties go to even mantissas *)
Lemma nearest_even M s : Z.even M = true -> Rabs (s - IZR M) <= 1/2 -> ZnearestE s = M.
Proof.
  intros E H. destruct (Rlt_or_le (Rabs (s - IZR M)) (1/2)) as [L|L].
  - apply Znearest_imp. lra.
  - assert (A : Rabs (s - IZR M) = 1/2) by lra. unfold Rabs in A. destruct (Rcase_abs (s - IZR M)) as [N|N].
    + assert (F : Zfloor s = (M - 1)%Z) by (apply Zfloor_imp; rewrite plus_IZR, minus_IZR; simpl; lra).
      unfold Znearest. rewrite F, minus_IZR. rewrite Rcompare_Eq by lra.
      replace (Z.even (M - 1)) with false by (symmetry; rewrite Z.even_sub, E; reflexivity). simpl.
      apply Zceil_imp. rewrite minus_IZR. lra.
    + assert (F : Zfloor s = M) by (apply Zfloor_imp; rewrite plus_IZR; simpl; lra).
      unfold Znearest. rewrite F. rewrite Rcompare_Eq by lra. rewrite E. reflexivity.
Qed.
Lemma fl_even M e x : Z.even M = true -> (-1074 <= e)%Z -> bpow radix2 (e + 52) <= x < bpow radix2 (e + 53) ->
  Rabs (x - IZR M * bpow radix2 e) <= bpow radix2 (e - 1) -> fl x = IZR M * bpow radix2 e.
Proof.
  intros E He Hx H. pose proof (bpow_gt_0 radix2 (e + 52)) as P0. pose proof (bpow_gt_0 radix2 e) as P.
  assert (Hm : mag radix2 x = (e + 53)%Z :> Z).
  { apply mag_unique. rewrite Rabs_pos_eq by lra. replace (e + 53 - 1)%Z with (e + 52)%Z by ring. exact Hx. }
  assert (Hc : cexp radix2 binary64 x = e).
  { unfold cexp. rewrite Hm. unfold binary64, FLT_exp. lia. }
  unfold fl, round, F2R, scaled_mantissa. rewrite Hc. cbn [Fnum Fexp]. f_equal. f_equal.
  apply nearest_even; [exact E|].
  replace (x * bpow radix2 (- e) - IZR M) with ((x - IZR M * bpow radix2 e) * bpow radix2 (- e)).
  2: { rewrite Rmult_minus_distr_r, Rmult_assoc, <- bpow_plus, Z.add_opp_diag_r. simpl. ring. }
  rewrite Rabs_mult, (Rabs_pos_eq (bpow radix2 (- e))) by apply bpow_ge_0.
  apply Rle_trans with (bpow radix2 (e - 1) * bpow radix2 (- e)); [apply Rmult_le_compat_r; [apply bpow_ge_0|exact H]|].
  rewrite <- bpow_plus. replace (e - 1 + - e)%Z with (-1)%Z by ring. simpl. lra.
Qed.

Lemma bpow_pred e : bpow radix2 (e - 1) = bpow radix2 e / 2.
Proof. replace e with (1 + (e - 1))%Z at 2 by ring. rewrite bpow_plus. change (bpow radix2 1) with 2. field. Qed.
Lemma bpow_succ e : bpow radix2 (e + 1) = 2 * bpow radix2 e.
Proof. rewrite Z.add_comm, bpow_plus. change (bpow radix2 1) with 2. lra. Qed.

(** a number between 0 and the integer m, and its rounded complement *)
Lemma complement_exact m a : (m <= 2 ^ 52)%Z -> double a -> 0 <= a <= IZR m -> fl (a + fl (IZR m - a)) = IZR m.
Proof.
  intros Hm Ha H. destruct (Z.eq_dec m 0) as [->|N0].
  { simpl in *. assert (a = 0) as -> by lra. rewrite Rminus_0_r. rewrite (fl_id 0) by apply (double_int 0 ltac:(lia)).
    rewrite Rplus_0_r. apply (fl_id 0). apply (double_int 0). lia. }
  assert (Hp : (1 <= m)%Z). { apply le_IZR. assert (0 <= IZR m) by lra. apply le_IZR in H0. apply IZR_le. lia. }
  assert (H1 : 1 <= IZR m) by (apply (IZR_le 1); exact Hp).
  assert (Dm : double (IZR m)) by (apply double_int; lia).
  destruct (mag radix2 (IZR m)) as [k Hk]. specialize (Hk ltac:(lra)). rewrite Rabs_pos_eq in Hk by lra.
  assert (Hk1 : (1 <= k)%Z).
  { assert (bpow radix2 0 < bpow radix2 k) by (simpl; lra). apply lt_bpow in H0. lia. }
  assert (Hk2 : (k <= 53)%Z).
  { assert (bpow radix2 (k - 1) < bpow radix2 53).
    { apply Rle_lt_trans with (IZR m); [apply Hk|]. apply Rle_lt_trans with (IZR (2 ^ 52)); [apply IZR_le; exact Hm|].
      rewrite <- (IZR_Zpower radix2 53) by lia. apply IZR_lt. reflexivity. }
    apply lt_bpow in H0. lia. }
  set (e := (k - 53)%Z). assert (He : (-52 <= e <= 0)%Z) by (unfold e; lia).
  replace k with (e + 53)%Z in Hk by (unfold e; ring). replace (e + 53 - 1)%Z with (e + 52)%Z in Hk by ring.
  set (B := bpow radix2 e) in *. assert (PB : 0 < B) by apply bpow_gt_0.
  assert (P52 : bpow radix2 (e + 52) = IZR (2 ^ 52) * B).
  { unfold B. rewrite Z.add_comm, bpow_plus. f_equal. }
  assert (P53 : bpow radix2 (e + 53) = IZR (2 ^ 53) * B).
  { unfold B. rewrite Z.add_comm, bpow_plus. f_equal. }
  (* the mantissa of m *)
  set (M := (m * 2 ^ (- e))%Z).
  assert (EM : IZR m = IZR M * B).
  { unfold M, B. rewrite mult_IZR. change (2 ^ (- e))%Z with (radix2 ^ (- e))%Z. rewrite (IZR_Zpower radix2 (- e)) by lia.
    rewrite Rmult_assoc, <- bpow_plus, Z.add_opp_diag_l. simpl. ring. }
  assert (EvM : Z.even M = true).
  { unfold M. rewrite Z.even_mul. destruct (Z.eq_dec e 0) as [->|Ne].
    - apply orb_true_intro. left. rewrite P52 in Hk. unfold B in Hk. simpl bpow in Hk. rewrite Rmult_1_r in Hk.
      assert (m = 2 ^ 52)%Z as ->. { apply Z.le_antisymm; [exact Hm|]. apply le_IZR. apply Hk. } reflexivity.
    - rewrite (Z.even_pow 2 (- e)) by lia. simpl. apply orb_true_r. }
  assert (BM : (2 ^ 52 <= M < 2 ^ 53)%Z).
  { rewrite EM, P52, P53 in Hk. destruct Hk as [L1 L2]. apply Rmult_le_reg_r in L1; [|exact PB]. apply Rmult_lt_reg_r in L2; [|exact PB].
    split; [apply le_IZR; exact L1|apply lt_IZR; exact L2]. }
  assert (Hcm : ulp radix2 binary64 (IZR m) = B).
  { rewrite ulp_neq_0 by lra. unfold cexp. rewrite (mag_unique radix2 (IZR m) (e + 53)).
    - unfold binary64, FLT_exp, B. f_equal. lia.
    - rewrite Rabs_pos_eq by lra. replace (e + 53 - 1)%Z with (e + 52)%Z by ring. exact Hk. }
  pose proof (error_le_half_ulp radix2 binary64 (fun z => negb (Z.even z)) (IZR m - a)) as D. fold (fl (IZR m - a)) in D.
  set (x := a + fl (IZR m - a)).
  assert (Dx : x - IZR m = fl (IZR m - a) - (IZR m - a)) by (unfold x; ring). rewrite <- Dx in D.
  assert (U : ulp radix2 binary64 (IZR m - a) <= B).
  { rewrite <- Hcm. apply ulp_le; [typeclasses eauto|typeclasses eauto|]. rewrite !Rabs_pos_eq by lra. lra. }
  assert (Bp : bpow radix2 (e - 1) = B / 2) by apply bpow_pred.
  assert (D1 : Rabs (x - IZR m) <= B / 2) by lra.
  assert (Bx : IZR m - B / 2 <= x <= IZR m + B / 2) by (apply Rabs_le_inv in D1; lra).
  assert (M1 : IZR M + 1 <= IZR (2 ^ 53)) by (rewrite <- plus_IZR; apply IZR_le; lia).
  assert (Q : forall u v, u <= v -> u * B <= v * B) by (intros; apply Rmult_le_compat_r; lra).
  destruct (Rle_or_lt (IZR m) x) as [Up|Dn].
  - rewrite EM. apply fl_even; [exact EvM|lia| |].
    + split; [lra|]. rewrite P53. specialize (Q _ _ M1). rewrite Rmult_plus_distr_r in Q. lra.
    + fold B. rewrite <- EM, Bp. exact D1.
  - destruct (Z.eq_dec M (2 ^ 52)) as [EqM|NM].
    + (* m is a power of two *)
      assert (Na : a <> 0).
      { intros ->. unfold x in Dn. rewrite Rminus_0_r, fl_id in Dn by exact Dm. lra. }
      assert (Nb : IZR m - a <> 0).
      { intros Z0. unfold x in Dn. rewrite Z0, (fl_id 0) in Dn by apply (double_int 0 ltac:(lia)). lra. }
      assert (Lm : IZR m = bpow radix2 (e + 52)) by (rewrite P52, EM, EqM; reflexivity).
      assert (U2 : ulp radix2 binary64 (IZR m - a) <= B / 2).
      { rewrite ulp_neq_0 by exact Nb. rewrite <- Bp. apply bpow_le. unfold cexp, binary64, FLT_exp.
        assert (mag radix2 (IZR m - a) <= e + 52)%Z.
        { apply mag_le_bpow; [exact Nb|]. rewrite Rabs_pos_eq by lra. rewrite <- Lm. lra. }
        lia. }
      assert (D2 : Rabs (x - IZR m) <= B / 4) by lra.
      assert (E2 : IZR m = IZR (2 ^ 53) * bpow radix2 (e - 1)).
      { rewrite Bp, EM, EqM. change (2 ^ 53)%Z with (2 * 2 ^ 52)%Z. rewrite (mult_IZR 2). field. }
      rewrite E2. apply fl_even; [reflexivity|lia| |].
      * replace (e - 1 + 53)%Z with (e + 52)%Z by ring. replace (e - 1 + 52)%Z with (e + 52 - 1)%Z by ring.
        rewrite bpow_pred, <- Lm. split; [|exact Dn]. apply Rabs_le_inv in D2.
        assert (B <= IZR m). { rewrite EM, EqM. rewrite <- (Rmult_1_l B) at 1. apply Q. apply (IZR_le 1). lia. }
        lra.
      * rewrite <- E2, bpow_pred, Bp. lra.
    + assert (M2 : IZR (2 ^ 52) + 1 <= IZR M) by (rewrite <- plus_IZR; apply IZR_le; lia).
      rewrite EM. apply fl_even; [exact EvM|lia| |].
      * split; [|lra]. rewrite P52. specialize (Q _ _ M2). rewrite Rmult_plus_distr_r in Q. lra.
      * fold B. rewrite <- EM, Bp. exact D1.
Qed.

(** ** CDF values *)
Lemma double_0 : double 0. Proof. apply (double_int 0). lia. Qed.
Lemma double_1 : double 1. Proof. apply (double_int 1). lia. Qed.
Lemma double_2 : double 2. Proof. apply (double_int 2). lia. Qed.
Lemma fl_between x u v : double u -> double v -> u <= x <= v -> u <= fl x <= v.
Proof. intros Du Dv [H1 H2]. split; [rewrite <- (fl_id u Du)|rewrite <- (fl_id v Dv)]; apply fl_le; assumption. Qed.
Lemma sigmoid_unit t : -1 <= t <= 1 -> unit_double (float_sigmoid t).
Proof.
  intros H. unfold float_sigmoid. split; [apply fl_double|]. apply fl_between; [exact double_0|exact double_1|].
  pose proof (fl_between (1 + t) 0 2 double_0 double_2 ltac:(lra)). lra.
Qed.

(** the factor 1 / pi rounded, times at most pi / 2, rounds to at most 1 / 2 *)
Lemma fl_opp x : fl (- x) = - fl x.
Proof. unfold fl. rewrite round_NE_opp. reflexivity. Qed.
Lemma near_half x : 1/2 <= x <= 1/2 + bpow radix2 (-54) -> fl x = 1/2.
Proof.
  intros H. replace (1/2) with (IZR (2 ^ 52) * bpow radix2 (-53)).
  2: { change (bpow radix2 (-53)) with (/ IZR (2 ^ 53)). change (2 ^ 53)%Z with (2 * 2 ^ 52)%Z. rewrite mult_IZR. field. apply IZR_neq. discriminate. }
  assert (E : IZR (2 ^ 52) * bpow radix2 (-53) = 1/2).
  { change (bpow radix2 (-53)) with (/ IZR (2 ^ 53)). change (2 ^ 53)%Z with (2 * 2 ^ 52)%Z. rewrite mult_IZR. field. apply IZR_neq. discriminate. }
  apply fl_even; [reflexivity|lia| |].
  - change (-53 + 52)%Z with (-1)%Z. change (-53 + 53)%Z with 0%Z. simpl (bpow radix2 (-1)). simpl (bpow radix2 0).
    split; [lra|]. apply Rle_lt_trans with (1/2 + bpow radix2 (-54)); [lra|].
    assert (bpow radix2 (-54) < bpow radix2 (-1)) by (apply bpow_lt; lia). simpl (bpow radix2 (-1)) in H0. lra.
  - rewrite E. change (-53 - 1)%Z with (-54)%Z. rewrite Rabs_pos_eq; lra.
Qed.
Lemma below_half x : x <= 1/2 + bpow radix2 (-54) -> fl x <= 1/2.
Proof.
  intros H. destruct (Rle_or_lt (1/2) x) as [L|L].
  - rewrite near_half by lra. lra.
  - rewrite <- (fl_id (1/2) double_half). apply fl_le. lra.
Qed.
Lemma inverse_error p : 1 <= p <= 4 -> p * fl (1 / p) <= 1 + bpow radix2 (-53) /\ 0 <= fl (1 / p).
Proof.
  intros H. assert (P : 0 < 1 / p) by (apply Rdiv_lt_0_compat; lra).
  split.
  2: { rewrite <- (fl_id 0 double_0). apply fl_le. lra. }
  pose proof (error_le_half_ulp radix2 binary64 (fun z => negb (Z.even z)) (1 / p)) as D. fold (fl (1 / p)) in D.
  assert (U : ulp radix2 binary64 (1 / p) <= 1 / p * bpow radix2 (-52)).
  { unfold binary64. rewrite <- (Rabs_pos_eq (1 / p)) at 2 by lra. apply (ulp_FLT_le radix2 (-1074) 53). rewrite Rabs_pos_eq by lra.
    apply Rle_trans with (bpow radix2 (-2)); [apply bpow_le; lia|]. simpl (bpow radix2 (-2)).
    apply Rmult_le_reg_r with p; [lra|]. replace (1 / p * p) with 1 by (field; lra). change (IZR (Z.pow_pos 2 2)) with 4. lra. }
  assert (F : fl (1 / p) <= 1 / p + / 2 * (1 / p * bpow radix2 (-52))).
  { apply Rabs_le_inv in D. lra. }
  apply Rmult_le_compat_l with (r := p) in F; [|lra]. apply Rle_trans with (1 := F).
  replace (bpow radix2 (-53)) with (bpow radix2 (-52) / 2) by (symmetry; exact (bpow_pred (-52))).
  right. field. lra.
Qed.
Lemma cauchy_unit p t : 1 <= p <= 4 -> Rabs t <= p / 2 -> unit_double (float_cauchy p t).
Proof.
  intros Hp Ht. unfold float_cauchy. split; [apply fl_double|]. apply fl_between; [exact double_0|exact double_1|].
  destruct (inverse_error p Hp) as [I1 I2]. set (c := fl (1 / p)) in *.
  assert (E : bpow radix2 (-54) = bpow radix2 (-53) / 2) by (exact (bpow_pred (-53))).
  assert (C : c * (p / 2) <= 1/2 + bpow radix2 (-54)) by (rewrite E; lra).
  apply Rabs_le_inv in Ht.
  assert (A : fl (c * t) <= 1/2).
  { apply below_half. apply Rle_trans with (c * (p / 2)); [apply Rmult_le_compat_l; lra|exact C]. }
  assert (B : - fl (c * t) <= 1/2).
  { rewrite <- fl_opp. apply below_half. replace (- (c * t)) with (c * - t) by ring.
    apply Rle_trans with (c * (p / 2)); [apply Rmult_le_compat_l; lra|exact C]. }
  lra.
Qed.

(** ** occupations *)
Lemma float_sum_range values : Forall unit_double values -> (Z.of_nat (length values) <= 2 ^ 52)%Z ->
  double (float_sum values) /\ 0 <= float_sum values <= INR (length values).
Proof.
  intros H L. unfold float_sum.
  assert (Gen : forall l s k, Forall unit_double l -> double s -> 0 <= s <= INR k -> (Z.of_nat (k + length l) <= 2 ^ 52)%Z ->
    double (fold_left (fun s v => fl (s + v)) l s) /\ 0 <= fold_left (fun s v => fl (s + v)) l s <= INR (k + length l)).
  { induction l as [|v l IH]; intros s k Hl Ds Hs Hk; simpl fold_left; simpl length in *.
    - rewrite Nat.add_0_r. auto.
    - inversion Hl as [|? ? [_ Hv] Hl']; subst. replace (k + S (length l))%nat with (S k + length l)%nat in * by lia.
      apply IH; [exact Hl'|apply fl_double| |exact Hk].
      apply fl_between; [exact double_0|apply double_INR; lia|]. rewrite S_INR. lra. }
  exact (Gen values 0 0%nat H double_0 ltac:(simpl; lra) L).
Qed.
Lemma max_occ_exact n : (Z.of_nat n <= 2 ^ 52)%Z -> fl (INR (2 * n) / 2) = INR n.
Proof.
  intros H. rewrite mult_INR. simpl (INR 2). replace ((1 + 1) * INR n / 2) with (INR n) by field. apply fl_id. apply double_INR. exact H.
Qed.
Lemma float_total values : Forall unit_double values -> (Z.of_nat (length values) <= 2 ^ 52)%Z ->
  let o := float_occupation values in
  0 <= fst o <= INR (length values) /\ 0 <= snd o <= INR (length values) /\ fl (fst o + snd o) = INR (length values).
Proof.
  intros H L o. destruct (float_sum_range values H L) as [D R]. unfold o, float_occupation. cbn [fst snd]. rewrite (max_occ_exact _ L).
  split; [exact R|]. split.
  - apply fl_between; [exact double_0|apply double_INR; exact L|lra].
  - rewrite INR_IZR_INZ in *. apply complement_exact; assumption.
Qed.
Lemma float_mask pixels : Forall (fun values => Forall unit_double values /\ (length values < 256)%nat) pixels ->
  exists lead, float_lead_mask_1d (map float_occupation pixels) = Ok lead /\ length lead = length pixels /\
  forall i values l, nth_error pixels i = Some values -> nth_error lead i = Some l ->
    (l <> 0%nat <-> exists j values', (S j = i \/ S i = j) /\ nth_error pixels j = Some values' /\ (length values' < length values)%nat) /\
    (l <> 0%nat -> l = length values).
Proof.
  intros H. unfold float_lead_mask_1d. rewrite map_map.
  set (g := fun values => (fl (fst (float_occupation values) + snd (float_occupation values)), 0)).
  assert (Tot : forall values, In values pixels -> g values = (INR (length values), 0)).
  { intros values I. rewrite Forall_forall in H. destruct (H _ I) as [U L]. unfold g. f_equal. apply float_total; [exact U|lia]. }
  destruct (lead_mask_1d_labels (map g pixels)) as (lead & E & Len & Pix).
  { rewrite Forall_forall. intros o I. apply in_map_iff in I. destruct I as (values & <- & I). rewrite (Tot _ I). exists (length values).
    rewrite Forall_forall in H. split; [apply (H _ I)|]. cbn [fst snd]. ring. }
  exists lead. split; [exact E|]. rewrite map_length in Len. split; [exact Len|]. intros i values l Ei El.
  assert (Eg : forall j v, nth_error pixels j = Some v -> nth_error (map g pixels) j = Some (INR (length v), 0)).
  { intros j v Ej. rewrite nth_error_map, Ej. cbn. rewrite (Tot v (nth_error_In _ _ Ej)). reflexivity. }
  destruct (Pix i (INR (length values), 0) l (Eg _ _ Ei) El) as [P1 P2]. cbn [fst snd] in P1, P2. split.
  - rewrite P1. split.
    + intros (j & o' & Hj & Ho & L). destruct (nth_error pixels j) as [v'|] eqn:Ej.
      * rewrite (Eg _ _ Ej) in Ho. injection Ho as <-. cbn [fst snd] in L. exists j, v'. split; [exact Hj|]. split; [exact Ej|].
        apply INR_lt. lra.
      * rewrite nth_error_map, Ej in Ho. discriminate.
    + intros (j & v' & Hj & Ev & L). exists j, (INR (length v'), 0). split; [exact Hj|]. split; [apply Eg; exact Ev|]. cbn [fst snd].
      apply lt_INR in L. lra.
  - intros N. apply INR_eq. rewrite (P2 N). ring.
Qed.

(** Beyond 2^52 the sum can be rounded to another integer. *)
Lemma complement_fails : exists m a, (m < 2 ^ 53)%Z /\ double a /\ 0 <= a <= IZR m /\ fl (a + fl (IZR m - a)) <> IZR m.
Proof.
  assert (T : fl (1/2 + IZR (2 ^ 52)) = IZR (2 ^ 52)).
  { replace (IZR (2 ^ 52)) with (IZR (2 ^ 52) * bpow radix2 0) at 2 by (simpl; ring). apply fl_even; [reflexivity|lia| |].
    - change (bpow radix2 (0 + 52)) with (IZR (2 ^ 52)). change (bpow radix2 (0 + 53)) with (IZR (2 * 2 ^ 52)). rewrite mult_IZR.
      assert (1 <= IZR (2 ^ 52)) by (apply (IZR_le 1); lia). lra.
    - simpl (bpow radix2 0). simpl (bpow radix2 (0 - 1)). rewrite Rabs_pos_eq; lra. }
  exists (2 ^ 52 + 1)%Z, (1/2). split; [reflexivity|]. split; [exact double_half|]. rewrite plus_IZR. split.
  { assert (1 <= IZR (2 ^ 52)) by (apply (IZR_le 1); lia). lra. }
  replace (IZR (2 ^ 52) + 1 - 1/2) with (1/2 + IZR (2 ^ 52)) by lra. rewrite T, T. lra.
Qed.
