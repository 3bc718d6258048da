(** Proofs about the accuracy of the TCTs of the default configuration. *)
From Flocq Require Import Core.
From Verif Require Import RPrelude ModelFloat SpecFloatRange ModelTct ModelInstance ModelSampling ModelFloatDraw ModelDefault SpecTct SpecFloatTct ProofsTct ProofsFloat ProofsFloatRange ProofsFloatDraw ProofsFloatTct.
Local Open Scope R_scope.

(** Room of one millionth in each of the inequalities about the corner. *)
Definition roomy (ll lr sl sr sx sy ex ey : R) : Prop :=
  (-9/10 <= sx <= 9/10 /\ -9/10 <= sy <= 9/10 /\ -9/10 <= ex <= 9/10 /\ -9/10 <= ey <= 9/10 /\ -9/10 <= sl <= 9/10 /\ -9/10 <= sr <= 9/10 /\
   1/1000 <= ll <= 9/10 /\ 1/1000 <= lr <= 9/10 /\ 33/1000 <= sl - sr) /\
  1/1000000 <= ey - sy - sr * (ex - sx) /\ ey - sy - sr * (ex - sx) + 1/1000000 <= (ex - sx) * (sl - sr) /\
  2 * (ey - sy - sr * (ex - sx)) + 1/1000000 <= ll * (sl - sr) /\
  2 * ((ex - sx) * (sl - sr) - (ey - sy - sr * (ex - sx))) + 1/1000000 <= lr * (sl - sr).
Lemma fl_near x : -9/10 <= x <= 9/10 -> fl x - 1/1000000000 <= x <= fl x + 1/1000000000.
Proof.
  intros H. assert (W : within (0 + 1 + 1) x (fl x)) by (apply w_fl; [apply w_refl|bounds|lra]). apply w_low in W.
  assert ((0 + 1 + 1) * u <= 1/1000000000) by (rewrite u_value; lra). lra.
Qed.
Lemma product_near x y x' y' d : x - d <= x' <= x + d -> y - 2 * d <= y' <= y + 2 * d -> -1 <= y <= 1 -> -2 <= x' <= 2 -> 0 <= d ->
  x * y - 5 * d <= x' * y' <= x * y + 5 * d.
Proof.
  intros H1 H2 Y X D. replace (x' * y') with (x * y + ((x' - x) * y + x' * (y' - y))) by ring.
  assert (P1 : Rabs ((x' - x) * y) <= d * 1) by (rewrite Rabs_mult; apply Rmult_le_compat; try apply Rabs_pos; bounds).
  assert (P2 : Rabs (x' * (y' - y)) <= 2 * (2 * d)) by (rewrite Rabs_mult; apply Rmult_le_compat; try apply Rabs_pos; bounds).
  apply Rabs_le_inv in P1, P2. lra.
Qed.
(** The corner lies well within the rounded part. *)
Definition clear_corner (p : tct_params) : Prop := 1/2000 <= len_left p /\ exists c, corner p c /\ start_x p + 1/100000000 <= fst c /\ fst c + 1/100000000 <= end_x p /\
  2 * (fst c - start_x p) + 1/100000000 <= len_left p /\ 2 * (end_x p - fst c) + 1/100000000 <= len_right p.
Lemma roomy_doubles ll lr sl sr sx sy ex ey : roomy ll lr sl sr sx sy ex ey -> -1 <= ex - sx <= 1 -> -1 <= sl - sr <= 1 ->
  let p := as_doubles (mk_tct ll lr sl sr sx sy ex ey) in ordinary_tct p /\ admissible p /\ peak p /\ clear_corner p.
Proof.
  intros ((B1 & B2 & B3 & B4 & B5 & B6 & B7 & B8 & B9) & I1 & I2 & I3 & I4) Bx Bs p.
  pose proof (fl_near sx B1) as N1. pose proof (fl_near sy B2) as N2. pose proof (fl_near ex B3) as N3. pose proof (fl_near ey B4) as N4.
  pose proof (fl_near sl B5) as N5. pose proof (fl_near sr B6) as N6. pose proof (fl_near ll ltac:(lra)) as N7. pose proof (fl_near lr ltac:(lra)) as N8.
  unfold p, as_doubles, admissible, peak. cbn [len_left len_right slope_left slope_right start_x start_y end_x end_y].
  clear p. revert N1 N2 N3 N4 N5 N6 N7 N8. generalize (fl sx) (fl sy) (fl ex) (fl ey) (fl sl) (fl sr) (fl ll) (fl lr). intros sx' sy' ex' ey' sl' sr' ll' lr' N1 N2 N3 N4 N5 N6 N7 N8.
  pose proof (product_near sr (ex - sx) sr' (ex' - sx') (1/1000000000) ltac:(lra) ltac:(lra) Bx ltac:(lra) ltac:(lra)) as P1.
  pose proof (product_near ll (sl - sr) ll' (sl' - sr') (1/1000000000) ltac:(lra) ltac:(lra) Bs ltac:(lra) ltac:(lra)) as P3.
  pose proof (product_near lr (sl - sr) lr' (sl' - sr') (1/1000000000) ltac:(lra) ltac:(lra) Bs ltac:(lra) ltac:(lra)) as P4.
  assert (P2 : (ex - sx) * (sl - sr) - 10/1000000000 <= (ex' - sx') * (sl' - sr') <= (ex - sx) * (sl - sr) + 10/1000000000).
  { pose proof (product_near (ex - sx) (sl - sr) (ex' - sx') (sl' - sr') (2/1000000000) ltac:(lra) ltac:(lra) Bs ltac:(lra) ltac:(lra)). lra. }
  set (h := ey' - sy' - sr' * (ex' - sx')) in *. set (D := sl' - sr') in *.
  assert (HD : 0 < D) by (unfold D; lra).
  assert (H1 : 0 <= h) by (unfold h; lra). assert (H2 : h <= (ex' - sx') * D) by (unfold h; lra).
  assert (H3 : 2 * h <= ll' * D) by (unfold h; lra). assert (H4 : 2 * ((ex' - sx') * D - h) <= lr' * D) by (unfold h; lra).
  assert (Cc : clear_corner (mk_tct ll' lr' sl' sr' sx' sy' ex' ey')).
  { split; [cbn [len_left]; lra|]. exists (sx' + h / D, sy' + sl' * (h / D)). unfold corner. cbn [fst snd len_left len_right slope_left slope_right start_x start_y end_x end_y].
    assert (Q : h / D * D = h) by (field; lra). assert (D1 : D <= 1 + 1/1000) by (unfold D; lra).
    assert (L : forall a b, a * D <= b * D -> a <= b) by (intros a b H; apply Rmult_le_reg_r with (1 := HD); exact H).
    assert (Q1 : 1/100000000 <= h / D) by (apply L; unfold h in *; lra).
    assert (Q2 : h / D + 1/100000000 <= ex' - sx') by (apply L; unfold h in *; lra).
    assert (Q3 : 2 * (h / D) + 1/100000000 <= ll') by (apply L; unfold h in *; lra).
    assert (Q4 : 2 * (ex' - sx' - h / D) + 1/100000000 <= lr') by (apply L; unfold h in *; lra).
    split; [split; [ring|unfold h, D in *; clear - Q; lra]|]. repeat split; lra. }
  split; [|split; [|split; [unfold D in HD; lra|exact Cc]]].
  - constructor; cbn [len_left len_right slope_left slope_right start_x start_y end_x end_y]; try bounds; unfold D in *; lra.
  - destruct Cc as (_ & c & Hc & M). split; [unfold D in HD; lra|]. split; [lra|]. exists c. split; [exact Hc|].
    cbn [len_left len_right slope_left slope_right start_x start_y end_x end_y] in M. repeat split; lra.
Qed.
Lemma float_total p bez mp x : ordinary_tct p -> clear_corner p -> exists y, float_tct p bez mp x = Ok y.
Proof.
  intros O (Lp & c & Hc & M1 & M2 & M3 & M4). pose proof (sizes p O) as (A1 & A2 & A3 & A4 & A5 & A6 & A7 & A8 & A9).
  assert (E : exists c', float_center p = Ok c').
  { unfold float_center. destruct (Reqb (start_x p) (end_x p) && Reqb (start_y p) (end_y p)); [eexists; reflexivity|].
    rewrite Reqb_false by lra. eexists. reflexivity. }
  destruct E as [c' E]. pose proof (center_error p c O Hc ltac:(lra) c' E) as Ec. pose proof (w_low _ _ _ Ec) as Lc.
  assert (S1 : 2000 * u <= 1/100000000) by (rewrite u_value; lra).
  assert (D1 : within (2 * (629 + 0 + 2 + 1) + 5) (2 * (fst c - start_x p)) (fl (2 * fl (fst c' - start_x p)))).
  { apply double_error; [apply w_fsub; [exact Ec|apply w_refl|bounds|lra|lra]|bounds|lra]. }
  assert (D2 : within (2 * (0 + 629 + 2 + 1) + 5) (2 * (end_x p - fst c)) (fl (2 * fl (end_x p - fst c')))).
  { apply double_error; [apply w_fsub; [apply w_refl|exact Ec|bounds|lra|lra]|bounds|lra]. }
  apply w_low in D1, D2. pose proof (w_low _ _ _ (period_error p O)) as D3. assert (U : 0 < u) by (rewrite u_value; lra).
  unfold float_tct. rewrite E. cbn [bind]. rewrite !Rleb_true by lra. cbn [andb negb raise_if].
  destruct (_ && _); [|eexists; reflexivity]. rewrite Reqb_false by lra. eexists. reflexivity.
Qed.
Lemma default_ordinary n q : nth_error default_tcts n = Some q -> let p := as_doubles q in ordinary_tct p /\ admissible p /\ peak p /\ clear_corner p.
Proof.
  unfold default_tcts. intros H.
  do 14 (destruct n as [|n]; [cbn [nth_error] in H; injection H as <-; apply roomy_doubles; [unfold roomy; lra|lra|lra]|]).
  destruct n; discriminate.
Qed.
Lemma default_lengths n q : nth_error default_tcts n = Some q -> (n < 14)%nat /\ len_left q = 0.01075474 /\ len_right q = 0.01549732.
Proof.
  unfold default_tcts. intros H.
  do 14 (destruct n as [|n]; [cbn [nth_error] in H; injection H as <-; split; [lia|split; reflexivity]|]).
  destruct n; discriminate.
Qed.
Lemma default_accuracy n q : nth_error default_tcts n = Some q -> let p := as_doubles q in
  exists g, is_tct p None (Some (S n)) g /\ forall bez e x, 0 <= e <= 1/2 ->
  (forall c t, float_center p = Ok c -> start_x p - pow2 (-41) <= t <= end_x p + pow2 (-41) -> Rabs (bez c t - g t) <= e) ->
  double x -> -1 <= x <= 1 -> exists y, float_tct p bez (S n) x = Ok y /\
  (Rabs (y - g x) <= e + pow2 (-35) \/
   let x0 := fl (x - start_x p) in let k := Zfloor (x0 / float_period p) in
   start_x p <= x /\ (IZR k + 1) * float_period p * (1 - pow2 (-53)) <= x0 /\
   Rabs (y - (g x + (len_left p * slope_left p + len_right p * slope_right p))) <= e + pow2 (-35)).
Proof.
  intros Hq p. destruct (default_ordinary n q Hq) as (O & A & P & C). fold p in O, A, P, C. destruct (default_lengths n q Hq) as (Hn & E1 & E2).
  assert (M : good_mode p None) by (split; [discriminate|intros _; exact P]).
  destruct (tct_total p None (Some (S n)) A M ltac:(simpl; lia)) as [g Hg]. exists g. split; [exact Hg|].
  intros bez e x He Hbez Dx Xr. destruct (float_total p bez (S n) x O C) as [y Hy]. exists y. split; [exact Hy|]. cbv zeta.
  assert (U : 0 < u) by (rewrite u_value; lra). assert (E35 : pow2 (-35) = 262144 * u) by (rewrite u_value; change (pow2 (-35)) with (/ 34359738368); lra).
  assert (Mn : INR (S n) <= 14). { apply Rle_trans with (INR 14); [apply le_INR; lia|]. rewrite INR_IZR_INZ. simpl. lra. }
  destruct (Rle_dec (start_x p) x) as [Xs|Xs].
  - pose proof (sizes p O) as (A1 & A2 & A3 & A4 & A5 & A6 & A7 & A8 & A9).
    assert (X0 : within (0 + 0 + 2 + 1) (x - start_x p) (fl (x - start_x p))) by (apply w_fsub; [apply w_refl|apply w_refl|bounds|lra|lra]). apply w_low in X0.
    pose proof (w_low _ _ _ (period_error p O)) as P0.
    pose proof (fl_near 0.01075474 ltac:(lra)) as N1. pose proof (fl_near 0.01549732 ltac:(lra)) as N2.
    change (len_left p) with (fl (len_left q)) in P0. change (len_right p) with (fl (len_right q)) in P0. rewrite E1, E2 in P0.
    assert (S1 : 3 * u <= 1/1000000) by (rewrite u_value; lra).
    assert (PP : 0 < float_period p) by lra.
    assert (Ds : double (start_x p)) by (apply generic_format_round; typeclasses eauto).
    pose proof (tct_accuracy p bez (S n) e g x y O A P ltac:(lia) Hg He Hbez Ds ltac:(lra) Hy PP) as V. cbv zeta in V.
    set (x0 := fl (x - start_x p)) in *. set (T := float_period p) in *. set (k := Zfloor (x0 / T)) in *.
    assert (K : IZR k <= 77).
    { apply Rle_trans with (1 := Zfloor_lb _). apply Rmult_le_reg_r with T; [lra|]. unfold Rdiv. rewrite Rmult_assoc, Rinv_l by lra. lra. }
    assert (L : e + (17000 + 2610 * (IZR k + INR (S n))) * u <= e + pow2 (-35)) by (rewrite E35; apply Rplus_le_compat_l, Rmult_le_compat_r; lra).
    change (pow2 (-53)) with u in V. destruct (V ltac:(apply le_IZR; lra)) as [V1|[V1 V2]].
    + left. apply Rle_trans with (1 := V1). exact L.
    + right. split; [exact Xs|]. split; [exact V1|]. apply Rle_trans with (1 := V2). exact L.
  - left. assert (B : fl (fl (x - start_x p) + start_x p) < start_x p).
    { apply stays_below; [exact Dx| |lra]. apply generic_format_round; typeclasses eauto. }
    pose proof (outer_tct_accuracy p bez (S n) g x y O A P ltac:(lia) Hg Xr Hy (or_introl B)) as V.
    eapply Rle_trans; [exact V|]. apply Rle_trans with (pow2 (-35)); [|lra]. rewrite E35. change (pow2 (-53)) with u. apply Rmult_le_compat_r; lra.
Qed.
