(** TCTs with parameters and x-values of type int or float. *)
From Flocq Require Import Core.
From Verif Require Import RPrelude ModelSupport ModelTct SpecTct ProofsSupport ProofsTct ModelTctTyped ExamplesTctTyped.
Local Open Scope R_scope.

Lemma typed_float_center p t : common (t_start_x t) (t_end_x t) = FloatType -> common (t_start_y t) (t_end_y t) = FloatType ->
  typed_center p t = bezier_center p.
Proof. intros X Y. unfold typed_center, bezier_center. rewrite X, Y. reflexivity. Qed.

Lemma common_float a b : a = FloatType \/ b = FloatType -> common a b = FloatType.
Proof. intros [-> | ->]; [|destruct a]; reflexivity. Qed.

Lemma store_int t z : store t (IZR z) = IZR z.
Proof. destruct t; cbn; [rewrite Ztrunc_IZR|]; reflexivity. Qed.

Lemma typed_int_center p t a b : slope_left p <> slope_right p -> corner p (IZR a, IZR b) -> typed_center p t = bezier_center p.
Proof.
  intros D C. pose proof (corner_center p _ D C) as E. rewrite E. unfold bezier_center in E. unfold typed_center.
  destruct (Reqb (start_x p) (end_x p) && Reqb (start_y p) (end_y p)).
  - injection E as -> ->. rewrite !store_int. reflexivity.
  - destruct (Reqb (slope_right p) (slope_left p)); [discriminate|].
    injection E as E1 E2. rewrite E1 in E2 |- *. rewrite !store_int, E2, store_int. reflexivity.
Qed.

Lemma typed_same p t lut mp xt xs : typed_center p t = bezier_center p -> (xt = IntType -> common (t_start_x t) (t_end_x t) = IntType) ->
  tct_bezier_typed p t lut mp xt xs = tct_bezier p lut mp xs.
Proof.
  intros E X. unfold tct_bezier_typed, tct_bezier. rewrite E. destruct xt; [rewrite (X eq_refl)|]; reflexivity.
Qed.

Lemma typed_x p t lut mp xs ys : common (t_start_x t) (t_end_x t) = FloatType -> common (t_start_y t) (t_end_y t) = FloatType ->
  tct_bezier p lut mp xs = Ok ys -> tct_bezier_typed p t lut mp IntType xs = Err TypeError.
Proof.
  intros X Y E. unfold tct_bezier_typed. rewrite (typed_float_center p t X Y), X. unfold tct_bezier in E.
  destruct (bezier_center p) as [c|e]; cbn [bind] in E |- *; [|discriminate]. unfold raise_if in E |- *.
  destruct (negb _) in E |- *; [discriminate|]. destruct (negb _) in E |- *; [discriminate|]. reflexivity.
Qed.

(** The corner is in the middle of the peak *)
Lemma unit_corner l s : corner (unit_peak l s) (s + / 2, / 2).
Proof. split; cbn; lra. Qed.
Lemma unit_center l s : bezier_center (unit_peak l s) = Ok (s + / 2, / 2).
Proof. apply corner_center; [cbn; lra|apply unit_corner]. Qed.
Lemma trunc_half : Ztrunc (/ 2) = 0%Z.
Proof. rewrite Ztrunc_floor by lra. apply Zfloor_imp. cbn. lra. Qed.
Lemma trunc_minus_half : Ztrunc (- / 2) = 0%Z.
Proof. rewrite Ztrunc_opp, trunc_half. reflexivity. Qed.
Lemma unit_typed l s k : Ztrunc (s + / 2) = k -> typed_center (unit_peak l s) int_types = Ok (IZR k, IZR (Ztrunc (IZR k - s))).
Proof.
  intros K. unfold typed_center, unit_peak. cbn [start_x end_x start_y end_y slope_left slope_right int_types t_start_x t_end_x t_start_y t_end_y common].
  rewrite (Reqb_false s (s + 1)) by lra. cbn [andb]. rewrite (Reqb_false (-1) 1) by lra. cbv zeta. cbn [store].
  replace ((0 - 0 + (s + 1) * -1 - s * 1) / (-1 - 1)) with (s + / 2) by field. rewrite K.
  replace (0 + 1 * (IZR k - s)) with (IZR k - s) by ring. reflexivity.
Qed.

Lemma wave_seven c bez : 0 <= fst c <= 1 -> wave_value (unit_peak 4 0) c bez (7 - 0) = Ok (1 - 4 * fst c).
Proof.
  intros C. unfold wave_value, period_length. cbn [unit_peak len_left len_right]. rewrite Reqb_false by lra. cbv zeta.
  replace (Int_part ((7 - 0) / (4 + 4))) with 0%Z by (symmetry; apply Int_part_unique; cbn; lra).
  unfold right_lin_length, bezier_length, y_offset_inv, y_offset_period, right_lin_length, left_lin_length.
  cbn [unit_peak start_x end_x len_left len_right slope_left slope_right start_y end_y].
  rewrite !Rltb_false by lra. f_equal. lra.
Qed.
Lemma unit_float lut : tct_bezier (unit_peak 4 0) lut (Some 2%nat) [7] = Ok [-1].
Proof.
  unfold tct_bezier. rewrite unit_center. cbn [bind fst snd].
  change (start_x (unit_peak 4 0)) with 0. change (end_x (unit_peak 4 0)) with (0 + 1). change (len_left (unit_peak 4 0)) with 4.
  change (len_right (unit_peak 4 0)) with 4. rewrite !Rleb_true by lra.
  cbn [andb negb raise_if mapM forallb]. unfold in_wave, wave_end. cbn [unit_peak start_x end_x len_left len_right INR].
  rewrite !Rleb_true by lra. cbn [andb]. change (mk_tct 4 4 1 (-1) 0 0 (0 + 1) 0) with (unit_peak 4 0).
  rewrite wave_seven by (cbn; lra). cbn [bind fst]. do 2 f_equal. lra.
Qed.
Lemma unit_int lut : tct_bezier_typed (unit_peak 4 0) int_types lut (Some 2%nat) FloatType [7] = Ok [1].
Proof.
  unfold tct_bezier_typed. rewrite (unit_typed 4 0 0) by (rewrite Rplus_0_l; exact trunc_half). cbn [bind fst snd].
  change (start_x (unit_peak 4 0)) with 0. change (end_x (unit_peak 4 0)) with (0 + 1). change (len_left (unit_peak 4 0)) with 4.
  change (len_right (unit_peak 4 0)) with 4. rewrite !Rleb_true by lra.
  cbn [andb negb raise_if mapM forallb]. unfold in_wave, wave_end. cbn [unit_peak start_x end_x len_left len_right INR].
  rewrite !Rleb_true by lra. cbn [andb]. change (mk_tct 4 4 1 (-1) 0 0 (0 + 1) 0) with (unit_peak 4 0).
  rewrite wave_seven by (cbn; lra). cbn [bind fst]. do 2 f_equal. lra.
Qed.
Lemma unit_int_rejected lut mp xt xs : tct_bezier_typed (unit_peak 1 (-1)) int_types lut mp xt xs = Err AssertionError.
Proof.
  unfold tct_bezier_typed. rewrite (unit_typed 1 (-1) 0) by (replace (-1 + / 2) with (- / 2) by lra; exact trunc_minus_half). cbn [bind fst snd].
  change (start_x (unit_peak 1 (-1))) with (-1). change (end_x (unit_peak 1 (-1))) with (-1 + 1). change (len_left (unit_peak 1 (-1))) with 1.
  rewrite !Rleb_true by lra. rewrite Rleb_false by lra. reflexivity.
Qed.
Lemma unit_admissible : admissible (unit_peak 1 (-1)).
Proof. split; [cbn; lra|]. split; [cbn; lra|]. exists (-1 + / 2, / 2). split; [apply unit_corner|cbn; lra]. Qed.
(** ** Parallel sides *)
Lemma parallel p t lut mp xt xs : slope_left p = slope_right p -> (start_x p, start_y p) <> (end_x p, end_y p) ->
  let on_line := end_y p - start_y p = slope_left p * (end_x p - start_x p) in
  let out := tct_bezier_typed p t lut mp xt xs in
  (t_start_x t = FloatType \/ t_end_x t = FloatType -> out = Err AssertionError) /\
  (t_start_x t = IntType -> t_end_x t = IntType -> (on_line -> out = Err ValueError) /\ (~ on_line -> out = Err OverflowError)).
Proof.
  intros E N on_line out. unfold on_line, out, tct_bezier_typed, typed_center.
  assert (A : (Reqb (start_x p) (end_x p) && Reqb (start_y p) (end_y p))%bool = false).
  { destruct (Reqb_spec (start_x p) (end_x p)) as [X|X]; [|reflexivity]. destruct (Reqb_spec (start_y p) (end_y p)) as [Y|Y]; [|reflexivity]. exfalso. apply N. congruence. }
  rewrite A. rewrite (Reqb_true (slope_right p) (slope_left p)) by congruence. split.
  - intros F. rewrite (common_float _ _ F). reflexivity.
  - intros -> ->. cbn [common]. rewrite E.
    destruct (Reqb_spec (start_y p - end_y p + end_x p * slope_right p - start_x p * slope_right p) 0) as [Z|Z]; cbn [bind]; split; intros L; try reflexivity; exfalso;
      [apply L|apply Z]; lra.
Qed.
