(** Proofs about TCTs with few binary digits: no operation rounds. *)
From Flocq Require Import Core.
From Verif Require Import RPrelude ModelFloat ModelTct ModelFloatDraw SpecFloatRange SpecFloatGrid ProofsFloat ProofsFloatRange ProofsFloatDraw.
Local Open Scope R_scope.

Lemma grid_fl e b r : on_grid e b r -> (0 <=? e)%Z && (e <=? 900)%Z && (b * 2 ^ e <=? 2 ^ 52)%Z = true -> fl r = r.
Proof.
  intros [[z E] B] C. apply andb_true_iff in C. destruct C as [C Cb]. apply andb_true_iff in C. destruct C as [C0 C9].
  apply Z.leb_le in C0, C9, Cb. apply fl_id. apply (double_eq _ z (- e)); [exact E| |lia].
  apply Z.le_lt_trans with (2 ^ 52)%Z; [|reflexivity]. apply Z.le_trans with (2 := Cb). apply le_IZR. rewrite mult_IZR.
  rewrite E, Rabs_mult, <- abs_IZR, (Rabs_pos_eq (pow2 (- e))) in B by apply bpow_ge_0.
  apply Rmult_le_compat_r with (r := pow2 e) in B; [|apply bpow_ge_0]. rewrite Rmult_assoc, <- bpow_plus in B.
  replace (- e + e)%Z with 0%Z in B by lia. change (2 ^ e)%Z with (radix2 ^ e)%Z. rewrite (IZR_Zpower radix2 e C0). simpl (pow2 0) in B. lra.
Qed.
Lemma grid_weak e e' r : (e <= e')%Z -> (exists z, r = IZR z * pow2 (- e)) -> exists z, r = IZR z * pow2 (- e').
Proof.
  intros L [z ->]. exists (z * 2 ^ (e' - e))%Z. rewrite mult_IZR. change (2 ^ (e' - e))%Z with (radix2 ^ (e' - e))%Z. rewrite (IZR_Zpower radix2 (e' - e)) by lia. rewrite Rmult_assoc, <- bpow_plus. do 2 f_equal. lia.
Qed.
Lemma grid_add e1 e2 b1 b2 r1 r2 : on_grid e1 b1 r1 -> on_grid e2 b2 r2 -> on_grid (Z.max e1 e2) (b1 + b2) (r1 + r2).
Proof.
  intros [E1 B1] [E2 B2]. apply (grid_weak e1 (Z.max e1 e2)) in E1; [|lia]. apply (grid_weak e2 (Z.max e1 e2)) in E2; [|lia].
  destruct E1 as [z1 E1], E2 as [z2 E2]. split; [exists (z1 + z2)%Z; rewrite plus_IZR, E1, E2; ring|].
  apply Rle_trans with (1 := Rabs_triang _ _). rewrite plus_IZR. lra.
Qed.
Lemma grid_opp e b r : on_grid e b r -> on_grid e b (- r).
Proof. intros [[z E] B]. split; [exists (- z)%Z; rewrite opp_IZR, E; ring|rewrite Rabs_Ropp; exact B]. Qed.
Lemma grid_sub e1 e2 b1 b2 r1 r2 : on_grid e1 b1 r1 -> on_grid e2 b2 r2 -> on_grid (Z.max e1 e2) (b1 + b2) (r1 - r2).
Proof. intros H1 H2. apply grid_add; [|apply grid_opp]; assumption. Qed.
Lemma grid_mul e1 e2 b1 b2 r1 r2 : on_grid e1 b1 r1 -> on_grid e2 b2 r2 -> on_grid (e1 + e2) (b1 * b2) (r1 * r2).
Proof.
  intros [[z1 E1] B1] [[z2 E2] B2]. split.
  - exists (z1 * z2)%Z. rewrite mult_IZR, Z.opp_add_distr, bpow_plus, E1, E2. ring.
  - rewrite Rabs_mult, mult_IZR. apply Rmult_le_compat; try apply Rabs_pos; assumption.
Qed.
Lemma grid_int z b : (Z.abs z <= b)%Z -> on_grid 0 b (IZR z).
Proof. intros H. split; [exists z; simpl; ring|]. rewrite <- abs_IZR. apply IZR_le, H. Qed.
Lemma grid_INR n b : (Z.of_nat n <= b)%Z -> on_grid 0 b (INR n).
Proof. intros H. rewrite INR_IZR_INZ. apply grid_int. lia. Qed.
Lemma grid_tighter e b b' r : on_grid e b r -> Rabs r <= IZR b' -> on_grid e b' r.
Proof. intros [H _] B. split; assumption. Qed.
Lemma grid_as e e' b b' r : on_grid e b r -> e = e' -> Rabs r <= IZR b' -> on_grid e' b' r.
Proof. intros [H _] <- B. split; assumption. Qed.
Lemma grid_any e e' b b' r : on_grid e b r -> (b <= b')%Z -> (e <= e')%Z -> on_grid e' b' r.
Proof.
  intros [H B] L E. split; [apply (grid_weak e e' r E H)|]. apply Rle_trans with (1 := B). apply IZR_le, L.
Qed.

Ltac grid := first [eassumption | simple eapply grid_add; grid | simple eapply grid_sub; grid | simple eapply grid_mul; grid | simple eapply grid_opp; grid | exact (grid_int _ _ (Z.le_refl _))].
Ltac unround := repeat match goal with
  | |- context [fl ?r] => lazymatch r with context [fl _] => fail | _ => rewrite (grid_fl _ _ r ltac:(grid) eq_refl) end
  end.

Section Tct.
Variables (p : tct_params) (mp : nat) (x : R) (c : point).
Hypothesis (S : short_tct p).
Hypothesis (Hmp : (mp <= 1024)%nat).
Hypothesis (Hx : on_grid 13 8 x).
Hypothesis (Hc : on_grid 13 2 (fst c)).

Lemma params : on_grid 13 2 (len_left p) /\ on_grid 13 2 (len_right p) /\ on_grid 10 8 (slope_left p) /\ on_grid 10 8 (slope_right p) /\
  on_grid 13 2 (start_x p) /\ on_grid 13 2 (end_x p) /\ on_grid 26 8 (start_y p) /\ on_grid 26 8 (end_y p) /\ on_grid 0 1024 (INR mp).
Proof. destruct S. repeat (split; [assumption|]). apply grid_INR. lia. Qed.
Lemma wave_end_exact : float_wave_end p mp = wave_end p mp.
Proof.
  destruct params as (G1 & G2 & G3 & G4 & G5 & G6 & G7 & G8 & G9). unfold float_wave_end, wave_end. unround. reflexivity.
Qed.
Lemma outer_exact y : in_wave p mp x = false -> y = 0 -> float_outer_value p (fst c) mp x = outer_value p c mp (x, y).
Proof.
  intros W ->. destruct params as (G1 & G2 & G3 & G4 & G5 & G6 & G7 & G8 & G9). unfold float_outer_value, outer_value. rewrite !wave_end_exact.
  unfold float_y_offset_period, float_y_offset_inv, float_left_lin, float_right_lin, y_offset_period, y_offset_inv, left_lin_length, right_lin_length, wave_end.
  unround. replace (-1 * end_y p) with (- end_y p) by ring. reflexivity.
Qed.
Lemma center_exact : bezier_center p = Ok c -> float_center p = Ok c.
Proof.
  intros H. destruct params as (G1 & G2 & G3 & G4 & G5 & G6 & G7 & G8 & G9). unfold float_center. unfold bezier_center in H.
  destruct (Reqb (start_x p) (end_x p) && Reqb (start_y p) (end_y p)); [exact H|]. destruct (Reqb (slope_right p) (slope_left p)); [discriminate|].
  injection H as H. assert (F : fst c = (start_y p - end_y p + end_x p * slope_right p - start_x p * slope_left p) / (slope_right p - slope_left p)) by (rewrite <- H; reflexivity).
  cbv zeta. unround. rewrite <- F. unround. rewrite <- F in H. rewrite H. reflexivity.
Qed.
Lemma shift_exact : fl (x - start_x p) = x - start_x p /\ fl (x - start_x p + start_x p) = x.
Proof.
  destruct params as (G1 & G2 & G3 & G4 & G5 & G6 & G7 & G8 & G9). split; [unround; reflexivity|].
  replace (x - start_x p + start_x p) with x by ring. unround. reflexivity.
Qed.
Lemma steps_apart (a b : R) : (exists z, a = IZR z * pow2 (- 13)) -> (exists z, b = IZR z * pow2 (- 13)) -> a < b -> a + pow2 (- 13) <= b.
Proof.
  intros [z ->] [z' ->] L. pose proof (bpow_gt_0 radix2 (-13)) as P. apply Rmult_lt_reg_r in L; [|exact P]. apply lt_IZR in L.
  assert (IZR z + 1 <= IZR z') by (rewrite <- plus_IZR; apply IZR_le; lia). nra.
Qed.
Variable bez : R -> R.
Hypothesis Hbez : forall t, on_grid 13 2 t -> start_x p <= t <= end_x p -> on_grid 26 64 (bez t).
Lemma wave_exact : start_x p <= x -> start_x p <= end_x p -> period_length p <> 0 -> 0 <= len_left p -> 0 <= len_right p ->
  wave_value p c bez (x - start_x p) = Ok (float_wave_value p (fst c) bez (x - start_x p)).
Proof.
  intros X SE P0 Ll Lr. destruct params as (G1 & G2 & G3 & G4 & G5 & G6 & G7 & G8 & G9).
  unfold wave_value. rewrite Reqb_false by exact P0. f_equal. unfold float_wave_value, float_period_no.
  assert (EP : float_period p = period_length p). { unfold float_period, period_length. unround. reflexivity. }
  rewrite EP. assert (PP : 0 < period_length p). { unfold period_length in *. lra. }
  assert (GP : on_grid 13 4 (period_length p)). { pose proof (grid_add _ _ _ _ _ _ G1 G2) as H. exact H. }
  assert (GX : on_grid 13 10 (x - start_x p)). { exact (grid_sub _ _ _ _ _ _ Hx G5). }
  set (q := x - start_x p) in *. set (per := period_length p) in *.
  destruct (mod_exact q per ltac:(unfold q; lra) PP) as [M1 M2].
  set (k := Zfloor (q / per)) in *. change (Int_part (q / per)) with k.
  assert (Pmin : pow2 (-13) <= per). { assert (Z0 : exists z, 0 = IZR z * pow2 (- 13)) by (exists 0%Z; ring). pose proof (steps_apart 0 per Z0 (proj1 GP) PP). lra. }
  assert (K0 : (0 <= k)%Z). { apply floor_nonneg; [unfold q; lra|exact PP]. }
  assert (Q10 : q <= 10). { destruct GX as [_ B]. apply Rabs_le_inv in B. simpl in B. lra. }
  assert (Kb : IZR k <= 81920).
  { destruct (Rle_or_lt (IZR k) 81920) as [H|H]; [exact H|exfalso]. assert (IZR k * pow2 (-13) <= IZR k * per) by (apply Rmult_le_compat_l; [apply (IZR_le 0); exact K0|exact Pmin]).
    change (pow2 (-13)) with (/ 8192) in *. lra. }
  assert (Kz : (k <= 81920)%Z) by (apply le_IZR; exact Kb).
  assert (GK : on_grid 0 81920 (IZR k)) by (apply grid_int; lia).
  assert (GM : on_grid 13 4 (np_mod q per)).
  { rewrite M1. apply (grid_tighter 13 (10 + 4 * 81920)).
    - pose proof (grid_sub _ _ _ _ _ _ GX (grid_mul _ _ _ _ _ _ GP GK)) as H. exact H.
    - rewrite <- M1. destruct GP as [_ B]. apply Rabs_le_inv in B. rewrite Rabs_pos_eq; lra. }
  assert (EK : Zfloor (fl (q / per)) = k).
  { destruct (period_no_bounds q per ltac:(unfold q; lra) PP) as [H|[_ H]]; [fold k; lia|exact H|exfalso]. fold k in H.
    assert (L : q < (IZR k + 1) * per). { rewrite M1 in M2. lra. }
    pose proof (grid_mul _ _ _ _ _ _ (grid_add _ _ _ _ _ _ GK (grid_int 1 1 (Z.le_refl _))) GP) as [Z1 _]. change (Z.max 0 0 + 13)%Z with 13%Z in Z1.
    pose proof (steps_apart q ((IZR k + 1) * per) (proj1 GX) Z1 L) as A.
    assert (B : (IZR k + 1) * per <= 14). { destruct GP as [_ B]. apply Rabs_le_inv in B. rewrite M1 in M2. simpl in B. lra. }
    rewrite u_value in H. change (pow2 (-13)) with (/ 8192) in A. nra. }
  rewrite EK. rewrite <- M1. set (xm := np_mod q per) in *.
  unfold float_y_offset_period, float_y_offset_inv, float_left_lin, float_right_lin, float_bezier_length, y_offset_period, y_offset_inv, left_lin_length, right_lin_length, bezier_length.
  cbv zeta. unround. replace (-1 * end_y p) with (- end_y p) by ring.
  destruct (Rltb_spec xm (end_x p - start_x p)) as [C1|C1].
  { assert (GT : on_grid 13 2 (xm + start_x p)).
    { apply (grid_tighter 13 6); [pose proof (grid_add _ _ _ _ _ _ GM G5) as H; exact H|]. destruct G5 as [_ B5], G6 as [_ B6]. apply Rabs_le_inv in B5, B6. apply Rabs_le. lra. }
    pose proof (Hbez _ GT ltac:(lra)) as GB. unround. reflexivity. }
  destruct (Rltb_spec xm (end_x p - start_x p + (len_right p - 2 * (end_x p - fst c)))) as [C2|C2]; [unround; reflexivity|].
  destruct (Rltb_spec xm ((end_x p - start_x p) * 2 + (len_right p - 2 * (end_x p - fst c)))) as [C3|C3].
  { assert (GT : on_grid 13 2 (2 * (end_x p - start_x p) + (len_right p - 2 * (end_x p - fst c)) - xm + start_x p)).
    { eapply grid_as; [grid|reflexivity|]. destruct G5 as [_ B5], G6 as [_ B6]. apply Rabs_le_inv in B5, B6. apply Rabs_le. lra. }
    pose proof (Hbez _ GT ltac:(lra)) as GB. unround. f_equal. ring. }
  unround. reflexivity.
Qed.
End Tct.

Lemma short_exact p lut mp x : short_tct p -> (mp <= 1024)%nat -> on_grid 13 8 x ->
  (forall c, bezier_center p = Ok c -> on_grid 13 2 (fst c) /\ forall t, on_grid 13 2 t -> start_x p <= t <= end_x p -> on_grid 26 64 (bezier_eval p c lut t)) ->
  float_tct p (fun c => bezier_eval p c lut) mp x = tct_bezier_number p lut (Some mp) x.
Proof.
  intros S Hmp Hx Hc. unfold float_tct, tct_bezier_number, tct_bezier.
  destruct (bezier_center p) as [c|e] eqn:Ec.
  2: { cbn [bind]. replace (float_center p) with (Err e : result point); [reflexivity|]. unfold float_center. unfold bezier_center in Ec.
       destruct (Reqb (start_x p) (end_x p) && Reqb (start_y p) (end_y p)); [discriminate|]. destruct (Reqb (slope_right p) (slope_left p)); [congruence|discriminate]. }
  destruct (Hc c eq_refl) as [Gc Hb]. rewrite (center_exact p mp c S Hmp Gc Ec). cbn [bind].
  destruct (params p mp S Hmp) as (G1 & G2 & G3 & G4 & G5 & G6 & G7 & G8 & G9).
  destruct (Rleb_spec (start_x p) (fst c)) as [A1|A1], (Rleb_spec (fst c) (end_x p)) as [A2|A2]; cbn [andb negb raise_if bind]; try reflexivity.
  unround. destruct (Rleb_spec (2 * (fst c - start_x p)) (len_left p)) as [A3|A3], (Rleb_spec (2 * (end_x p - fst c)) (len_right p)) as [A4|A4]; cbn [andb negb raise_if bind]; try reflexivity.
  replace (x - start_x p + start_x p) with x by ring. rewrite (wave_end_exact p mp S Hmp). change (Rleb (start_x p) x && Rleb x (wave_end p mp)) with (in_wave p mp x).
  cbn [mapM forallb]. destruct (in_wave p mp x) eqn:W; cbn [andb].
  - apply andb_true_iff in W. destruct W as [W _]. destruct (Rleb_spec (start_x p) x) as [B|]; [|discriminate].
    assert (EP : float_period p = period_length p). { unfold float_period, period_length. unround. reflexivity. }
    rewrite EP. destruct (Reqb_spec (period_length p) 0) as [P0|P0].
    + unfold wave_value. rewrite (Reqb_true _ _ P0). reflexivity.
    + rewrite (wave_exact p mp x c S Hmp Hx Gc (bezier_eval p c lut) Hb B ltac:(lra) P0 ltac:(lra) ltac:(lra)). reflexivity.
  - cbn [bind combine map]. rewrite (outer_exact p mp x c S Hmp Hx Gc 0 W eq_refl). reflexivity.
Qed.

(** ** Example: an arc of a parabola *)
Definition parabola : tct_params := mk_tct 2 2 (-2) (-6) 0 0 2 (-8).
Lemma parabola_center : bezier_center parabola = Ok (1, -2).
Proof.
  unfold bezier_center. cbn [start_x end_x start_y end_y slope_left slope_right parabola]. rewrite (Reqb_false 0 2) by lra. cbn [andb]. rewrite Reqb_false by lra.
  do 2 f_equal; field.
Qed.
Lemma parabola_short : short_tct parabola.
Proof. constructor; cbn [len_left len_right start_x end_x start_y end_y slope_left slope_right parabola]; (eapply grid_any; [apply (grid_int _ _ (Z.le_refl _))|cbn; lia|lia]). Qed.
Lemma parabola_value t : bezier_eval parabola (1, -2) None t = - (2 * t) - t * t.
Proof.
  unfold bezier_eval, bezier_solve. cbn [start_x end_x start_y end_y fst snd parabola]. rewrite Reqb_true by ring. unfold bezier_at. field.
Qed.
Lemma parabola_ready c : bezier_center parabola = Ok c ->
  on_grid 13 2 (fst c) /\ forall t, on_grid 13 2 t -> start_x parabola <= t <= end_x parabola -> on_grid 26 64 (bezier_eval parabola c None t).
Proof.
  rewrite parabola_center. intros H. injection H as <-. split; [eapply grid_any; [apply (grid_int 1 _ (Z.le_refl _))|cbn; lia|lia]|].
  intros t G B. rewrite parabola_value. eapply grid_as; [grid|reflexivity|]. cbn in B. apply Rabs_le. split; nra.
Qed.
Lemma parabola_at : tct_bezier_number parabola None (Some 5%nat) 3 = Ok (-13).
Proof.
  unfold tct_bezier_number, tct_bezier. rewrite parabola_center. cbn [bind fst start_x end_x len_left len_right parabola].
  rewrite !Rleb_true by lra. cbn [andb negb raise_if mapM bind forallb].
  assert (W : in_wave parabola 5 3 = true). { unfold in_wave, wave_end. cbn -[INR]. rewrite !Rleb_true; [reflexivity| |lra]. rewrite INR_IZR_INZ. simpl. lra. }
  rewrite W. cbn [andb bind]. unfold wave_value, period_length. cbn [len_left len_right start_x end_x parabola].
  rewrite Reqb_false by lra. assert (K : Int_part ((3 - 0) / (2 + 2)) = 0%Z) by (change (Zfloor ((3 - 0) / (2 + 2)) = 0%Z); apply Zfloor_imp; simpl; lra).
  rewrite K. unfold bezier_length, right_lin_length. cbn [len_left len_right start_x end_x fst parabola].
  rewrite (Rltb_false _ (2 - 0)), (Rltb_false _ (2 - 0 + _)) by lra. rewrite (Rltb_true _ ((2 - 0) * 2 + _)) by lra.
  rewrite parabola_value. cbn [bind get_item nth_error]. f_equal. unfold y_offset_inv, right_lin_length. cbn [len_left len_right start_x end_x start_y end_y slope_right fst parabola]. ring.
Qed.
Lemma three : on_grid 13 8 3.
Proof. eapply grid_any; [apply (grid_int 3 _ (Z.le_refl _))|cbn; lia|lia]. Qed.
