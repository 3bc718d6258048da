(** Proofs about the accuracy of total charge transitions in double precision. *)
From Flocq Require Import Core Relative.
From Verif Require Import RPrelude ModelFloat ModelFloatRange SpecFloatRange ModelTct ModelFloatDraw SpecTct SpecFloatTct
  ProofsTct ProofsTctShape ProofsFloat ProofsFloatRange ProofsFloatDraw.
From Verif Require ProofsFloatPotential ProofsEnter2 ProofsOcc.
Local Open Scope R_scope.

(** ** Errors in multiples of 2^-53 *)
Definition within (a p x : R) : Prop := Rabs (x - p) <= a * u.
Lemma small_tiny : pow2 (-1074) <= u / 2.
Proof.
  apply Rle_trans with (pow2 (-54)); [apply bpow_le; lia|]. right. change (-54)%Z with (-53 + -1)%Z. rewrite bpow_plus.
  change (pow2 (-1)) with (/ 2). rewrite u_value. change (pow2 (-53)) with (/ 9007199254740992). lra.
Qed.
Lemma w_refl p : within 0 p p.
Proof. unfold within. rewrite Rminus_diag_eq, Rabs_R0 by reflexivity. lra. Qed.
Lemma w_le a b p x : within a p x -> a <= b -> within b p x.
Proof. unfold within. intros H L. apply Rle_trans with (1 := H). apply Rmult_le_compat_r; [rewrite u_value; lra|exact L]. Qed.
Lemma w_fl a p x B : within a p x -> Rabs p <= B -> 0 <= a <= 10000000 -> within (a + B + 1) p (fl x).
Proof.
  unfold within. intros H Hp Ha. pose proof (ProofsFloatPotential.abs_error x) as E. pose proof (ProofsFloatPotential.near_triang _ _ _ H) as N.
  pose proof small_tiny as T. assert (U : 0 < u) by (rewrite u_value; lra).
  assert (A1 : u * Rabs x <= u * (B + a * u)) by (apply Rmult_le_compat_l; lra).
  assert (A2 : a * u <= 1/2) by (apply Rle_trans with (10000000 * u); [apply Rmult_le_compat_r; lra|rewrite u_value; lra]).
  assert (A3 : u * (a * u) <= u * (1/2)) by (apply Rmult_le_compat_l; lra).
  replace (fl x - p) with ((fl x - x) + (x - p)) by ring. eapply Rle_trans; [apply Rabs_triang|]. lra.
Qed.
Lemma w_plus a b p q x y : within a p x -> within b q y -> within (a + b) (p + q) (x + y).
Proof.
  unfold within. intros H1 H2. replace (x + y - (p + q)) with ((x - p) + (y - q)) by ring.
  eapply Rle_trans; [apply Rabs_triang|]. lra.
Qed.
Lemma w_opp a p x : within a p x -> within a (- p) (- x).
Proof. unfold within. intros H. replace (- x - - p) with (- (x - p)) by ring. rewrite Rabs_Ropp. exact H. Qed.
Lemma w_minus a b p q x y : within a p x -> within b q y -> within (a + b) (p - q) (x - y).
Proof. intros H1 H2. apply w_plus; [exact H1|apply w_opp, H2]. Qed.
(** Multiplication by an exact factor *)
Lemma w_scale a p x q Q : within a p x -> Rabs q <= Q -> 0 <= a -> within (a * Q) (p * q) (x * q).
Proof.
  unfold within. intros H1 H2 A. replace (x * q - p * q) with ((x - p) * q) by ring. rewrite Rabs_mult.
  replace (a * Q * u) with (a * u * Q) by ring. apply Rmult_le_compat; try apply Rabs_pos; assumption.
Qed.
Lemma w_fadd a b p q x y B : within a p x -> within b q y -> Rabs (p + q) <= B -> 0 <= a <= 5000000 -> 0 <= b <= 5000000 ->
  within (a + b + B + 1) (p + q) (fl (x + y)).
Proof. intros H1 H2 HB Ha Hb. apply w_fl; [apply w_plus; assumption|exact HB|lra]. Qed.
Lemma w_fsub a b p q x y B : within a p x -> within b q y -> Rabs (p - q) <= B -> 0 <= a <= 5000000 -> 0 <= b <= 5000000 ->
  within (a + b + B + 1) (p - q) (fl (x - y)).
Proof. intros H1 H2 HB Ha Hb. apply w_fl; [apply w_minus; assumption|exact HB|lra]. Qed.
Lemma w_fmul a p x q B : within a p x -> Rabs q <= 1 -> Rabs p <= B -> 0 <= a <= 5000000 -> within (a + B + 1) (p * q) (fl (x * q)).
Proof.
  intros H1 H2 HB Ha. apply w_fl; [|rewrite Rabs_mult; rewrite <- (Rmult_1_r B); apply Rmult_le_compat; try apply Rabs_pos; assumption|lra].
  replace a with (a * 1) by ring. apply w_scale; lra || assumption.
Qed.
Lemma w_low a p x : within a p x -> p - a * u <= x <= p + a * u.
Proof. unfold within. intros H. apply Rabs_le_inv in H. lra. Qed.

(** Two functions with gradients up to 1 that agree on an interval. *)
Lemma near_line (f g : R -> R) a b x d : a <= b -> 0 <= d -> (forall y z, Rabs (f y - f z) <= Rabs (y - z)) -> (forall y z, Rabs (g y - g z) <= Rabs (y - z)) ->
  (forall y, a <= y <= b -> f y = g y) -> a - d <= x <= b + d -> Rabs (f x - g x) <= 2 * d.
Proof.
  intros AB D Lf Lg E H.
  assert (C : exists y, a <= y <= b /\ Rabs (x - y) <= d).
  { destruct (Rle_dec a x) as [H1|H1]; [destruct (Rle_dec x b) as [H2|H2]|].
    - exists x. split; [lra|]. rewrite Rminus_diag_eq, Rabs_R0 by reflexivity. exact D.
    - exists b. split; [lra|]. apply Rabs_le. lra.
    - exists a. split; [lra|]. apply Rabs_le. lra. }
  destruct C as (y & Y & N). pose proof (Lf x y) as L1. pose proof (Lg y x) as L2. rewrite (Rabs_minus_sym y x) in L2.
  replace (f x - g x) with ((f x - f y) + (g y - g x)) by (rewrite (E y Y); ring).
  eapply Rle_trans; [apply Rabs_triang|]. lra.
Qed.

Ltac bounds := apply Rabs_le; lra.
Section Accuracy.
Variables (p : tct_params) (c : point).
Hypothesis (O : ordinary_tct p) (Hc : corner p c) (Hb : start_x p <= fst c <= end_x p)
  (Hl : 2 * (fst c - start_x p) <= len_left p) (Hr : 2 * (end_x p - fst c) <= len_right p).

Lemma sizes : -1 <= start_x p <= 1 /\ -1 <= start_y p <= 1 /\ -1 <= end_x p <= 1 /\ -1 <= end_y p <= 1 /\ -1 <= slope_left p <= 1 /\ -1 <= slope_right p <= 1 /\
  1/32 <= slope_left p - slope_right p /\ 0 <= len_left p <= 1 /\ 0 <= len_right p <= 1.
Proof. destruct O as [A1 A2 A3 A4 A5 A6 A7 A8 A9]. apply Rabs_le_inv in A1, A2, A3, A4, A5, A6. repeat split; lra. Qed.
Lemma times x y B : Rabs x <= B -> Rabs y <= 1 -> - B <= x * y <= B.
Proof.
  intros H1 H2. apply Rabs_le_inv. rewrite Rabs_mult. rewrite <- (Rmult_1_r B). apply Rmult_le_compat; try apply Rabs_pos; assumption.
Qed.
Lemma quotient_error N D n d : 1/32 <= - D -> Rabs (N / D) <= 1 -> within 16 N n -> within 3 D d -> within 629 (N / D) (fl (n / d)).
Proof.
  intros HD HQ Hn Hd. assert (U : 0 < u) by (rewrite u_value; lra). apply w_le with (627 + 1 + 1); [|lra]. apply w_fl; [|exact HQ|lra].
  pose proof (w_low _ _ _ Hd) as Ld. assert (Hd5 : 1/33 <= - d) by (assert (3 * u <= 1/2000) by (rewrite u_value; lra); lra).
  unfold within in *. replace (n / d - N / D) with (((n - N) - N / D * (d - D)) * / d) by (field; lra).
  rewrite Rabs_mult, Rabs_inv.
  assert (I : / Rabs d <= 33) by (rewrite <- (Rinv_inv 33); apply Rinv_le_contravar; [lra|rewrite Rabs_left by lra; lra]).
  assert (T : Rabs (n - N - N / D * (d - D)) <= 19 * u).
  { unfold Rminus at 1. eapply Rle_trans; [apply Rabs_triang|]. rewrite Rabs_Ropp, Rabs_mult.
    assert (Rabs (N / D) * Rabs (d - D) <= 1 * (3 * u)) by (apply Rmult_le_compat; try apply Rabs_pos; assumption). lra. }
  replace (627 * u) with (19 * u * 33) by ring. apply Rmult_le_compat; try apply Rabs_pos; try assumption.
  left. apply Rinv_0_lt_compat, Rabs_pos_lt. lra.
Qed.
Lemma center_error c' : float_center p = Ok c' -> within 629 (fst c) (fst c').
Proof.
  pose proof sizes as (A1 & A2 & A3 & A4 & A5 & A6 & A7 & A8 & A9). unfold float_center.
  destruct (Reqb (start_x p) (end_x p) && Reqb (start_y p) (end_y p)) eqn:E.
  - intros H. injection H as <-. apply andb_true_iff in E. destruct E as [E _].
    destruct (Reqb_spec (start_x p) (end_x p)); [|discriminate]. cbn [fst]. replace (fst c) with (start_x p) by lra.
    apply w_le with 0; [apply w_refl|lra].
  - destruct (Reqb_spec (slope_right p) (slope_left p)) as [|N]; [discriminate|]. intros H. injection H as <-. cbn [fst].
    destruct Hc as [C1 C2].
    assert (E' : fst c = (start_y p - end_y p + end_x p * slope_right p - start_x p * slope_left p) / (slope_right p - slope_left p)).
    { apply Rmult_eq_reg_r with (slope_right p - slope_left p); [|lra]. unfold Rdiv. rewrite Rmult_assoc, Rinv_l, Rmult_1_r by lra.
      replace (end_y p) with (snd c + slope_right p * (end_x p - fst c)) by lra. replace (snd c) with (start_y p + slope_left p * (fst c - start_x p)) by lra. ring. }
    assert (P1 : -1 <= end_x p * slope_right p <= 1) by (apply times; bounds).
    assert (P2 : -1 <= start_x p * slope_left p <= 1) by (apply times; bounds).
    rewrite E'. apply quotient_error; [lra|rewrite <- E'; bounds| |].
    + apply w_le with (0 + 0 + 2 + 1 + (0 + 1 + 1) + 3 + 1 + (0 + 1 + 1) + 4 + 1); [|lra].
      apply w_fsub; [apply w_fadd; [apply w_fsub; [apply w_refl|apply w_refl|bounds|lra|lra]|apply w_fmul; [apply w_refl|bounds|bounds|lra]|bounds|lra|lra]
        |apply w_fmul; [apply w_refl|bounds|bounds|lra]|bounds|lra|lra].
    + apply w_le with (0 + 0 + 2 + 1); [|lra]. apply w_fsub; [apply w_refl|apply w_refl|bounds|lra|lra].
Qed.

Variable cx : R.
Hypothesis Hx : within 629 (fst c) cx.
Notation bl := (end_x p - start_x p).
Notation rl := (right_lin_length p c).
Notation ll := (left_lin_length p c).
Notation off := (y_offset_period p c).
Notation yinv := (y_offset_inv p c).

Lemma bl_error : within 3 bl (float_bezier_length p).
Proof.
  clear Hc Hb Hl Hr Hx. pose proof sizes as (A1 & A2 & A3 & A4 & A5 & A6 & A7 & A8 & A9). apply w_le with (0 + 0 + 2 + 1); [|lra].
  apply w_fsub; [apply w_refl|apply w_refl|bounds|lra|lra].
Qed.
Lemma double_error a q x : within a q x -> Rabs q <= 2 -> 0 <= a <= 2000 -> within (2 * a + 5) (2 * q) (fl (2 * x)).
Proof.
  intros H B A. apply w_le with (a * 2 + 4 + 1); [|lra].
  apply w_fl; [rewrite !(Rmult_comm 2); apply w_scale; [exact H|rewrite Rabs_pos_eq; lra|lra]| |lra].
  apply Rabs_le_inv in B. bounds.
Qed.
Lemma rl_range : 0 <= rl <= 1.
Proof. pose proof sizes. unfold right_lin_length. lra. Qed.
Lemma ll_range : 0 <= ll <= 1.
Proof. pose proof sizes. unfold left_lin_length. lra. Qed.
Lemma rl_error : within 1271 rl (float_right_lin p cx).
Proof.
  pose proof sizes as (A1 & A2 & A3 & A4 & A5 & A6 & A7 & A8 & A9). pose proof rl_range as R1.
  unfold right_lin_length in *. unfold float_right_lin.
  apply w_le with (0 + (2 * (0 + 629 + 2 + 1) + 5) + 1 + 1); [|lra].
  apply w_fsub; [apply w_refl|apply double_error; [apply w_fsub; [apply w_refl|exact Hx|bounds|lra|lra]|bounds|lra]|bounds|lra|lra].
Qed.
Lemma ll_error : within 1271 ll (float_left_lin p cx).
Proof.
  pose proof sizes as (A1 & A2 & A3 & A4 & A5 & A6 & A7 & A8 & A9). pose proof ll_range as R1.
  unfold left_lin_length in *. unfold float_left_lin.
  apply w_le with (0 + (2 * (629 + 0 + 2 + 1) + 5) + 1 + 1); [|lra].
  apply w_fsub; [apply w_refl|apply double_error; [apply w_fsub; [exact Hx|apply w_refl|bounds|lra|lra]|bounds|lra]|bounds|lra|lra].
Qed.
Lemma yinv_error : within 1280 yinv (float_y_offset_inv p cx).
Proof.
  pose proof sizes as (A1 & A2 & A3 & A4 & A5 & A6 & A7 & A8 & A9). pose proof rl_range as R1.
  assert (P1 : -1 <= rl * slope_right p <= 1) by (apply times; bounds).
  unfold y_offset_inv, float_y_offset_inv. replace (-1 * end_y p) with (- end_y p) by ring.
  apply w_le with (0 + (1271 + 1 + 1) + 2 + 1 + 0 + 3 + 1); [|lra].
  apply w_fsub; [apply w_fadd; [apply w_refl|apply w_fmul; [exact rl_error|bounds|bounds|lra]|bounds|lra|lra]|apply w_refl|bounds|lra|lra].
Qed.
Lemma yinv_range : -3 <= yinv <= 3.
Proof.
  pose proof sizes as (A1 & A2 & A3 & A4 & A5 & A6 & A7 & A8 & A9). pose proof rl_range as R1.
  assert (P1 : -1 <= rl * slope_right p <= 1) by (apply times; bounds). unfold y_offset_inv. lra.
Qed.
Lemma off_range : -2 <= off <= 2.
Proof.
  pose proof sizes as (A1 & A2 & A3 & A4 & A5 & A6 & A7 & A8 & A9). pose proof (offset_period p c Hc) as E.
  assert (P1 : -1 <= len_left p * slope_left p <= 1) by (apply times; bounds).
  assert (P2 : -1 <= len_right p * slope_right p <= 1) by (apply times; bounds). lra.
Qed.
Lemma off_error : within 2567 off (float_y_offset_period p cx).
Proof.
  pose proof sizes as (A1 & A2 & A3 & A4 & A5 & A6 & A7 & A8 & A9). pose proof ll_range as R1. pose proof yinv_range as R2. pose proof off_range as R3.
  assert (P1 : -1 <= ll * slope_left p <= 1) by (apply times; bounds).
  unfold float_y_offset_period. unfold y_offset_period in *.
  apply w_le with (0 + (1280 + 0 + 4 + 1 + (1271 + 1 + 1) + 5 + 1) + 2 + 1); [|lra].
  apply w_fsub; [apply w_refl|apply w_fadd; [apply w_fsub; [exact yinv_error|apply w_refl|bounds|lra|lra]|apply w_fmul; [exact ll_error|bounds|bounds|lra]|bounds|lra|lra]|bounds|lra|lra].
Qed.
Lemma period_error : within 3 (len_left p + len_right p) (float_period p).
Proof.
  clear Hc Hb Hl Hr Hx. pose proof sizes as (A1 & A2 & A3 & A4 & A5 & A6 & A7 & A8 & A9). apply w_le with (0 + 0 + 2 + 1); [|lra].
  apply w_fadd; [apply w_refl|apply w_refl|bounds|lra|lra].
Qed.
End Accuracy.

(** ** One period *)
Section Wave.
Variables (p : tct_params) (c : point) (lut : option nat) (f : R -> R).
Hypothesis (O : ordinary_tct p) (A : admissible p) (M : good_mode p lut) (Hf : is_tct p lut None f)
  (Lip : forall y z, Rabs (f y - f z) <= Rabs (y - z))
  (Hc : corner p c) (Hb : start_x p <= fst c <= end_x p)
  (Hl : 2 * (fst c - start_x p) <= len_left p) (Hr : 2 * (end_x p - fst c) <= len_right p).
Variables (cx : R) (bez : R -> R) (e : R).
Hypothesis (Hx : within 629 (fst c) cx) (He : 0 <= e <= 1)
  (Hbez : forall t, start_x p - 4096 * u <= t <= end_x p + 4096 * u -> Rabs (bez t - f t) <= e).
Notation bl := (end_x p - start_x p).
Notation rl := (right_lin_length p c).
Notation off := (y_offset_period p c).
Notation yinv := (y_offset_inv p c).
Notation T := (len_left p + len_right p).

Lemma tct_start : f (start_x p) = start_y p.
Proof.
  destruct (tct_total p lut (Some 1%nat) A M ltac:(simpl; lia)) as [g Hg].
  destruct (tct_outer p lut 1 f g A M ltac:(lia) Hf Hg) as (O1 & O2 & _). cbv zeta in O1, O2.
  rewrite <- O1, O2; [ring|lra|]. simpl (INR 1). lra.
Qed.
Lemma tct_period k z : (0 <= k)%Z -> f (z + T * IZR k) = f z - off * IZR k.
Proof.
  intros Hk. pose proof (ProofsEnter2.periods p lut f A M Hf (Z.to_nat k) z) as E. rewrite INR_IZR_INZ, Z2Nat.id in E by exact Hk.
  rewrite Rmult_comm, E, <- (offset_period p c Hc). ring.
Qed.
Lemma last_step k y1 Y a : 0 <= IZR k <= 2000 -> Rabs (y1 - Y) <= e + a * u -> Rabs Y <= 6 -> 0 <= a <= 100000 ->
  Rabs (fl (y1 - fl (float_y_offset_period p cx * IZR k)) - (Y - off * IZR k)) <= e + (a + 2571 * IZR k + 10) * u.
Proof.
  intros Hk H1 HY Ha. assert (U : 0 < u) by (rewrite u_value; lra).
  pose proof (off_error p c O Hc Hb Hl Hr cx Hx) as Eo. pose proof (off_range p c O Hc) as Ro.
  assert (E2 : within (2567 * IZR k + 2 * IZR k + 1) (off * IZR k) (fl (float_y_offset_period p cx * IZR k))).
  { apply w_fl; [apply w_scale; [exact Eo|rewrite Rabs_pos_eq; lra|lra]| |lra]. rewrite Rabs_mult, (Rabs_pos_eq (IZR k)) by lra.
    apply Rmult_le_compat_r; [lra|bounds]. }
  assert (RK : Rabs (off * IZR k) <= 4000).
  { rewrite Rabs_mult, (Rabs_pos_eq (IZR k)) by lra. replace 4000 with (2 * 2000) by ring. apply Rmult_le_compat; try apply Rabs_pos; try lra. bounds. }
  assert (RK2 : Rabs (off * IZR k) <= 2 * IZR k).
  { rewrite Rabs_mult, (Rabs_pos_eq (IZR k)) by lra. apply Rmult_le_compat_r; [lra|bounds]. }
  set (z := y1 - fl (float_y_offset_period p cx * IZR k)). set (Z0 := Y - off * IZR k). unfold within in E2.
  assert (E3 : Rabs (z - Z0) <= e + (a + 2569 * IZR k + 1) * u).
  { unfold z, Z0. replace (y1 - fl (float_y_offset_period p cx * IZR k) - (Y - off * IZR k))
      with ((y1 - Y) + - (fl (float_y_offset_period p cx * IZR k) - off * IZR k)) by ring.
    eapply Rle_trans; [apply Rabs_triang|]. rewrite Rabs_Ropp. lra. }
  assert (S1 : (a + 2569 * IZR k + 1) * u <= 1/2).
  { apply Rle_trans with (10000000 * u); [apply Rmult_le_compat_r; lra|rewrite u_value; lra]. }
  assert (E4 : Rabs z <= 6 + 2 * IZR k + 3/2).
  { pose proof (ProofsFloatPotential.near_triang _ _ _ E3) as N. assert (Rabs Z0 <= 6 + 2 * IZR k); [|lra].
    unfold Z0, Rminus. eapply Rle_trans; [apply Rabs_triang|]. rewrite Rabs_Ropp. lra. }
  pose proof (ProofsFloatPotential.abs_error z) as E5. pose proof small_tiny as E6.
  assert (E7 : u * Rabs z <= u * (6 + 2 * IZR k + 3/2)) by (apply Rmult_le_compat_l; lra).
  replace (fl z - Z0) with ((fl z - z) + (z - Z0)) by ring. eapply Rle_trans; [apply Rabs_triang|]. lra.
Qed.

Variables (x : R) (k : Z).
Hypothesis (Xr : -1 <= x <= 1) (Xs : start_x p <= x) (Kr : 0 <= IZR k <= 1000).
Let x0 := fl (x - start_x p).
Let xm := x0 - float_period p * IZR k.
Let xe := x - start_x p - T * IZR k.
Hypothesis (Xm : 0 <= xm < float_period p).
Let Y := f (xe + start_x p).

Lemma xm_error : within (3 + 3 * IZR k) xe xm.
Proof.
  pose proof (sizes p O) as (A1 & A2 & A3 & A4 & A5 & A6 & A7 & A8 & A9). unfold xe, xm.
  apply w_le with ((0 + 0 + 2 + 1) + 3 * IZR k); [|lra].
  apply w_minus; [apply w_fsub; [apply w_refl|apply w_refl|bounds|lra|lra]|].
  apply w_scale; [apply period_error; exact O|rewrite Rabs_pos_eq; lra|lra].
Qed.
Lemma xe_range : -1 <= xe <= 3.
Proof.
  pose proof (sizes p O) as (A1 & A2 & A3 & A4 & A5 & A6 & A7 & A8 & A9).
  pose proof (w_low _ _ _ xm_error) as L1. pose proof (w_low _ _ _ (period_error p O)) as L2.
  assert (S1 : (3 + 3 * IZR k) * u <= 1/4) by (apply Rle_trans with (10000 * u); [apply Rmult_le_compat_r; [rewrite u_value; lra|lra]|rewrite u_value; lra]).
  assert (S2 : 3 * u <= 1/4) by (rewrite u_value; lra). lra.
Qed.
Lemma Y_range : Rabs Y <= 4.
Proof.
  pose proof (sizes p O) as (A1 & A2 & A3 & A4 & A5 & A6 & A7 & A8 & A9). pose proof xe_range as R1.
  pose proof (Lip (xe + start_x p) (start_x p)) as L. rewrite tct_start in L. fold Y in L. replace (xe + start_x p - start_x p) with xe in L by ring.
  assert (L3 : Rabs xe <= 3) by bounds. assert (L4 : -3 <= Y - start_y p <= 3) by (apply Rabs_le_inv; lra). bounds.
Qed.
Lemma at_period : f x = Y - off * IZR k.
Proof.
  assert (0 <= k)%Z by (apply le_IZR; lra). unfold Y. rewrite <- tct_period by assumption. f_equal. unfold xe. ring.
Qed.

Lemma A_error : within 1288 (2 * bl + rl) (fl (fl (2 * float_bezier_length p) + float_right_lin p cx)).
Proof.
  pose proof (sizes p O) as (A1 & A2 & A3 & A4 & A5 & A6 & A7 & A8 & A9). pose proof (rl_range p c O Hb Hr) as R1.
  apply w_le with ((2 * 3 + 5) + 1271 + 5 + 1); [|lra].
  apply w_fadd; [apply double_error; [apply bl_error; exact O|bounds|lra]|apply (rl_error p c O Hb Hr cx Hx)|bounds|lra|lra].
Qed.
Lemma B_error : within 1278 (bl + rl) (fl (float_bezier_length p + float_right_lin p cx)).
Proof.
  pose proof (sizes p O) as (A1 & A2 & A3 & A4 & A5 & A6 & A7 & A8 & A9). pose proof (rl_range p c O Hb Hr) as R1.
  apply w_le with (3 + 1271 + 3 + 1); [|lra].
  apply w_fadd; [apply bl_error; exact O|apply (rl_error p c O Hb Hr cx Hx)|bounds|lra|lra].
Qed.

Lemma arc : xm < float_bezier_length p -> Rabs (bez (fl (xm + start_x p)) - Y) <= e + (8 + 3 * IZR k) * u.
Proof.
  intros L. pose proof (sizes p O) as (A1 & A2 & A3 & A4 & A5 & A6 & A7 & A8 & A9). assert (U : 0 < u) by (rewrite u_value; lra).
  pose proof xe_range as R1. pose proof (w_low _ _ _ (bl_error p O)) as Lb.
  assert (Et : within (8 + 3 * IZR k) (xe + start_x p) (fl (xm + start_x p))).
  { apply w_le with ((3 + 3 * IZR k) + 0 + 4 + 1); [|lra]. apply w_fadd; [exact xm_error|apply w_refl|bounds|lra|lra]. }
  assert (Er : within (0 + 2 + 1) (xm + start_x p) (fl (xm + start_x p))).
  { apply w_fl; [apply w_refl| |lra]. assert (3 * u <= 1) by (rewrite u_value; lra). bounds. }
  apply w_low in Er. pose proof (Hbez (fl (xm + start_x p)) ltac:(lra)) as H1. pose proof (Lip (fl (xm + start_x p)) (xe + start_x p)) as H2.
  fold Y in H2. unfold within in Et. set (t := fl (xm + start_x p)) in *.
  replace (bez t - Y) with ((bez t - f t) + (f t - Y)) by ring. eapply Rle_trans; [apply Rabs_triang|]. lra.
Qed.
Lemma right_flank : float_bezier_length p <= xm -> xm < fl (float_bezier_length p + float_right_lin p cx) ->
  Rabs (fl (end_y p + fl (fl (xm - float_bezier_length p) * slope_right p)) - Y) <= e + (2587 + 9 * IZR k) * u.
Proof.
  intros L1 L2. pose proof (sizes p O) as (A1 & A2 & A3 & A4 & A5 & A6 & A7 & A8 & A9). assert (U : 0 < u) by (rewrite u_value; lra).
  pose proof xe_range as R1. pose proof (w_low _ _ _ (bl_error p O)) as Lb. pose proof (w_low _ _ _ B_error) as LB. pose proof (w_low _ _ _ xm_error) as Lm.
  pose proof (rl_range p c O Hb Hr) as R2.
  assert (P1 : - (5) <= (xe - bl) * slope_right p <= 5) by (apply times; bounds).
  assert (E1 : within (0 + ((3 + 3 * IZR k) + 3 + 5 + 1 + 5 + 1) + 6 + 1) (end_y p + (xe - bl) * slope_right p)
                 (fl (end_y p + fl (fl (xm - float_bezier_length p) * slope_right p)))).
  { apply w_fadd; [apply w_refl|apply w_fmul; [apply w_fsub; [exact xm_error|apply bl_error; exact O|bounds|lra|lra]|bounds|bounds|lra]|bounds|lra|lra]. }
  destruct (tct_one_period p lut f A M Hf) as (c' & Hc' & _ & Q2 & _).
  rewrite (ProofsOcc.corner_unique p c' c (proj1 A) Hc' Hc) in Q2. cbv zeta in Q2. change (len_right p - 2 * (end_x p - fst c)) with rl in Q2.
  pose proof (near_line f (fun z => end_y p + slope_right p * (z - end_x p)) (end_x p) (end_x p + rl) (xe + start_x p) ((1281 + 3 * IZR k) * u)
    ltac:(lra) ltac:(apply Rmult_le_pos; lra) Lip) as N.
  assert (Ls : forall y z, Rabs (end_y p + slope_right p * (y - end_x p) - (end_y p + slope_right p * (z - end_x p))) <= Rabs (y - z)).
  { intros y z. replace (end_y p + slope_right p * (y - end_x p) - (end_y p + slope_right p * (z - end_x p))) with ((y - z) * slope_right p) by ring.
    rewrite Rabs_mult. rewrite <- (Rmult_1_r (Rabs (y - z))) at 2. apply Rmult_le_compat_l; [apply Rabs_pos|bounds]. }
  specialize (N Ls Q2 ltac:(lra)). fold Y in N. cbn beta in N. unfold within in E1. set (y1 := fl (end_y p + _)) in *.
  replace (end_y p + slope_right p * (xe + start_x p - end_x p)) with (end_y p + (xe - bl) * slope_right p) in N by ring.
  rewrite Rabs_minus_sym in N.
  replace (y1 - Y) with ((y1 - (end_y p + (xe - bl) * slope_right p)) + (end_y p + (xe - bl) * slope_right p - Y)) by ring.
  eapply Rle_trans; [apply Rabs_triang|]. lra.
Qed.
Lemma valley : fl (float_bezier_length p + float_right_lin p cx) <= xm -> xm < fl (fl (2 * float_bezier_length p) + float_right_lin p cx) ->
  Rabs (fl (- bez (fl (fl (fl (fl (2 * float_bezier_length p) + float_right_lin p cx) - xm) + start_x p)) + float_y_offset_inv p cx) - Y)
  <= e + (5182 + 9 * IZR k) * u.
Proof.
  intros L1 L2. pose proof (sizes p O) as (A1 & A2 & A3 & A4 & A5 & A6 & A7 & A8 & A9). assert (U : 0 < u) by (rewrite u_value; lra).
  pose proof xe_range as R1. pose proof (w_low _ _ _ A_error) as LA. pose proof (w_low _ _ _ B_error) as LB. pose proof (w_low _ _ _ xm_error) as Lm.
  pose proof (rl_range p c O Hb Hr) as R2. pose proof (yinv_range p c O Hb Hr) as R3. pose proof (yinv_error p c O Hb Hr cx Hx) as Ei.
  set (AA := fl (fl (2 * float_bezier_length p) + float_right_lin p cx)) in *. set (B := fl (float_bezier_length p + float_right_lin p cx)) in *.
  set (te := 2 * bl + rl - xe + start_x p).
  assert (Et : within ((1288 + (3 + 3 * IZR k) + 8 + 1) + 0 + 9 + 1) te (fl (fl (AA - xm) + start_x p))).
  { unfold te. apply w_fadd; [apply w_fsub; [exact A_error|exact xm_error|bounds|lra|lra]|apply w_refl|bounds|lra|lra]. }
  assert (S1 : 2566 * u <= 1/4) by (rewrite u_value; lra).
  assert (Er : within (0 + 0 + 3 + 1 + 0 + 4 + 1) (AA - xm + start_x p) (fl (fl (AA - xm) + start_x p))).
  { apply w_fadd; [apply w_fsub; [apply w_refl|apply w_refl|bounds|lra|lra]|apply w_refl|bounds|lra|lra]. }
  apply w_low in Er. set (t := fl (fl (AA - xm) + start_x p)) in *. pose proof (Hbez t ltac:(lra)) as H1. pose proof (Lip t te) as H2.
  destruct (tct_one_period p lut f A M Hf) as (c' & Hc' & _ & _ & Q3 & _).
  rewrite (ProofsOcc.corner_unique p c' c (proj1 A) Hc' Hc) in Q3. cbv zeta in Q3. change (len_right p - 2 * (end_x p - fst c)) with rl in Q3.
  pose proof (near_line f (fun z => yinv - f (2 * end_x p + rl - z)) (end_x p + rl) (2 * end_x p + rl - start_x p) (xe + start_x p) ((1291 + 3 * IZR k) * u)
    ltac:(lra) ltac:(apply Rmult_le_pos; lra) Lip) as N.
  assert (Ls : forall y z, Rabs (yinv - f (2 * end_x p + rl - y) - (yinv - f (2 * end_x p + rl - z))) <= Rabs (y - z)).
  { intros y z. replace (yinv - f (2 * end_x p + rl - y) - (yinv - f (2 * end_x p + rl - z))) with (f (2 * end_x p + rl - z) - f (2 * end_x p + rl - y)) by ring.
    eapply Rle_trans; [apply Lip|]. right. f_equal. ring. }
  assert (Le : forall y, end_x p + rl <= y <= 2 * end_x p + rl - start_x p -> f y = yinv - f (2 * end_x p + rl - y)).
  { intros y Hy. pose proof (Q3 (2 * end_x p + rl - y) ltac:(lra)) as Q. replace (2 * end_x p + rl - (2 * end_x p + rl - y)) with y in Q by ring.
    rewrite Q, (yoi p c). ring. }
  specialize (N Ls Le ltac:(lra)). cbn beta in N. fold Y in N.
  replace (2 * end_x p + rl - (xe + start_x p)) with te in N by (unfold te; ring). unfold within in Et, Ei.
  assert (Yr : Rabs Y <= 4) by exact Y_range. apply Rabs_le_inv in Yr.
  set (z := - bez t + float_y_offset_inv p cx).
  assert (E1 : Rabs (z - Y) <= e + (5172 + 9 * IZR k) * u).
  { replace (z - Y) with ((float_y_offset_inv p cx - yinv) + - (bez t - f t) + - (f t - f te) + - (Y - (yinv - f te))) by (unfold z; ring).
    eapply Rle_trans; [apply Rabs_triang|]. rewrite (Rabs_Ropp (Y - _)). apply Rle_trans with (Rabs (float_y_offset_inv p cx - yinv + - (bez t - f t) + - (f t - f te)) + 2 * ((1291 + 3 * IZR k) * u)); [lra|].
    eapply Rle_trans; [apply Rplus_le_compat_r, Rabs_triang|]. rewrite (Rabs_Ropp (f t - _)).
    eapply Rle_trans; [apply Rplus_le_compat_r, Rplus_le_compat_r, Rabs_triang|]. rewrite (Rabs_Ropp (bez t - _)). lra. }
  assert (S2 : (5172 + 9 * IZR k) * u <= 1/4) by (apply Rle_trans with (20000 * u); [apply Rmult_le_compat_r; lra|rewrite u_value; lra]).
  assert (Zr : Rabs z <= 6) by (apply Rabs_le_inv in E1; bounds).
  pose proof (ProofsFloatPotential.abs_error z) as E5. pose proof small_tiny as E6.
  assert (E7 : u * Rabs z <= u * 6) by (apply Rmult_le_compat_l; lra).
  replace (fl z - Y) with ((fl z - z) + (z - Y)) by ring. eapply Rle_trans; [apply Rabs_triang|]. lra.
Qed.
Lemma left_flank : fl (fl (2 * float_bezier_length p) + float_right_lin p cx) <= xm ->
  Rabs (fl (fl (float_y_offset_inv p cx - start_y p) + fl (fl (xm - fl (fl (2 * float_bezier_length p) + float_right_lin p cx)) * slope_left p)) - Y)
  <= e + (5189 + 9 * IZR k) * u.
Proof.
  intros L1. pose proof (sizes p O) as (A1 & A2 & A3 & A4 & A5 & A6 & A7 & A8 & A9). assert (U : 0 < u) by (rewrite u_value; lra).
  pose proof xe_range as R1. pose proof (w_low _ _ _ A_error) as LA. pose proof (w_low _ _ _ xm_error) as Lm. pose proof (w_low _ _ _ (period_error p O)) as LP.
  pose proof (rl_range p c O Hb Hr) as R2. pose proof (yinv_range p c O Hb Hr) as R3. pose proof (yinv_error p c O Hb Hr cx Hx) as Ei.
  pose proof (ll_range p c O Hb Hl) as R4.
  assert (P1 : - (8) <= (xe - (2 * bl + rl)) * slope_left p <= 8) by (apply times; bounds).
  set (AA := fl (fl (2 * float_bezier_length p) + float_right_lin p cx)) in *.
  assert (E1 : within ((1280 + 0 + 4 + 1) + ((3 + 3 * IZR k) + 1288 + 8 + 1 + 8 + 1) + 12 + 1) (yinv - start_y p + (xe - (2 * bl + rl)) * slope_left p)
                 (fl (fl (float_y_offset_inv p cx - start_y p) + fl (fl (xm - AA) * slope_left p)))).
  { apply w_fadd; [apply w_fsub; [exact Ei|apply w_refl|bounds|lra|lra]|apply w_fmul; [apply w_fsub; [exact xm_error|exact A_error|bounds|lra|lra]|bounds|bounds|lra]|bounds|lra|lra]. }
  destruct (tct_one_period p lut f A M Hf) as (c' & Hc' & _ & _ & _ & Q4).
  rewrite (ProofsOcc.corner_unique p c' c (proj1 A) Hc' Hc) in Q4. cbv zeta in Q4. change (len_right p - 2 * (end_x p - fst c)) with rl in Q4.
  assert (Fn : f (start_x p + T) = start_y p - off) by (rewrite (tct_periodic p lut f A M Hf), tct_start, <- (offset_period p c Hc); ring).
  rewrite Fn in Q4.
  assert (LL : 2 * bl + rl <= T) by (unfold right_lin_length, left_lin_length in *; lra).
  pose proof (near_line f (fun z => start_y p - off - slope_left p * (start_x p + T - z)) (2 * end_x p + rl - start_x p) (start_x p + T) (xe + start_x p) ((1291 + 3 * IZR k) * u)
    ltac:(lra) ltac:(apply Rmult_le_pos; lra) Lip) as N.
  assert (Ls : forall y z, Rabs (start_y p - off - slope_left p * (start_x p + T - y) - (start_y p - off - slope_left p * (start_x p + T - z))) <= Rabs (y - z)).
  { intros y z. replace (start_y p - off - slope_left p * (start_x p + T - y) - (start_y p - off - slope_left p * (start_x p + T - z))) with ((y - z) * slope_left p) by ring.
    rewrite Rabs_mult. rewrite <- (Rmult_1_r (Rabs (y - z))) at 2. apply Rmult_le_compat_l; [apply Rabs_pos|bounds]. }
  specialize (N Ls Q4 ltac:(lra)). fold Y in N. cbn beta in N. unfold within in E1. set (y1 := fl (fl _ + fl (fl _ * _))) in *.
  set (y2 := yinv - start_y p + (xe - (2 * bl + rl)) * slope_left p) in *.
  assert (E2 : start_y p - off - slope_left p * (start_x p + T - (xe + start_x p)) = y2).
  { unfold y2, y_offset_period, left_lin_length, right_lin_length. ring. }
  rewrite E2, Rabs_minus_sym in N.
  replace (y1 - Y) with ((y1 - y2) + (y2 - Y)) by ring. eapply Rle_trans; [apply Rabs_triang|]. lra.
Qed.
Lemma wave_accuracy k' : np_mod x0 (float_period p) = xm -> float_period_no p x0 = k' -> IZR k <= IZR k' <= IZR k + 1 ->
  Rabs (float_wave_value p cx bez x0 - (f x - off * (IZR k' - IZR k))) <= e + (5199 + 2580 * IZR k') * u.
Proof.
  intros Em Ek Kd. unfold float_wave_value. rewrite Em, Ek, at_period. replace (Y - off * IZR k - off * (IZR k' - IZR k)) with (Y - off * IZR k') by ring. rewrite (Rmult_comm (float_bezier_length p) 2).
  assert (U : 0 < u) by (rewrite u_value; lra).
  apply Rle_trans with (e + (5189 + 9 * IZR k + 2571 * IZR k' + 10) * u); [|apply Rplus_le_compat_l, Rmult_le_compat_r; lra].
  apply last_step; [lra| |pose proof Y_range; lra|lra].
  assert (W : forall a b, a + b * IZR k <= 5189 + 9 * IZR k -> forall d, d <= e + (a + b * IZR k) * u -> d <= e + (5189 + 9 * IZR k) * u).
  { intros a b L d D. apply Rle_trans with (1 := D). apply Rplus_le_compat_l, Rmult_le_compat_r; lra. }
  destruct (Rltb_spec xm (float_bezier_length p)) as [B1|B1]; [apply (W 8 3); [lra|apply arc; assumption]|].
  destruct (Rltb_spec xm (fl (float_bezier_length p + float_right_lin p cx))) as [B2|B2]; [apply (W 2587 9); [lra|apply right_flank; lra]|].
  destruct (Rltb_spec xm (fl (fl (2 * float_bezier_length p) + float_right_lin p cx))) as [B3|B3]; [apply (W 5182 9); [lra|apply valley; lra]|].
  apply left_flank. lra.
Qed.
End Wave.

(** ** Limited number of peaks *)
Lemma slopes_lipschitz lo hi (f : R -> R) : -1 <= lo -> hi <= 1 -> slopes_in lo hi f -> forall y z, Rabs (f y - f z) <= Rabs (y - z).
Proof.
  intros L H S. assert (W : forall y z, y <= z -> Rabs (f z - f y) <= Rabs (z - y)).
  { intros y z Y. pose proof (S y z Y) as [S1 S2]. rewrite (Rabs_pos_eq (z - y)) by lra. apply Rabs_le.
    assert (-1 * (z - y) <= lo * (z - y)) by (apply Rmult_le_compat_r; lra).
    assert (hi * (z - y) <= 1 * (z - y)) by (apply Rmult_le_compat_r; lra). lra. }
  intros y z. destruct (Rle_dec y z) as [E|E]; [rewrite Rabs_minus_sym, (Rabs_minus_sym y z)|]; apply W; lra.
Qed.
Lemma tct_lipschitz p mp f : ordinary_tct p -> admissible p -> peak p -> some_peaks mp -> is_tct p None mp f ->
  forall y z, Rabs (f y - f z) <= Rabs (y - z).
Proof.
  intros O A P S F. destruct (tct_slopes p None mp A P ltac:(left; reflexivity) S) as (f' & F' & L).
  pose proof (sizes p O) as (A1 & A2 & A3 & A4 & A5 & A6 & A7 & A8 & A9).
  pose proof (slopes_lipschitz _ _ f' ltac:(apply A6) ltac:(apply A5) L) as L'. intros y z.
  assert (E : forall v, f v = f' v). { intros v. pose proof (F v) as E1. rewrite (F' v) in E1. injection E1. congruence. }
  rewrite !E. apply L'.
Qed.
Section Limited.
Variables (p : tct_params) (mp : nat) (f g : R -> R).
Hypothesis (O : ordinary_tct p) (A : admissible p) (P : peak p) (Hmp : (1 <= mp <= 1000)%nat)
  (Hf : is_tct p None None f) (Hg : is_tct p None (Some mp) g).
Notation T := (len_left p + len_right p).
Notation m := (INR mp - 1).
Notation last := (end_x p + m * T).
Lemma mode : good_mode p None.
Proof. split; [discriminate|intros _; exact P]. Qed.
Lemma peaks_range : 0 <= m <= 999.
Proof. destruct Hmp as [H1 H2]. apply le_INR in H1, H2. rewrite (INR_IZR_INZ 1000) in H2. simpl in H1, H2. lra. Qed.
Lemma times_T : 0 <= m * T <= 2 * m.
Proof.
  pose proof (sizes p O). pose proof peaks_range. split; [apply Rmult_le_pos; lra|]. rewrite Rmult_comm. apply Rmult_le_compat_r; lra.
Qed.
Lemma end_error : within (7 * m + 3) last (float_wave_end p mp).
Proof.
  pose proof (sizes p O) as (A1 & A2 & A3 & A4 & A5 & A6 & A7 & A8 & A9). pose proof peaks_range as R1. pose proof times_T as R2. unfold float_wave_end.
  apply w_le with (0 + (3 * m + 2 * m + 1) + (1 + 2 * m) + 1); [|lra].
  apply w_fadd; [apply w_refl|apply w_fl; [rewrite !(Rmult_comm m); apply w_scale; [apply period_error; exact O|rewrite Rabs_pos_eq; lra|lra]|bounds|lra]|bounds|lra|lra].
Qed.
Lemma x1_error x : -1 <= x <= 1 -> within 5 x (fl (fl (x - start_x p) + start_x p)).
Proof.
  intros X. pose proof (sizes p O) as (A1 & A2 & A3 & A4 & A5 & A6 & A7 & A8 & A9).
  apply w_le with ((0 + 0 + 2 + 1) + 0 + 1 + 1); [|lra]. replace x with (x - start_x p + start_x p) at 1 by ring.
  apply w_fadd; [apply w_fsub; [apply w_refl|apply w_refl|bounds|lra|lra]|apply w_refl|bounds|lra|lra].
Qed.
Lemma limit_close x d : start_x p - d <= x <= last + d -> 0 <= d -> Rabs (f x - g x) <= 2 * d.
Proof.
  intros X D. destruct (tct_outer p None mp f g A mode ltac:(lia) Hf Hg) as (O1 & _). cbv zeta in O1.
  pose proof times_T. destruct A as (_ & _ & c & _ & B & _).
  apply (near_line f g (start_x p) last x d); [lra|exact D|apply (tct_lipschitz p None); auto; exact Logic.I|apply (tct_lipschitz p (Some mp)); auto; simpl; lia| |exact X].
  intros y Hy. symmetry. apply O1, Hy.
Qed.
Lemma line_lipschitz a b s y z : Rabs s <= 1 -> Rabs (a + s * (y - b) - (a + s * (z - b))) <= Rabs (y - z).
Proof.
  intros Hs. replace (a + s * (y - b) - (a + s * (z - b))) with ((y - z) * s) by ring.
  rewrite Rabs_mult. rewrite <- (Rmult_1_r (Rabs (y - z))) at 2. apply Rmult_le_compat_l; [apply Rabs_pos|exact Hs].
Qed.
Lemma outer_accuracy cx c x : -1 <= x <= 1 -> corner p c -> start_x p <= fst c <= end_x p -> 2 * (fst c - start_x p) <= len_left p ->
  2 * (end_x p - fst c) <= len_right p -> within 629 (fst c) cx ->
  let x1 := fl (fl (x - start_x p) + start_x p) in x1 <= start_x p \/ float_wave_end p mp <= x1 ->
  Rabs (float_outer_value p cx mp x1 - g x) <= (50 + 2610 * m) * u.
Proof.
  intros X Hc Hb Hl Hr Hx x1 Out. pose proof (sizes p O) as (A1 & A2 & A3 & A4 & A5 & A6 & A7 & A8 & A9). assert (U : 0 < u) by (rewrite u_value; lra).
  destruct (tct_outer p None mp f g A mode ltac:(lia) Hf Hg) as (_ & O2 & O3). cbv zeta in O2, O3.
  pose proof (x1_error x X) as E1. fold x1 in E1. pose proof (w_low _ _ _ E1) as L1. pose proof end_error as E2. pose proof (w_low _ _ _ E2) as L2.
  pose proof peaks_range as R1. pose proof times_T as R2. pose proof (off_range p c O Hc) as R3.
  assert (Lg : forall y z, Rabs (g y - g z) <= Rabs (y - z)) by (apply (tct_lipschitz p (Some mp)); auto; simpl; lia).
  unfold float_outer_value. destruct (Rleb_spec (float_wave_end p mp) x1) as [B|B].
  - assert (Mo : - (2 * m) <= m * y_offset_period p c <= 2 * m).
    { apply Rabs_le_inv. rewrite Rabs_mult, (Rabs_pos_eq m), (Rmult_comm 2) by lra. apply Rmult_le_compat_l; [lra|bounds]. }
    set (N := end_y p + m * (len_left p * slope_left p + len_right p * slope_right p)).
    assert (EN : N = start_y p - m * y_offset_period p c + (end_y p - start_y p)) by (unfold N; rewrite <- (offset_period p c Hc); ring).
    assert (P1 : - (2 + 2 * m) <= (x - last) * slope_right p <= 2 + 2 * m) by (apply times; bounds).
    assert (E3 : within (((0 + (2567 * m + 2 * m + 1) + (1 + 2 * m) + 1) + (0 + 0 + 2 + 1) + (1 + 2 * m) + 1)
                         + ((5 + (7 * m + 3) + (2 + 2 * m) + 1) + (2 + 2 * m) + 1) + (3 + 4 * m) + 1) (N + (x - last) * slope_right p)
                   (fl (fl (fl (start_y p - fl (m * float_y_offset_period p cx)) + fl (end_y p - start_y p)) + fl (fl (x1 - float_wave_end p mp) * slope_right p)))).
    { rewrite EN. apply w_fadd; [apply w_fadd; [apply w_fsub; [apply w_refl|apply w_fl; [rewrite !(Rmult_comm m); apply w_scale; [apply off_error; assumption|rewrite Rabs_pos_eq; lra|lra]|bounds|lra]|bounds|lra|lra]
        |apply w_fsub; [apply w_refl|apply w_refl|bounds|lra|lra]|bounds|lra|lra]
        |apply w_fmul; [apply w_fsub; [exact E1|exact E2|bounds|lra|lra]|bounds|bounds|lra]|bounds|lra|lra]. }
    pose proof (near_line g (fun z => N + slope_right p * (z - last)) last (last + 4) x ((8 + 7 * m) * u) ltac:(lra) ltac:(apply Rmult_le_pos; lra) Lg
      ltac:(intros; apply line_lipschitz; bounds) ltac:(intros y Hy; apply O3; lra) ltac:(split; [lra|]; assert (0 <= (8 + 7 * m) * u) by (apply Rmult_le_pos; lra); lra)) as Nr.
    cbn beta in Nr. rewrite Rabs_minus_sym, (Rmult_comm (slope_right p)) in Nr. unfold within in E3. set (y1 := fl (fl _ + fl (fl _ * _))) in *.
    replace (y1 - g x) with ((y1 - (N + (x - last) * slope_right p)) + (N + (x - last) * slope_right p - g x)) by ring.
    eapply Rle_trans; [apply Rabs_triang|]. assert (0 <= m * u) by (apply Rmult_le_pos; lra). lra.
  - assert (B1 : x1 <= start_x p) by lra. rewrite (Rleb_true _ _ B1).
    assert (P1 : - (2) <= (x - start_x p) * slope_left p <= 2) by (apply times; bounds).
    assert (E3 : within (0 + ((5 + 0 + 2 + 1) + 2 + 1) + 3 + 1) (start_y p + (x - start_x p) * slope_left p) (fl (start_y p + fl (fl (x1 - start_x p) * slope_left p)))).
    { apply w_fadd; [apply w_refl|apply w_fmul; [apply w_fsub; [exact E1|apply w_refl|bounds|lra|lra]|bounds|bounds|lra]|bounds|lra|lra]. }
    pose proof (near_line g (fun z => start_y p + slope_left p * (z - start_x p)) (-2) (start_x p) x (5 * u) ltac:(lra) ltac:(lra) Lg
      ltac:(intros; apply line_lipschitz; bounds) ltac:(intros y Hy; apply O2; lra) ltac:(lra)) as Nr.
    cbn beta in Nr. rewrite Rabs_minus_sym, (Rmult_comm (slope_left p)) in Nr. unfold within in E3. set (y1 := fl (start_y p + _)) in *.
    replace (y1 - g x) with ((y1 - (start_y p + (x - start_x p) * slope_left p)) + (start_y p + (x - start_x p) * slope_left p - g x)) by ring.
    eapply Rle_trans; [apply Rabs_triang|]. assert (0 <= m * u) by (apply Rmult_le_pos; lra). lra.
Qed.
End Limited.

(** ** The function *)
Lemma float_tct_inv p bez mp x y : float_tct p bez mp x = Ok y -> exists c, float_center p = Ok c /\
  let x0 := fl (x - start_x p) in let x1 := fl (x0 + start_x p) in
  (start_x p <= x1 <= float_wave_end p mp /\ float_period p <> 0 /\ y = float_wave_value p (fst c) (bez c) x0 \/
   (x1 < start_x p \/ float_wave_end p mp < x1) /\ y = float_outer_value p (fst c) mp x1).
Proof.
  unfold float_tct. destruct (float_center p) as [c|]; [|discriminate]. cbn [bind]. intros H. exists c. split; [reflexivity|].
  destruct (negb _); [discriminate|]. cbn [raise_if] in H. destruct (negb _); [discriminate|]. cbn [raise_if] in H. cbv zeta in *.
  set (x1 := fl (fl (x - start_x p) + start_x p)) in *.
  destruct (Rleb_spec (start_x p) x1) as [B1|B1]; cbn [andb] in H.
  - destruct (Rleb_spec x1 (float_wave_end p mp)) as [B2|B2].
    + destruct (Reqb_spec (float_period p) 0) as [Z|Z]; [discriminate|]. injection H as <-. left. split; [lra|]. split; [exact Z|reflexivity].
    + injection H as <-. right. split; [right; lra|reflexivity].
  - injection H as <-. right. split; [left; lra|reflexivity].
Qed.
Lemma fl_nonneg x : 0 <= x -> 0 <= fl x.
Proof. intros H. rewrite <- (fl_id 0); [apply fl_le, H|]. apply (double_eq _ 0 0); [simpl; ring|lia|lia]. Qed.
Lemma tct_accuracy_any p bez mp e g x y : ordinary_tct p -> admissible p -> peak p -> (1 <= mp <= 1000)%nat -> is_tct p None (Some mp) g ->
  0 <= e <= 1/2 -> (forall c t, float_center p = Ok c -> start_x p - pow2 (-41) <= t <= end_x p + pow2 (-41) -> Rabs (bez c t - g t) <= e) ->
  double (start_x p) -> start_x p <= x -> -1 <= x <= 1 -> float_tct p bez mp x = Ok y ->
  let x0 := fl (x - start_x p) in let k := Zfloor (x0 / float_period p) in let k' := float_period_no p x0 in
  fl (x0 + start_x p) <= float_wave_end p mp -> (k <= 1000)%Z -> IZR k <= IZR k' <= IZR k + 1 ->
  Rabs (y - (g x + (len_left p * slope_left p + len_right p * slope_right p) * (IZR k' - IZR k))) <= e + (14000 + 2610 * (IZR k' + INR mp)) * pow2 (-53).
Proof.
  intros O A P Hmp Hg He Hbez Ds Xs Xr Hy x0 k k' Wx Kr Kd. change (pow2 (-53)) with u. assert (U : 0 < u) by (rewrite u_value; lra).
  assert (E41 : pow2 (-41) = 4096 * u) by (rewrite u_value; change (pow2 (-41)) with (/ 2199023255552); lra). rewrite E41 in Hbez.
  assert (M : good_mode p None) by (split; [discriminate|intros _; exact P]).
  destruct (tct_total p None None A M Logic.I) as [f Hf].
  pose proof (sizes p O) as (A1 & A2 & A3 & A4 & A5 & A6 & A7 & A8 & A9). pose proof (peaks_range mp Hmp) as R1. pose proof (times_T p mp O Hmp) as R2.
  destruct (float_tct_inv _ _ _ _ _ Hy) as (c' & Hc' & W). cbv zeta in W. fold x0 in W.
  pose proof A as (_ & TP & c & Hc & Hb & Hl & Hr). pose proof (center_error p c O Hc Hb c' Hc') as Ec.
  assert (X0 : 0 <= x0) by (apply fl_nonneg; lra). assert (PP : 0 <= float_period p) by (apply fl_nonneg; lra).
  assert (K0 : (0 <= k)%Z).
  { apply Zfloor_lub. destruct (Req_dec (float_period p) 0) as [Z|Z]; [rewrite Z; unfold Rdiv; rewrite Rinv_0; lra|].
    apply Rmult_le_pos; [exact X0|left; apply Rinv_0_lt_compat; lra]. }
  assert (KR : 0 <= IZR k <= 1000) by (split; [apply (IZR_le 0)|apply (IZR_le _ 1000)]; assumption).
  destruct W as [(W1 & W2 & ->)|(W1 & ->)].
  - destruct (mod_exact x0 (float_period p) X0 ltac:(lra)) as [Em Rm]. fold k in Em. rewrite Em in Rm.
    assert (Lf : forall y z, Rabs (f y - f z) <= Rabs (y - z)) by (apply (tct_lipschitz p None); auto; exact Logic.I).
    assert (Hb' : forall t, start_x p - 4096 * u <= t <= end_x p + 4096 * u -> Rabs (bez c' t - f t) <= e + 8192 * u).
    { intros t Ht. pose proof (Hbez c' t Hc' Ht) as H1. pose proof (limit_close p mp f g O A P Hmp Hf Hg t (4096 * u) ltac:(lra) ltac:(lra)) as H2.
      replace (bez c' t - f t) with ((bez c' t - g t) + - (f t - g t)) by ring. eapply Rle_trans; [apply Rabs_triang|]. rewrite Rabs_Ropp. lra. }
    assert (S1 : 8192 * u <= 1/2) by (rewrite u_value; lra).
    pose proof (wave_accuracy p c None f O A M Hf Lf Hc Hb Hl Hr (fst c') (bez c') (e + 8192 * u) Ec ltac:(lra) Hb' x k Xr Xs KR Rm k' Em eq_refl Kd) as V. fold x0 in V.
    pose proof (w_low _ _ _ (x1_error p O x Xr)) as L1. fold x0 in L1. pose proof (w_low _ _ _ (end_error p mp O Hmp)) as L2.
    pose proof (limit_close p mp f g O A P Hmp Hf Hg x ((7 * (INR mp - 1) + 8) * u)) as V2.
    assert (MU : 0 <= (INR mp - 1) * u) by (apply Rmult_le_pos; lra).
    specialize (V2 ltac:(lra) ltac:(lra)). set (w := float_wave_value p (fst c') (bez c') x0) in *.
    assert (KU : 0 <= IZR k' * u) by (apply Rmult_le_pos; lra). rewrite <- (offset_period p c Hc).
    replace (w - (g x + - y_offset_period p c * (IZR k' - IZR k))) with ((w - (f x - y_offset_period p c * (IZR k' - IZR k))) + (f x - g x)) by ring. eapply Rle_trans; [apply Rabs_triang|]. lra.
  - assert (X1 : start_x p <= fl (x0 + start_x p)).
    { apply Rle_trans with (fl (start_x p)); [right; symmetry; apply fl_id, Ds|apply fl_le; lra]. }
    lra.
Qed.
Lemma outer_tct_accuracy p bez mp g x y : ordinary_tct p -> admissible p -> peak p -> (1 <= mp <= 1000)%nat -> is_tct p None (Some mp) g ->
  -1 <= x <= 1 -> float_tct p bez mp x = Ok y ->
  let x1 := fl (fl (x - start_x p) + start_x p) in x1 < start_x p \/ float_wave_end p mp < x1 ->
  Rabs (y - g x) <= (50 + 2610 * INR mp) * pow2 (-53).
Proof.
  intros O A P Hmp Hg Xr Hy x1 Out. change (pow2 (-53)) with u. assert (U : 0 < u) by (rewrite u_value; lra).
  assert (M : good_mode p None) by (split; [discriminate|intros _; exact P]).
  destruct (tct_total p None None A M Logic.I) as [f Hf]. pose proof (peaks_range mp Hmp) as R1.
  destruct (float_tct_inv _ _ _ _ _ Hy) as (c' & Hc' & W). cbv zeta in W. fold x1 in W.
  pose proof A as (_ & TP & c & Hc & Hb & Hl & Hr). pose proof (center_error p c O Hc Hb c' Hc') as Ec.
  destruct W as [(W1 & _)|(W1 & ->)]; [lra|].
  pose proof (outer_accuracy p mp f g O A P Hmp Hf Hg (fst c') c x Xr Hc Hb Hl Hr Ec) as V. cbv zeta in V. fold x1 in V.
  specialize (V ltac:(lra)). lra.
Qed.

(** ** A voltage below the first point of the first peak stays below it. *)
Lemma double_step s : s <> 0 -> double (pred radix2 binary64 s - s).
Proof.
  intros Hs. assert (B : forall e, double (- bpow radix2 (binary64 e))).
  { intros e. apply generic_format_opp, generic_format_FLT_bpow; [reflexivity|]. unfold binary64, FLT_exp. lia. }
  assert (E : exists e, pred radix2 binary64 s - s = - bpow radix2 (binary64 e)); [|destruct E as [e ->]; apply B].
  unfold pred, succ. destruct (Rle_bool 0 (- s)).
  - exists (mag radix2 (- s) : Z). rewrite ulp_neq_0 by lra. unfold cexp. ring.
  - unfold pred_pos. destruct (Req_bool _ _).
    + exists (mag radix2 (- - s) - 1)%Z. ring.
    + exists (mag radix2 (- - s) : Z). rewrite ulp_neq_0 by lra. unfold cexp. ring.
Qed.
Lemma stays_below x s : double x -> double s -> x < s -> fl (fl (x - s) + s) < s.
Proof.
  intros Dx Ds L. destruct (Req_dec s 0) as [->|Hs].
  - rewrite Rminus_0_r, Rplus_0_r, !(fl_id x) by exact Dx. exact L.
  - pose proof (pred_ge_gt radix2 binary64 x s Dx Ds L) as P. pose proof (pred_lt_id radix2 binary64 s Hs) as Q.
    assert (H1 : fl (x - s) <= pred radix2 binary64 s - s) by (rewrite <- (fl_id (pred radix2 binary64 s - s)) by (apply double_step, Hs); apply fl_le; lra).
    apply Rle_lt_trans with (pred radix2 binary64 s); [|exact Q].
    rewrite <- (fl_id (pred radix2 binary64 s)) by (apply generic_format_pred; [typeclasses eauto|exact Ds]). apply fl_le. lra.
Qed.
Lemma below_accuracy p bez mp g x y : ordinary_tct p -> admissible p -> peak p -> (1 <= mp <= 1000)%nat -> is_tct p None (Some mp) g ->
  double (start_x p) -> double x -> -1 <= x < start_x p -> float_tct p bez mp x = Ok y ->
  Rabs (y - g x) <= (50 + 2610 * INR mp) * pow2 (-53).
Proof.
  intros O A P Hmp Hg Ds Dx X Hy. pose proof (sizes p O) as (A1 & _).
  apply (outer_tct_accuracy p bez mp g x y O A P Hmp Hg ltac:(lra) Hy). left. apply stays_below; [exact Dx|exact Ds|lra].
Qed.
Lemma tct_accuracy p bez mp e g x y : ordinary_tct p -> admissible p -> peak p -> (1 <= mp <= 1000)%nat -> is_tct p None (Some mp) g ->
  0 <= e <= 1/2 -> (forall c t, float_center p = Ok c -> start_x p - pow2 (-41) <= t <= end_x p + pow2 (-41) -> Rabs (bez c t - g t) <= e) ->
  double (start_x p) -> start_x p <= x <= 1 -> float_tct p bez mp x = Ok y -> 0 < float_period p ->
  let x0 := fl (x - start_x p) in let k := Zfloor (x0 / float_period p) in (k <= 1000)%Z ->
  let bound := e + (17000 + 2610 * (IZR k + INR mp)) * pow2 (-53) in
  Rabs (y - g x) <= bound \/
  (IZR k + 1) * float_period p * (1 - pow2 (-53)) <= x0 /\
  Rabs (y - (g x + (len_left p * slope_left p + len_right p * slope_right p))) <= bound.
Proof.
  intros O A P Hmp Hg He Hbez Ds X Hy PP x0 k Kr bound. pose proof (sizes p O) as (A1 & _). assert (U : 0 < u) by (rewrite u_value; lra).
  assert (X0 : 0 <= x0) by (apply fl_nonneg; lra). assert (K0 : 0 <= IZR k) by (apply (IZR_le 0), floor_nonneg; assumption).
  pose proof (le_INR 1 mp (proj1 Hmp)) as M1. simpl (INR 1) in M1. unfold bound. change (pow2 (-53)) with u. clear bound.
  assert (M1000 : INR mp <= 1000) by (pose proof (le_INR mp 1000 (proj2 Hmp)) as H; rewrite (INR_IZR_INZ 1000) in H; simpl in H; lra).
  assert (KU : 0 <= IZR k * u) by (apply Rmult_le_pos; lra). assert (MU : 0 <= INR mp * u) by (apply Rmult_le_pos; lra).
  destruct (Rle_dec (fl (x0 + start_x p)) (float_wave_end p mp)) as [Wx|Wx].
  - pose proof (tct_accuracy_any p bez mp e g x y O A P Hmp Hg He Hbez Ds ltac:(lra) ltac:(lra) Hy) as V. cbv zeta in V. fold x0 in V. fold k in V.
    change (pow2 (-53)) with u in V. specialize (V Wx Kr).
    destruct (period_no_bounds x0 (float_period p) X0 PP) as [H|[H B]].
    + fold k. apply Z.le_lt_trans with (1 := Kr). reflexivity.
    + left. change (Zfloor (fl (x0 / float_period p))) with (float_period_no p x0) in H. fold k in H. rewrite H in V. specialize (V ltac:(lra)).
      replace (g x) with (g x + (len_left p * slope_left p + len_right p * slope_right p) * (IZR k - IZR k)) by ring. lra.
    + right. change (Zfloor (fl (x0 / float_period p))) with (float_period_no p x0) in H. fold k in H, B. split; [exact B|].
      rewrite H, plus_IZR in V. specialize (V ltac:(lra)).
      replace (IZR k + 1 - IZR k) with 1 in V by ring. rewrite Rmult_1_r in V. lra.
  - left. pose proof (outer_tct_accuracy p bez mp g x y O A P Hmp Hg ltac:(lra) Hy ltac:(right; fold x0; lra)) as V. change (pow2 (-53)) with u in V. lra.
Qed.
