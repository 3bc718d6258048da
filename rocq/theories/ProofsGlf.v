(** Proofs about the slope of the generalized logistic function. *)
From Coquelicot Require Import Coquelicot.
From Verif Require Import RPrelude ModelSupport SpecSupport ProofsSupport.
Local Open Scope R_scope.

(** ** Powers of two *)
Lemma two_ln2 : 1 < 2 * ln 2.
Proof.
  apply exp_lt_inv. rewrite Rmult_comm. replace (exp (ln 2 * 2)) with (2 * 2).
  - pose proof exp_le_3. lra.
  - replace (ln 2 * 2) with (ln 2 + ln 2) by ring. rewrite exp_plus, exp_ln by lra. ring.
Qed.
Lemma power_above nu : 1 < nu -> 1 + nu < Rpower 2 nu.
Proof.
  intros H. pose proof two_ln2 as L. replace nu with (1 + (nu - 1)) at 2 by ring. rewrite Rpower_plus, Rpower_1 by lra.
  unfold Rpower. pose proof (exp_ineq1 ((nu - 1) * ln 2) ltac:(nra)). nra.
Qed.
Lemma power_below nu : 0 < nu < 1 -> Rpower 2 nu < 1 + nu.
Proof.
  intros H. pose proof two_ln2 as L. set (x := Rpower 2 nu). assert (X : 0 < x) by (apply exp_pos).
  assert (E1 : x * exp (- (nu * ln 2)) = 1). { unfold x, Rpower. rewrite <- exp_plus. rewrite <- exp_0. f_equal. ring. }
  assert (E2 : x * exp ((1 - nu) * ln 2) = 2). { unfold x, Rpower. rewrite <- exp_plus. replace (nu * ln 2 + (1 - nu) * ln 2) with (ln 2) by ring. apply exp_ln; lra. }
  pose proof (exp_ineq1 (- (nu * ln 2)) ltac:(nra)) as I1. pose proof (exp_ineq1 ((1 - nu) * ln 2) ltac:(nra)) as I2.
  pose proof (Rmult_lt_compat_l x _ _ X I1) as J1. rewrite E1 in J1. pose proof (Rmult_lt_compat_l x _ _ X I2) as J2. rewrite E2 in J2.
  assert (K1 : (1 - nu) * (x * (1 + - (nu * ln 2))) < (1 - nu) * 1) by (apply Rmult_lt_compat_l; lra).
  assert (K2 : nu * (x * (1 + (1 - nu) * ln 2)) < nu * 2) by (apply Rmult_lt_compat_l; lra). nra.
Qed.
(** The relative height of the steepest point *)
Lemma steepest_height nu : 0 < nu ->
  (1 < nu -> 1/2 < Rpower (1 + nu) (- (1 / nu))) /\ (nu < 1 -> Rpower (1 + nu) (- (1 / nu)) < 1/2) /\
  (nu = 1 -> Rpower (1 + nu) (- (1 / nu)) = 1/2).
Proof.
  intros H. assert (T : 1/2 = Rpower 2 (- (1))) by (rewrite Rpower_Ropp, Rpower_1 by lra; lra).
  assert (E : Rpower 2 (- (1)) = Rpower (Rpower 2 nu) (- (1 / nu))) by (rewrite Rpower_mult; f_equal; field; lra).
  rewrite T, E. assert (Inv : 0 < 1 / nu) by (apply Rdiv_lt_0_compat; lra).
  assert (M : forall a b, 0 < a -> a < b -> Rpower b (- (1 / nu)) < Rpower a (- (1 / nu))).
  { intros a b Ha Hb. rewrite !Rpower_Ropp. apply Rinv_lt_contravar; [apply Rmult_lt_0_compat; apply exp_pos|]. apply Rlt_Rpower_l; lra. }
  split; [|split].
  - intros Hn. apply M; [lra|]. apply power_above; auto.
  - intros Hn. apply M; [apply exp_pos|]. apply power_below; lra.
  - intros ->. rewrite Rpower_1 by lra. f_equal. 
Qed.

Lemma ln_below a : 0 < a -> ln a <= a - 1.
Proof.
  intros H. rewrite <- (ln_exp (a - 1)). destruct (Req_dec a 1) as [->|N]; [replace (1 - 1) with 0 by ring; rewrite exp_0; lra|].
  left. apply ln_increasing; auto. pose proof (exp_ineq1 (a - 1) ltac:(lra)). lra.
Qed.
Lemma product_max nu z : 0 < nu -> 0 < z < 1 -> z <> 1 / (1 + nu) ->
  Rpower z (1 / nu) * (1 - z) < Rpower (1 / (1 + nu)) (1 / nu) * (1 - 1 / (1 + nu)).
Proof.
  intros H Z N. set (a := z * (1 + nu)). assert (A0 : 0 < a) by (unfold a; nra).
  assert (A1 : a <> 1). { intros E. apply N. unfold a in E. apply Rmult_eq_reg_r with (1 + nu); [|lra]. rewrite E. field. lra. }
  assert (Ez : z = 1 / (1 + nu) * a) by (unfold a; field; lra).
  assert (I : 0 < 1 / (1 + nu)) by (apply Rdiv_lt_0_compat; lra).
  assert (T : Rpower a (1 / nu) * (1 - (a - 1) / nu) < 1).
  { assert (Q : 0 < 1 - (a - 1) / nu). { replace (1 - (a - 1) / nu) with ((1 - z) * (1 + nu) / nu) by (unfold a; field; lra). apply Rdiv_lt_0_compat; nra. }
    assert (U : 1 - (a - 1) / nu < exp (- ((a - 1) / nu))).
    { pose proof (exp_ineq1 (- ((a - 1) / nu))) as X. assert (- ((a - 1) / nu) <> 0).
      { intros E. apply A1. assert ((a - 1) / nu * nu = 0) by (replace ((a - 1) / nu) with 0 by lra; ring). unfold Rdiv in *. rewrite Rmult_assoc, Rinv_l in * by lra. lra. }
      specialize (X H0). lra. }
    assert (V : Rpower a (1 / nu) <= exp ((a - 1) / nu)).
    { unfold Rpower. pose proof (ln_below a A0) as L. assert (P : 1 / nu * ln a <= (a - 1) / nu).
      { replace ((a - 1) / nu) with (1 / nu * (a - 1)) by (field; lra). apply Rmult_le_compat_l; auto. left. apply Rdiv_lt_0_compat; lra. }
      destruct P as [P|P]; [left; apply exp_increasing; auto|right; f_equal; auto]. }
    assert (W : exp ((a - 1) / nu) * exp (- ((a - 1) / nu)) = 1) by (rewrite <- exp_plus, Rplus_opp_r; apply exp_0).
    pose proof (exp_pos ((a - 1) / nu)). pose proof (exp_pos (1 / nu * ln a)) as X. fold (Rpower a (1 / nu)) in X. nra. }
  rewrite Ez at 1. rewrite <- Rpower_mult_distr by auto.
  replace (1 - z) with ((1 - 1 / (1 + nu)) * (1 - (a - 1) / nu)) by (unfold a; field; lra).
  assert (J : 0 < Rpower (1 / (1 + nu)) (1 / nu)) by (apply exp_pos).
  assert (L : 0 < 1 - 1 / (1 + nu)). { replace (1 - 1 / (1 + nu)) with (nu / (1 + nu)) by (field; lra). apply Rdiv_lt_0_compat; lra. }
  assert (M : 0 < Rpower (1 / (1 + nu)) (1 / nu) * (1 - 1 / (1 + nu))) by (apply Rmult_lt_0_compat; auto). nra.
Qed.

(** ** The slope *)
Section Slope.
Variable p : glf_params.
Hypothesis Adm : glf_admissible p.
Let A := asymptote_left p. Let K := asymptote_right p. Let B := growth_rate p. Let nu := asymmetry p. Let Q := shape_factor p. Let C := denominator_offset p.
Let b x := C + Q * exp (- B * (x - offset p)).
Definition glf_slope (x : R) : R := B / nu * (glf p x - A) * (1 - C / b x).

Lemma base_above x : C < b x.
Proof. destruct Adm as (_ & HQ & _). unfold b. pose proof (exp_pos (- B * (x - offset p))). fold Q in HQ. nra. Qed.
Lemma value_exp x : glf p x = A + (K - A) * exp (- (1 / nu * ln (b x))).
Proof. unfold glf. fold A K B nu Q C. fold (b x). unfold Rdiv at 1. rewrite <- Rpower_Ropp. unfold Rpower. f_equal. f_equal. f_equal. ring. Qed.
Lemma slope_lim x : derivable_pt_lim (glf p) x (glf_slope x).
Proof.
  destruct Adm as (Hn & HQ & HC & HB & _). pose proof (base_above x) as Hb. fold nu in Hn. fold Q in HQ. fold C in HC.
  apply is_derive_Reals.
  apply (is_derive_ext (fun y => A + (K - A) * exp (- (1 / nu * ln (b y))))); [intros y; symmetry; apply value_exp|].
  unfold b. auto_derive; [change (0 < b x); lra|].
  change (C + Q * exp (- B * (x + - offset p))) with (b x).
  unfold glf_slope. rewrite value_exp.
  assert (E : Q * exp (- B * (x + - offset p)) = b x - C) by (unfold b; change (x + - offset p) with (x - offset p); ring).
  replace ((K - A) * (- (1 / nu * (Q * (- B * 1 * exp (- B * (x + - offset p))) * / b x)) * exp (- (1 / nu * ln (b x)))))
    with ((K - A) * (1 / nu * (B * (Q * exp (- B * (x + - offset p))) * / b x) * exp (- (1 / nu * ln (b x))))) by ring.
  rewrite E. field. lra.
Qed.

(** Relative height *)
Lemma relative_height x : Rpower ((glf p x - A) / (glf_far_asymptote p - A)) nu = C / b x.
Proof.
  destruct Adm as (Hn & HQ & HC & HB & HK). pose proof (base_above x) as Hb. fold nu in Hn. fold C in HC. fold A K in HK.
  assert (E : (glf p x - A) / (glf_far_asymptote p - A) = Rpower (C / b x) (1 / nu)).
  { rewrite value_exp. unfold glf_far_asymptote. fold A K C nu. unfold Rpower at 1.
    assert (L : ln (C / b x) = ln C - ln (b x)) by (apply ln_div; lra). unfold Rpower. rewrite L.
    replace (1 / nu * (ln C - ln (b x))) with (1 / nu * ln C + - (1 / nu * ln (b x))) by ring. rewrite exp_plus.
    pose proof (exp_pos (1 / nu * ln C)). field. split; [lra|]. intros E. apply HK. lra. }
  rewrite E, Rpower_mult. replace (1 / nu * nu) with 1 by (field; lra). apply Rpower_1. apply Rdiv_lt_0_compat; lra.
Qed.
Lemma slope_relative x : glf_slope x = B / nu * (glf p x - A) * (1 - Rpower ((glf p x - A) / (glf_far_asymptote p - A)) nu).
Proof. rewrite relative_height. reflexivity. Qed.

(** The steepest point *)
Definition steepest : R := offset p - ln (C * nu / Q) / B.
Lemma steepest_base : b steepest = C * (1 + nu).
Proof.
  destruct Adm as (Hn & HQ & HC & HB & HK). unfold b, steepest. fold nu in Hn. fold C in HC. fold Q in HQ. fold B in HB.
  replace (- B * (offset p - ln (C * nu / Q) / B - offset p)) with (ln (C * nu / Q)) by (field; auto).
  rewrite exp_ln by (apply Rdiv_lt_0_compat; nra). field. lra.
Qed.
Lemma steepest_value : glf p steepest = A + (glf_far_asymptote p - A) * Rpower (1 + nu) (- (1 / nu)).
Proof.
  destruct Adm as (Hn & HQ & HC & HB & HK). fold nu in Hn. fold C in HC.
  rewrite value_exp, steepest_base. rewrite ln_mult by lra. unfold glf_far_asymptote. fold A K C nu. unfold Rpower.
  replace (- (1 / nu * (ln C + ln (1 + nu)))) with (- (1 / nu * ln C) + - (1 / nu) * ln (1 + nu)) by ring. rewrite exp_plus, exp_Ropp.
  pose proof (exp_pos (1 / nu * ln C)). field. lra.
Qed.
Lemma slope_z x : glf_slope x = B / nu * (K - A) * / Rpower C (1 / nu) * (Rpower (C / b x) (1 / nu) * (1 - C / b x)).
Proof.
  destruct Adm as (Hn & HQ & HC & HB & HK). pose proof (base_above x) as Hb. fold C in HC.
  unfold glf_slope. rewrite value_exp. unfold Rpower at 2. rewrite ln_div by lra.
  replace (1 / nu * (ln C - ln (b x))) with (1 / nu * ln C + - (1 / nu * ln (b x))) by ring. rewrite exp_plus. unfold Rpower.
  pose proof (exp_pos (1 / nu * ln C)). field. repeat split; try lra. fold nu in Hn. lra.
Qed.
Lemma slope_max x : 0 < B -> A < K -> x <> steepest -> glf_slope x < glf_slope steepest.
Proof.
  intros HB HA Hx. destruct Adm as (Hn & HQ & HC & _ & HK). fold nu in Hn. fold C in HC. fold Q in HQ. pose proof (base_above x) as Hb.
  rewrite !slope_z. apply Rmult_lt_compat_l.
  - apply Rmult_lt_0_compat; [|apply Rinv_0_lt_compat, exp_pos]. apply Rmult_lt_0_compat; [|lra]. apply Rdiv_lt_0_compat; lra.
  - rewrite steepest_base. replace (C / (C * (1 + nu))) with (1 / (1 + nu)) by (field; lra). apply product_max; auto.
    + split; [apply Rdiv_lt_0_compat; lra|]. apply Rmult_lt_reg_r with (b x); [lra|]. unfold Rdiv. rewrite Rmult_assoc, Rinv_l by lra. lra.
    + intros E. apply Hx. unfold steepest.
      assert (Eb : b x = C * (1 + nu)). { apply (f_equal (fun t => t * b x * (1 + nu))) in E. field_simplify in E; [|lra|lra]. lra. }
      unfold b in Eb. assert (Ee : exp (- B * (x - offset p)) = C * nu / Q). { apply Rmult_eq_reg_l with Q; [|lra]. field_simplify; lra. }
      rewrite <- Ee, ln_exp. field. lra.
Qed.
End Slope.

Lemma glf_steepest p : glf_admissible p -> 0 < growth_rate p -> asymptote_left p < asymptote_right p ->
  exists m g, derivable_pt_lim (glf p) m g /\ 0 < g /\
    (forall x h, x <> m -> derivable_pt_lim (glf p) x h -> h < g) /\
    (1 < asymmetry p -> (asymptote_left p + glf_far_asymptote p) / 2 < glf p m) /\
    (asymmetry p = 1 -> glf p m = (asymptote_left p + glf_far_asymptote p) / 2) /\
    (asymmetry p < 1 -> glf p m < (asymptote_left p + glf_far_asymptote p) / 2).
Proof.
  intros Adm HB HA. exists (steepest p), (glf_slope p (steepest p)).
  assert (Hn : 0 < asymmetry p) by apply Adm. pose proof (steepest_value p Adm) as V. pose proof (steepest_height (asymmetry p) Hn) as (H1 & H2 & H3).
  assert (F : 0 < glf_far_asymptote p - asymptote_left p).
  { unfold glf_far_asymptote. pose proof (exp_pos (1 / asymmetry p * ln (denominator_offset p))) as X. fold (Rpower (denominator_offset p) (1 / asymmetry p)) in X.
    pose proof (Rdiv_lt_0_compat (asymptote_right p - asymptote_left p) _ ltac:(lra) X). lra. }
  split; [apply slope_lim; auto|]. split.
  - unfold glf_slope. rewrite (steepest_base p Adm), V. destruct Adm as (_ & _ & HC & _).
    assert (0 < Rpower (1 + asymmetry p) (- (1 / asymmetry p))) by apply exp_pos.
    replace (denominator_offset p / (denominator_offset p * (1 + asymmetry p))) with (1 / (1 + asymmetry p)) by (field; lra).
    apply Rmult_lt_0_compat; [apply Rmult_lt_0_compat; [apply Rdiv_lt_0_compat; lra|nra]|].
    replace (1 - 1 / (1 + asymmetry p)) with (asymmetry p / (1 + asymmetry p)) by (field; lra). apply Rdiv_lt_0_compat; lra.
  - split; [|rewrite V; repeat split; intros E].
    + intros x h N D. rewrite (uniqueness_limite _ _ _ _ D (slope_lim p Adm x)). apply slope_max; auto.
    + specialize (H1 E). nra.
    + rewrite (H3 E). lra.
    + specialize (H2 E). nra.
Qed.
Lemma glf_slope_formula p x : glf_admissible p ->
  derivable_pt_lim (glf p) x (growth_rate p / asymmetry p * (glf p x - asymptote_left p) *
    (1 - Rpower ((glf p x - asymptote_left p) / (glf_far_asymptote p - asymptote_left p)) (asymmetry p))).
Proof. intros Adm. rewrite <- slope_relative by auto. apply slope_lim; auto. Qed.
