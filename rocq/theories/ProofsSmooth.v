(** Proofs about the continuity of the occupations at a constant number of electrons. *)
From Coquelicot Require Import Coquelicot.
From Verif Require Import RPrelude Arr ModelSupport ModelTct ModelCsd ModelInstance ModelDefault SpecSupport SpecTct SpecCsd SpecOrder SpecInstance SpecQuant
  ProofsSupport ProofsTct ProofsOcc ProofsScan ProofsDefault ProofsQuant.
Local Open Scope R_scope.

(** ** The distribution functions *)
Lemma slope_below_one (f f' : R -> R) : (forall x, is_derive f x (f' x)) -> (forall x, 0 <= f' x <= 1) ->
  forall a b, Rabs (f a - f b) <= Rabs (a - b).
Proof.
  intros D B a b. destruct (MVT_gen f b a f') as (c & _ & E).
  - intros x _. apply D.
  - intros x _. apply derivable_continuous_pt. exists (f' x). apply is_derive_Reals, D.
  - rewrite E, Rabs_mult, (Rabs_pos_eq (f' c)) by apply B. specialize (B c). pose proof (Rabs_pos (a - b)). nra.
Qed.
Lemma tanh_lipschitz a b : Rabs (tanh a - tanh b) <= Rabs (a - b).
Proof.
  rewrite !tanh_exp.
  apply (slope_below_one (fun x => 1 - 2 / (exp (2 * x) + 1)) (fun x => 4 * exp (2 * x) / (exp (2 * x) + 1) ^ 2)); intros x; pose proof (exp_pos (2 * x)) as P.
  - auto_derive; [lra|]. field. lra.
  - assert (Q : 0 < (exp (2 * x) + 1) ^ 2) by (apply pow_lt; lra). split.
    + apply Rmult_le_pos; [lra|]. left. apply Rinv_0_lt_compat; auto.
    + apply Rmult_le_reg_r with ((exp (2 * x) + 1) ^ 2); auto. unfold Rdiv. rewrite Rmult_assoc, Rinv_l by lra.
      pose proof (pow2_ge_0 (exp (2 * x) - 1)). nra.
Qed.
Lemma atan_lipschitz a b : Rabs (atan a - atan b) <= Rabs (a - b).
Proof.
  apply (slope_below_one atan (fun x => / (1 + x ^ 2))); intros x.
  - apply is_derive_Reals. apply derivable_pt_lim_atan.
  - assert (0 <= x ^ 2) by nra. split; [left; apply Rinv_0_lt_compat; lra|]. rewrite <- Rinv_1. apply Rinv_le_contravar; lra.
Qed.

(** ** Sums and lengths *)
Lemma sum_close (f g : nat -> R) c n : (forall k, Rabs (f k - g k) <= c) ->
  Rabs (Rsum (map f (seq 0 n)) - Rsum (map g (seq 0 n))) <= INR n * c.
Proof.
  intros H. induction n as [|n IH]; [simpl; rewrite Rminus_0_r, Rabs_R0; lra|].
  rewrite seq_S, !map_app, !Rsum_app, S_INR. cbn [map Rsum Nat.add]. specialize (H n).
  replace (Rsum (map f (seq 0 n)) + (f n + 0) - (Rsum (map g (seq 0 n)) + (g n + 0)))
    with ((Rsum (map f (seq 0 n)) - Rsum (map g (seq 0 n))) + (f n - g n)) by ring.
  eapply Rle_trans; [apply Rabs_triang|]. lra.
Qed.
Lemma cross_bound u l p q : Rabs (cross (vec u l) (vec p q)) <= dist2 u l * dist2 p q.
Proof.
  unfold cross, vec, dist2. cbn [fst snd]. rewrite <- sqrt_mult by (apply Rplus_le_le_0_compat; apply pow2_ge_0). rewrite <- sqrt_Rsqr_abs. apply sqrt_le_1_alt. unfold Rsqr.
  pose proof (pow2_ge_0 ((fst l - fst u) * (fst q - fst p) + (snd l - snd u) * (snd q - snd p))). nra.
Qed.
Lemma beyond_close u l po k p q : cross (vec u l) (coupling_vector po) <> 0 ->
  Rabs (beyond u l po k p - beyond u l po k q) <= dist2 u l * dist2 p q / Rabs (cross (vec u l) (coupling_vector po)).
Proof.
  intros N. unfold beyond. set (D := cross (vec u l) (coupling_vector po)) in *.
  replace (cross (vec u l) (vec (peak_point po l k) p) / D - cross (vec u l) (vec (peak_point po l k) q) / D)
    with (cross (vec u l) (vec q p) * / D) by (unfold cross, vec; cbn [fst snd]; field; auto).
  rewrite Rabs_mult, Rabs_inv. apply Rmult_le_compat_r; [left; apply Rinv_0_lt_compat, Rabs_pos_lt; auto|].
  replace (dist2 p q) with (dist2 q p) by (unfold dist2; f_equal; ring). apply cross_bound.
Qed.

Section Smooth.
Context (label : arr2 nat -> arr2 nat) (params : list tct_params) (rot : R) (lut : option nat) (kind : cdf_kind) (gf : option R)
  (res res' : resolution) (d d' : csd_data) (a1 b1 a2 b2 a1' b1' a2' b2' : R) (v v' : point) (o o' : R * R) (lab lab' n : nat) (u l : point) (po : tct_params)
  (C : csd_config label params lut kind gf)
  (H : ideal_csd_geometric label params [a1; b1] [a2; b2] res rot lut kind gf = Ok d) (Px : scan_pixel d (a1, b1) (a2, b2) v o lab)
  (H' : ideal_csd_geometric label params [a1'; b1'] [a2'; b2'] res' rot lut kind gf = Ok d') (Px' : scan_pixel d' (a1', b1') (a2', b2') v' o' lab')
  (Sum : fst o + snd o = INR n) (Sum' : fst o' + snd o' = INR n) (Hn : (1 <= n)%nat)
  (I : interdot_line params n u l) (Ep : nth_error params (n - 1) = Some po)
  (G : 0 < gamma_of kind gf) (W : 1 / 100000000 * gamma_of kind gf * dist2 u l < Rabs (cross (vec u l) (coupling_vector po))).

Lemma coupling_nonzero : cross (vec u l) (coupling_vector po) <> 0.
Proof.
  intros E. rewrite E, Rabs_R0 in W. pose proof (sqrt_pos ((fst u - fst l)^2 + (snd u - snd l)^2)) as P. fold (dist2 u l) in P.
  assert (0 <= gamma_of kind gf * dist2 u l) by (apply Rmult_le_pos; lra). lra.
Qed.

Lemma smooth f (F : R -> R) c : cdf_of kind f -> (forall x x0 g, isclose0 g = false -> f x x0 g = F ((x - x0) / g)) -> 0 <= c ->
  (forall s t, Rabs (F s - F t) <= c * Rabs (s - t)) ->
  Rabs (fst o - fst o') <= INR n * (c * gamma_of kind gf) * (dist2 u l * dist2 v v' / Rabs (cross (vec u l) (coupling_vector po))) /\
  Rabs (snd o - snd o') <= INR n * (c * gamma_of kind gf) * (dist2 u l * dist2 v v' / Rabs (cross (vec u l) (coupling_vector po))).
Proof.
  intros Cf E Hc Lip.
  assert (A : Rabs (fst o - fst o') <= INR n * (c * gamma_of kind gf) * (dist2 u l * dist2 v v' / Rabs (cross (vec u l) (coupling_vector po)))).
  { rewrite (ProofsQuant.occupation_sum label params rot lut kind gf res d a1 b1 a2 b2 v o lab n u l po C H Px Sum Hn I Ep G W f F Cf E).
    rewrite (ProofsQuant.occupation_sum label params rot lut kind gf res' d' a1' b1' a2' b2' v' o' lab' n u l po C H' Px' Sum' Hn I Ep G W f F Cf E).
    rewrite Rmult_assoc. apply sum_close. intros k. eapply Rle_trans; [apply Lip|]. rewrite <- Rmult_minus_distr_l, Rabs_mult, (Rabs_pos_eq (gamma_of kind gf)) by lra.
    rewrite <- Rmult_assoc. apply Rmult_le_compat_l; [apply Rmult_le_pos; lra|].
    replace (dist2 v v') with (dist2 (tct_view rot v) (tct_view rot v')) by apply rotate_dist.
    apply beyond_close, coupling_nonzero. }
  split; [exact A|]. replace (snd o - snd o') with (- (fst o - fst o')) by lra. rewrite Rabs_Ropp. exact A.
Qed.

Lemma smooth_sigmoid : kind = Sigmoid ->
  Rabs (fst o - fst o') <= INR n * (gamma_of kind gf / 2) * (dist2 u l * dist2 v v' / Rabs (cross (vec u l) (coupling_vector po))) /\
  Rabs (snd o - snd o') <= INR n * (gamma_of kind gf / 2) * (dist2 u l * dist2 v v' / Rabs (cross (vec u l) (coupling_vector po))).
Proof.
  intros K. replace (gamma_of kind gf / 2) with (1/2 * gamma_of kind gf) by lra.
  apply (smooth sigmoid_cdf (fun t => 1/2 * (1 + tanh t))); [left; auto|intros x x0 g Hg; unfold sigmoid_cdf; rewrite Hg; reflexivity|lra|].
  intros s t. replace (1/2 * (1 + tanh s) - 1/2 * (1 + tanh t)) with (1/2 * (tanh s - tanh t)) by ring.
  rewrite Rabs_mult, (Rabs_pos_eq (1/2)) by lra. apply Rmult_le_compat_l; [lra|apply tanh_lipschitz].
Qed.
Lemma smooth_cauchy : kind = Cauchy ->
  Rabs (fst o - fst o') <= INR n * (gamma_of kind gf / PI) * (dist2 u l * dist2 v v' / Rabs (cross (vec u l) (coupling_vector po))) /\
  Rabs (snd o - snd o') <= INR n * (gamma_of kind gf / PI) * (dist2 u l * dist2 v v' / Rabs (cross (vec u l) (coupling_vector po))).
Proof.
  intros K. pose proof PI_RGT_0 as PI0. assert (PP : 0 < 1 / PI) by (apply Rdiv_lt_0_compat; lra).
  replace (gamma_of kind gf / PI) with (1 / PI * gamma_of kind gf) by (field; lra).
  apply (smooth cauchy_cdf (fun t => 1 / PI * atan t + 1/2)); [right; auto|intros x x0 g Hg; unfold cauchy_cdf; rewrite Hg; reflexivity|lra|].
  intros s t. replace (1 / PI * atan s + 1/2 - (1 / PI * atan t + 1/2)) with (1 / PI * (atan s - atan t)) by ring.
  rewrite Rabs_mult, (Rabs_pos_eq (1 / PI)) by lra. apply Rmult_le_compat_l; [lra|apply atan_lipschitz].
Qed.
End Smooth.

(** ** The default configuration *)
Lemma octagon x y : sqrt (x ^ 2 + y ^ 2) <= Rabs y + 415/1000 * Rabs x \/ Rabs y < Rabs x.
Proof.
  destruct (Rle_lt_dec (Rabs x) (Rabs y)) as [L|L]; [left|right; auto].
  pose proof (Rabs_pos x). pose proof (Rabs_pos y).
  rewrite <- (sqrt_pow2 (Rabs y + 415/1000 * Rabs x)) by lra. apply sqrt_le_1_alt.
  rewrite <- (pow2_abs x), <- (pow2_abs y). nra.
Qed.
Lemma default_steepness n u l po : (1 <= n)%nat -> interdot_line default_tcts n u l -> nth_error default_tcts (n - 1) = Some po ->
  INR n * (22/10 / 2) * dist2 u l <= 3050 * Rabs (cross (vec u l) (coupling_vector po)).
Proof.
  intros Hn (pu & cu & po' & Eu & Cu & -> & Eo & Co) Ep. rewrite Eo in Ep. injection Ep as ->.
  assert (Hn' : (n < 14)%nat) by (change 14%nat with (length default_tcts); apply nth_error_Some; congruence).
  assert (Main : forall x y, x = fst l - (fst cu + len_right pu) -> y = snd l - (snd cu + len_right pu * slope_right pu) ->
    let D := x * (end_y po - start_y po) - y * (end_x po - start_x po) in
    0 < D /\ y <= x /\ x <= 0 /\ INR n * (22/10 / 2) * (- y + 415/1000 * (- x)) <= 3050 * D).
  { destruct cu as [cx cy], l as [lx ly]. unfold default_tcts in *.
    destruct n as [|[|[|[|[|[|[|[|[|[|[|[|[|[|n]]]]]]]]]]]]]]; try (exfalso; lia).
    all: cbn [nth_error Nat.sub] in Eu, Eo; injection Eu as <-; injection Eo as <-.
    all: destruct Cu as [C1 C2], Co as [C3 C4]; numbers; intros x y Ex Ey; cbn zeta.
    all: rewrite INR_IZR_INZ; simpl IZR; repeat split; lra. }
  destruct (Main _ _ eq_refl eq_refl) as (M1 & M2 & M3 & M4). cbn zeta in M1, M4. clear Main.
  unfold dist2, cross, vec, coupling_vector. cbn [fst snd].
  set (x := fst l - (fst cu + len_right pu)) in *. set (y := snd l - (snd cu + len_right pu * slope_right pu)) in *.
  set (D := x * (end_y po - start_y po) - y * (end_x po - start_x po)) in *.
  rewrite Rabs_pos_eq by lra. replace (fst cu + len_right pu - fst l) with (- x) by (unfold x; ring).
  replace (snd cu + len_right pu * slope_right pu - snd l) with (- y) by (unfold y; ring).
  destruct (octagon (- x) (- y)) as [Q|Q]; rewrite !Rabs_pos_eq in Q by lra; [|lra].
  eapply Rle_trans; [|exact M4]. apply Rmult_le_compat_l; [|exact Q]. pose proof (pos_INR n). lra.
Qed.
Lemma default_line n : (1 <= n < 14)%nat -> exists u l po, interdot_line default_tcts n u l /\ nth_error default_tcts (n - 1) = Some po.
Proof.
  intros Hn. assert (Sl : forall k p, nth_error default_tcts k = Some p -> slope_right p < slope_left p).
  { intros k p E. unfold default_tcts in E. destruct k as [|[|[|[|[|[|[|[|[|[|[|[|[|[|k]]]]]]]]]]]]]]; cbn [nth_error] in E; try (injection E as <-; numbers; lra).
    destruct k; discriminate. }
  destruct (nth_error default_tcts n) as [pu|] eqn:Eu; [|apply nth_error_None in Eu; simpl in Eu; lia].
  destruct (nth_error default_tcts (n - 1)) as [po|] eqn:Eo; [|apply nth_error_None in Eo; simpl in Eo; lia].
  destruct (corner_exists pu (Sl _ _ Eu)) as [cu Cu]. destruct (corner_exists po (Sl _ _ Eo)) as [l Co].
  exists (fst cu + len_right pu, snd cu + len_right pu * slope_right pu), l, po. split; auto. exists pu, cu, po. repeat split; auto; apply Cu || apply Co.
Qed.
Lemma default_smooth label res res' d d' a1 b1 a2 b2 a1' b1' a2' b2' v v' o o' lab lab' :
  (forall x, is_labelling x (label x)) ->
  ideal_csd_geometric label default_tcts [a1; b1] [a2; b2] res (- (PI / 4)) (Some 1000%nat) Sigmoid None = Ok d -> scan_pixel d (a1, b1) (a2, b2) v o lab ->
  ideal_csd_geometric label default_tcts [a1'; b1'] [a2'; b2'] res' (- (PI / 4)) (Some 1000%nat) Sigmoid None = Ok d' -> scan_pixel d' (a1', b1') (a2', b2') v' o' lab' ->
  fst o + snd o = fst o' + snd o' ->
  Rabs (fst o - fst o') <= 3050 * dist2 v v' /\ Rabs (snd o - snd o') <= 3050 * dist2 v v'.
Proof.
  intros Lab H Px H' Px' Eq. assert (C : csd_config label default_tcts (Some 1000%nat) Sigmoid None) by exact (default_config label Lab).
  assert (D0 : 0 <= dist2 v v') by apply sqrt_pos.
  destruct (scan_total _ _ _ _ _ _ _ _ _ _ _ _ _ _ _ _ _ C eq_refl eq_refl H Px) as (n & Hn & _ & Sn).
  destruct n as [|n].
  - destruct (scan_bounds _ _ _ _ _ _ _ _ _ _ _ _ _ _ _ _ _ C eq_refl eq_refl H Px).
    destruct (scan_bounds _ _ _ _ _ _ _ _ _ _ _ _ _ _ _ _ _ C eq_refl eq_refl H' Px'). simpl in Sn.
    split; apply Rabs_le; lra.
  - destruct (default_line (S n) ltac:(change (length default_tcts) with 14%nat in Hn; lia)) as (u & l & po & I & Ep).
    destruct (default_pitch (S n) u l po ltac:(lia) I Ep) as [_ W].
    pose proof (default_steepness (S n) u l po ltac:(lia) I Ep) as St.
    pose proof (smooth_sigmoid label default_tcts _ _ Sigmoid None res res' d d' a1 b1 a2 b2 a1' b1' a2' b2' v v' o o' lab lab' (S n) u l po
      C H Px H' Px' Sn ltac:(lra) ltac:(lia) I Ep ltac:(simpl; lra) W eq_refl) as Q.
    pose proof (coupling_nonzero Sigmoid None u l po ltac:(simpl; lra) W) as N0. apply Rabs_pos_lt in N0.
    cut (INR (S n) * (gamma_of Sigmoid None / 2) * (dist2 u l * dist2 v v' / Rabs (cross (vec u l) (coupling_vector po))) <= 3050 * dist2 v v'); [intros; lra|].
    cbn [gamma_of]. set (D := Rabs (cross (vec u l) (coupling_vector po))) in *.
    apply Rmult_le_reg_r with D; [exact N0|].
    replace (INR (S n) * (22 / 10 / 2) * (dist2 u l * dist2 v v' / D) * D) with (INR (S n) * (22 / 10 / 2) * dist2 u l * dist2 v v') by (field; lra).
    replace (3050 * dist2 v v' * D) with (3050 * D * dist2 v v') by ring. apply Rmult_le_compat_r; auto.
Qed.
