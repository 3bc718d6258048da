(** Proofs about the support functions. *)
From Verif Require Import RPrelude ModelSupport SpecSupport.
Local Open Scope R_scope.

(** ** CDFs *)
Lemma tanh_exp x : tanh x = 1 - 2 / (exp (2 * x) + 1).
Proof.
  unfold tanh, sinh, cosh.
  assert (H : exp (2 * x) = exp x * exp x) by (rewrite <- exp_plus; f_equal; lra).
  rewrite H, exp_Ropp.
  pose proof (exp_pos x) as P.
  field. repeat split; nra.
Qed.

Lemma tanh_bound x : -1 < tanh x < 1.
Proof.
  rewrite tanh_exp. pose proof (exp_pos (2 * x)) as P.
  assert (0 < 2 / (exp (2 * x) + 1)) by (apply Rdiv_lt_0_compat; lra).
  assert (2 / (exp (2 * x) + 1) < 2).
  { apply Rmult_lt_reg_r with (exp (2*x) + 1); [lra|].
    unfold Rdiv; rewrite Rmult_assoc, Rinv_l by lra. lra. }
  lra.
Qed.

Lemma tanh_increasing x y : x < y -> tanh x < tanh y.
Proof.
  intros H. rewrite !tanh_exp.
  pose proof (exp_pos (2 * x)) as P. pose proof (exp_increasing (2*x) (2*y) ltac:(lra)) as Q.
  assert (2 / (exp (2 * y) + 1) < 2 / (exp (2 * x) + 1)); [|lra].
  unfold Rdiv. apply Rmult_lt_compat_l; [lra|]. apply Rinv_lt_contravar; [|lra].
  apply Rmult_lt_0_compat; lra.
Qed.

Lemma tanh_odd x : tanh (- x) = - tanh x.
Proof.
  unfold tanh, sinh, cosh. rewrite Ropp_involutive.
  pose proof (exp_pos x). pose proof (exp_pos (-x)). field. lra.
Qed.

Lemma tanh_0' : tanh 0 = 0.
Proof. unfold tanh. rewrite sinh_0. unfold Rdiv. ring. Qed.

Lemma step_cdf_bound x x0 : 0 <= step_cdf x x0 <= 1.
Proof. unfold step_cdf. destruct (Rltb_spec 0 (x - x0)), (Rltb_spec (x - x0) 0); lra. Qed.

Lemma step_cdf_mono x y x0 : x <= y -> step_cdf x x0 <= step_cdf y x0.
Proof.
  intros H; unfold step_cdf.
  destruct (Rltb_spec 0 (x - x0)), (Rltb_spec (x - x0) 0), (Rltb_spec 0 (y - x0)), (Rltb_spec (y - x0) 0); lra.
Qed.

Lemma isclose0_spec g : reflect (Rabs g <= 1 / 100000000) (isclose0 g).
Proof. apply Rleb_spec. Qed.

Lemma isclose0_0 : isclose0 0 = true.
Proof. unfold isclose0; apply Rleb_true; rewrite Rabs_R0; lra. Qed.

Lemma not_close_neq g : isclose0 g = false -> g <> 0.
Proof. intros H ->. rewrite isclose0_0 in H; discriminate. Qed.

Lemma sigmoid_cdf_bound x x0 g : 0 <= sigmoid_cdf x x0 g <= 1.
Proof.
  unfold sigmoid_cdf. destruct (isclose0 g); [apply step_cdf_bound|].
  pose proof (tanh_bound ((x - x0) / g)); lra.
Qed.

Lemma atan_PI_bound x : -1/2 < 1 / PI * atan x < 1/2.
Proof.
  pose proof (atan_bound x) as [H1 H2]. pose proof PI_RGT_0 as HP.
  assert (E : PI * (1 / PI * atan x) = atan x) by (field; lra).
  split; apply Rmult_lt_reg_l with PI; auto; rewrite E; lra.
Qed.

Lemma cauchy_cdf_bound x x0 g : 0 <= cauchy_cdf x x0 g <= 1.
Proof.
  unfold cauchy_cdf. destruct (isclose0 g); [apply step_cdf_bound|].
  pose proof (atan_PI_bound ((x - x0) / g)); lra.
Qed.

Lemma div_le_mono x y g : 0 < g -> x <= y -> x / g <= y / g.
Proof. intros; unfold Rdiv; apply Rmult_le_compat_r; auto. left; apply Rinv_0_lt_compat; auto. Qed.
Lemma div_lt_mono x y g : 0 < g -> x < y -> x / g < y / g.
Proof. intros; unfold Rdiv; apply Rmult_lt_compat_r; auto. apply Rinv_0_lt_compat; auto. Qed.

(** a width that counts as non-negative: the code treats |g| <= 1e-8 as zero. *)
Lemma width_pos g : - (1 / 100000000) <= g -> isclose0 g = false -> 0 < g.
Proof.
  intros H Hc. destruct (isclose0_spec g) as [|Hn]; [discriminate|].
  apply Rnot_le_lt in Hn. unfold Rabs in Hn. destruct (Rcase_abs g); lra.
Qed.

Lemma sigmoid_cdf_mono x y x0 g :
  - (1 / 100000000) <= g -> x <= y -> sigmoid_cdf x x0 g <= sigmoid_cdf y x0 g.
Proof.
  intros Hg H. unfold sigmoid_cdf. destruct (isclose0 g) eqn:E; [apply step_cdf_mono; auto|].
  pose proof (width_pos _ Hg E) as Hp.
  destruct (Req_dec x y) as [->|Hn]; [lra|].
  pose proof (tanh_increasing ((x - x0) / g) ((y - x0) / g)) as T.
  assert ((x - x0) / g < (y - x0) / g) by (apply div_lt_mono; lra). specialize (T H0). lra.
Qed.

Lemma cauchy_cdf_mono x y x0 g :
  - (1 / 100000000) <= g -> x <= y -> cauchy_cdf x x0 g <= cauchy_cdf y x0 g.
Proof.
  intros Hg H. unfold cauchy_cdf. destruct (isclose0 g) eqn:E; [apply step_cdf_mono; auto|].
  pose proof (width_pos _ Hg E) as Hp.
  destruct (Req_dec x y) as [->|Hn]; [lra|].
  assert (L : (x - x0) / g < (y - x0) / g) by (apply div_lt_mono; lra).
  apply atan_increasing in L. pose proof PI_RGT_0.
  assert (0 < 1 / PI) by (apply Rdiv_lt_0_compat; lra). nra.
Qed.

Lemma sigmoid_cdf_sym x0 d g : isclose0 g = false -> sigmoid_cdf (x0 + d) x0 g + sigmoid_cdf (x0 - d) x0 g = 1.
Proof.
  intros E. unfold sigmoid_cdf; rewrite E. pose proof (not_close_neq _ E).
  replace ((x0 - d - x0) / g) with (- ((x0 + d - x0) / g)) by (field; auto).
  rewrite tanh_odd. lra.
Qed.
Lemma cauchy_cdf_sym x0 d g : isclose0 g = false -> cauchy_cdf (x0 + d) x0 g + cauchy_cdf (x0 - d) x0 g = 1.
Proof.
  intros E. unfold cauchy_cdf; rewrite E. pose proof (not_close_neq _ E).
  replace ((x0 - d - x0) / g) with (- ((x0 + d - x0) / g)) by (field; auto).
  rewrite atan_opp. lra.
Qed.
Lemma step_cdf_sym x0 d : d <> 0 -> step_cdf (x0 + d) x0 + step_cdf (x0 - d) x0 = 1.
Proof.
  intros E. unfold step_cdf.
  destruct (Rltb_spec 0 (x0 + d - x0)), (Rltb_spec (x0 + d - x0) 0),
           (Rltb_spec 0 (x0 - d - x0)), (Rltb_spec (x0 - d - x0) 0); lra.
Qed.

Lemma sum_cdf_bound f x :
  (forall x0 g, 0 <= f x x0 g <= 1) ->
  forall n params, length params = (2 * n)%nat -> 0 <= sum_cdf f x params <= INR n.
Proof.
  intros Hf n; induction n as [|n IH]; intros params Hl.
  - destruct params; [simpl; lra| simpl in Hl; discriminate].
  - destruct params as [|a [|b rest]]; simpl in Hl; try lia.
    cbn [sum_cdf]. rewrite S_INR. specialize (Hf a b).
    assert (length rest = (2 * n)%nat) by lia. specialize (IH _ H). lra.
Qed.

(** the widths of a flat parameter list [x0; g0; x1; g1; ...] *)
Fixpoint widths (params : list R) : list R :=
  match params with _ :: g :: rest => g :: widths rest | _ => [] end.

Lemma sum_cdf_mono f x y :
  x <= y ->
  (forall x0 g, - (1 / 100000000) <= g -> f x x0 g <= f y x0 g) ->
  forall n params, length params = (2 * n)%nat ->
  (forall g, In g (widths params) -> - (1 / 100000000) <= g) ->
  sum_cdf f x params <= sum_cdf f y params.
Proof.
  intros Hxy Hf n; induction n as [|n IH]; intros params Hl Hw.
  - destruct params; [simpl; lra| simpl in Hl; discriminate].
  - destruct params as [|a [|b rest]]; simpl in Hl; try lia.
    cbn [sum_cdf].
    assert (length rest = (2 * n)%nat) by lia.
    assert (f x a b <= f y a b) by (apply Hf; apply Hw; simpl; auto).
    assert (sum_cdf f x rest <= sum_cdf f y rest); [|lra].
    apply IH; auto. intros g Hg; apply Hw; simpl; auto.
Qed.

(** ** GLF *)
Lemma Rpower_pos x y : 0 < Rpower x y.
Proof. unfold Rpower; apply exp_pos. Qed.

Lemma Rpower_inv_exponent x nu : 0 < x -> nu <> 0 -> Rpower (Rpower x (1 / nu)) nu = x.
Proof.
  intros Hx Hn. rewrite Rpower_mult. replace (1 / nu * nu) with 1 by (field; auto). apply Rpower_1; auto.
Qed.
Lemma Rpower_inv_exponent' x nu : 0 < x -> nu <> 0 -> Rpower (Rpower x nu) (1 / nu) = x.
Proof.
  intros Hx Hn. rewrite Rpower_mult. replace (nu * (1 / nu)) with 1 by (field; auto). apply Rpower_1; auto.
Qed.

Section GLF.
Variable p : glf_params.
Hypothesis Hadm : glf_admissible p.
Notation A := (asymptote_left p). Notation K := (asymptote_right p). Notation B := (growth_rate p).
Notation nu := (asymmetry p). Notation Q := (shape_factor p). Notation C := (denominator_offset p).
Notation o := (offset p).

Definition glf_base (x : R) : R := C + Q * exp (- B * (x - o)).

Lemma glf_base_pos x : 0 < glf_base x.
Proof.
  destruct Hadm as (H1 & H2 & H3 & H4 & H5). unfold glf_base.
  pose proof (exp_pos (- B * (x - o))). nra.
Qed.

Lemma glf_unfold x : glf p x = A + (K - A) / Rpower (glf_base x) (1 / nu).
Proof. reflexivity. Qed.

Lemma inverse_glf_glf_l x : inverse_glf p (glf p x) = x.
Proof.
  pose proof (glf_base_pos x) as HB.
  destruct Hadm as (H1 & H2 & H3 & H4 & H5).
  unfold inverse_glf. rewrite glf_unfold.
  pose proof (Rpower_pos (glf_base x) (1 / nu)) as HP.
  replace ((A - K) / (A - (A + (K - A) / Rpower (glf_base x) (1 / nu))))
     with (Rpower (glf_base x) (1 / nu)) by (field; lra).
  rewrite Rpower_inv_exponent by lra.
  unfold glf_base.
  replace ((C + Q * exp (- B * (x - o)) - C) / Q) with (exp (- B * (x - o))) by (field; lra).
  rewrite ln_exp. field; auto.
Qed.

Lemma glf_ratio v : strictly_between A (glf_far_asymptote p) v ->
  0 < (A - K) / (A - v) /\ C < Rpower ((A - K) / (A - v)) nu.
Proof.
  destruct Hadm as (H1 & H2 & H3 & H4 & H5).
  unfold strictly_between, glf_far_asymptote. intros Hv.
  pose proof (Rpower_pos C (1 / nu)) as HP. set (c := Rpower C (1 / nu)) in *.
  assert (Hc : c < (A - K) / (A - v)).
  { assert (Hd : (K - A) / c * c = K - A) by (field; lra).
    set (d := (K - A) / c) in *.
    destruct Hv as [Hv|Hv].
    - replace ((A - K) / (A - v)) with ((K - A) / (v - A)) by (field; lra).
      apply Rmult_lt_reg_r with (v - A); [lra|]. unfold Rdiv; rewrite Rmult_assoc, Rinv_l by lra. nra.
    - apply Rmult_lt_reg_r with (A - v); [lra|]. unfold Rdiv; rewrite Rmult_assoc, Rinv_l by lra. nra. }
  split; [lra|].
  replace C with (Rpower c nu) at 1 by (unfold c; apply Rpower_inv_exponent; lra).
  unfold Rpower. apply exp_increasing. apply Rmult_lt_compat_l; auto. apply ln_increasing; lra.
Qed.

Lemma glf_inverse_glf_l v : strictly_between A (glf_far_asymptote p) v -> glf p (inverse_glf p v) = v.
Proof.
  intros Hv. destruct (glf_ratio v Hv) as [Hr HrC].
  destruct Hadm as (H1 & H2 & H3 & H4 & H5).
  rewrite glf_unfold. unfold glf_base, inverse_glf.
  set (r := (A - K) / (A - v)) in *.
  replace (- B * ((B * o - ln ((Rpower r nu - C) / Q)) / B - o)) with (ln ((Rpower r nu - C) / Q))
    by (field; auto).
  assert (0 < (Rpower r nu - C) / Q) by (apply Rdiv_lt_0_compat; lra).
  rewrite exp_ln by auto.
  replace (C + Q * ((Rpower r nu - C) / Q)) with (Rpower r nu) by (field; lra).
  rewrite Rpower_inv_exponent' by lra.
  assert (A - v <> 0) by (destruct Hv; lra).
  unfold r. field. split; lra.
Qed.

Lemma glf_base_mono x y : B * x < B * y -> glf_base y < glf_base x.
Proof.
  intros H. destruct Hadm as (H1 & H2 & H3 & H4 & H5). unfold glf_base.
  assert (exp (- B * (y - o)) < exp (- B * (x - o))) by (apply exp_increasing; nra). nra.
Qed.

Lemma Rpower_lt_base a b e : 0 < a -> 0 < e -> a < b -> Rpower a e < Rpower b e.
Proof.
  intros; unfold Rpower; apply exp_increasing; apply Rmult_lt_compat_l; auto; apply ln_increasing; auto.
Qed.

Lemma inv_nu_pos : 0 < 1 / nu.
Proof. destruct Hadm as (H1 & _). apply Rdiv_lt_0_compat; lra. Qed.

Lemma glf_mono_l x y : A < K -> B * x < B * y -> glf p x < glf p y.
Proof.
  intros HA H. rewrite !glf_unfold.
  pose proof (Rpower_lt_base _ _ (1/nu) (glf_base_pos y) inv_nu_pos (glf_base_mono _ _ H)) as L.
  pose proof (Rpower_pos (glf_base y) (1/nu)).
  assert ((K - A) / Rpower (glf_base x) (1 / nu) < (K - A) / Rpower (glf_base y) (1 / nu)); [|lra].
  unfold Rdiv; apply Rmult_lt_compat_l; [lra|]. apply Rinv_lt_contravar; auto.
  apply Rmult_lt_0_compat; lra.
Qed.

Lemma glf_mono_r x y : K < A -> B * x < B * y -> glf p y < glf p x.
Proof.
  intros HA H. rewrite !glf_unfold.
  pose proof (Rpower_lt_base _ _ (1/nu) (glf_base_pos y) inv_nu_pos (glf_base_mono _ _ H)) as L.
  pose proof (Rpower_pos (glf_base y) (1/nu)).
  assert (/ Rpower (glf_base x) (1 / nu) < / Rpower (glf_base y) (1 / nu)).
  { apply Rinv_lt_contravar; auto. apply Rmult_lt_0_compat; lra. }
  unfold Rdiv. nra.
Qed.

Lemma glf_bound x : strictly_between A (glf_far_asymptote p) (glf p x).
Proof.
  rewrite glf_unfold. unfold strictly_between, glf_far_asymptote.
  pose proof (glf_base_pos x) as Hb.
  assert (Hc : C < glf_base x).
  { destruct Hadm as (H1 & H2 & H3 & H4 & H5). unfold glf_base. pose proof (exp_pos (- B * (x - o))). nra. }
  assert (HC : 0 < C) by (destruct Hadm as (H1 & H2 & H3 & H4 & H5); auto).
  pose proof (Rpower_lt_base _ _ (1/nu) HC inv_nu_pos Hc) as L.
  pose proof (Rpower_pos C (1/nu)) as P1.
  assert (I : / Rpower (glf_base x) (1 / nu) < / Rpower C (1 / nu)).
  { apply Rinv_lt_contravar; auto. apply Rmult_lt_0_compat; lra. }
  assert (0 < / Rpower (glf_base x) (1 / nu)) by (apply Rinv_0_lt_compat; lra).
  destruct Hadm as (H1 & H2 & H3 & H4 & H5). unfold Rdiv.
  destruct (Rtotal_order A K) as [HA|[HA|HA]]; [left|tauto|right]; split; nra.
Qed.
End GLF.

Lemma glf_far_asymptote_1 p : denominator_offset p = 1 -> glf_far_asymptote p = asymptote_right p.
Proof.
  intros H; unfold glf_far_asymptote; rewrite H. unfold Rpower at 1. rewrite ln_1, Rmult_0_r, exp_0. field.
Qed.

(** ** Rotation *)
Lemma rotate_dist a p q : dist2 (rotate_point a p) (rotate_point a q) = dist2 p q.
Proof.
  unfold dist2, rotate_point; simpl. f_equal.
  pose proof (sin2_cos2 a) as H; unfold Rsqr in H.
  set (s := sin a) in *; set (c := cos a) in *.
  transitivity ((s*s+c*c) * ((fst p - fst q) * ((fst p - fst q) * 1) + (snd p - snd q) * ((snd p - snd q) * 1))).
  - ring.
  - rewrite H; ring.
Qed.

Lemma rotate_compose a b p : rotate_point b (rotate_point a p) = rotate_point (a + b) p.
Proof.
  unfold rotate_point; simpl. rewrite cos_plus, sin_plus. f_equal; ring.
Qed.

Lemma rotate_zero p : rotate_point 0 p = p.
Proof. unfold rotate_point; rewrite cos_0, sin_0; destruct p; simpl; f_equal; ring. Qed.

Lemma rotate_inverse a p : rotate_point (- a) (rotate_point a p) = p.
Proof. rewrite rotate_compose. replace (a + - a) with 0 by ring. apply rotate_zero. Qed.

(** ** Signed distance *)
Lemma norm_pos (l0 l1 : point) : l0 <> l1 -> 0 < (fst l1 - fst l0)^2 + (snd l1 - snd l0)^2.
Proof.
  intros H. destruct l0 as [a b], l1 as [c d]; simpl.
  destruct (Req_dec a c) as [->|Hn].
  - destruct (Req_dec b d) as [->|Hn]; [tauto|]. assert (0 < (d - b)^2) by (apply sqr_pos; intro; apply Hn; lra). pose proof (pow2_ge_0 (d - d)). lra.
  - assert (0 < (c - a)^2) by (apply sqr_pos; intro; apply Hn; lra). pose proof (pow2_ge_0 (d - b)). lra.
Qed.

Lemma sqrt_norm_pos (l0 l1 : point) : l0 <> l1 -> 0 < sqrt ((fst l1 - fst l0)^2 + (snd l1 - snd l0)^2).
Proof. intros H; apply sqrt_lt_R0, norm_pos, H. Qed.

Lemma dist2_nonneg p q : 0 <= dist2 p q.
Proof. apply sqrt_pos. Qed.

(** Pythagoras for the foot point. *)
Lemma signed_dist_pythagoras p l0 l1 t :
  l0 <> l1 ->
  let n2 := (fst l1 - fst l0)^2 + (snd l1 - snd l0)^2 in
  let t0 := ((fst p - fst l0) * (fst l1 - fst l0) + (snd p - snd l0) * (snd l1 - snd l0)) / n2 in
  (fst p - (fst l0 + t * (fst l1 - fst l0)))^2 + (snd p - (snd l0 + t * (snd l1 - snd l0)))^2
  = (signed_dist p l0 l1)^2 + n2 * (t - t0)^2.
Proof.
  intros H n2 t0. pose proof (norm_pos _ _ H) as Hn. fold n2 in Hn.
  unfold signed_dist. fold n2. pose proof (sqrt_norm_pos _ _ H) as Hs. fold n2 in Hs.
  pose proof (sqrt_sqrt n2 ltac:(lra)) as E.
  set (X := fst l1 - fst l0) in *. set (Y := snd l1 - snd l0) in *.
  set (U := fst p - fst l0) in *. set (V := snd p - snd l0) in *.
  replace (fst p - (fst l0 + t * X)) with (U - t * X) by (unfold U; ring).
  replace (snd p - (snd l0 + t * Y)) with (V - t * Y) by (unfold V; ring).
  replace ((- (X * V - Y * U) / sqrt n2)^2) with ((X * V - Y * U)^2 / (sqrt n2 * sqrt n2)) by (field; lra).
  rewrite E. unfold t0, n2. field. unfold n2 in Hn. lra.
Qed.

Lemma signed_dist_min p l0 l1 q : l0 <> l1 -> on_line_through l0 l1 q -> Rabs (signed_dist p l0 l1) <= dist2 p q.
Proof.
  intros H [t ->]. unfold dist2; simpl fst; simpl snd.
  rewrite <- sqrt_Rsqr_abs. apply sqrt_le_1_alt.
  pose proof (signed_dist_pythagoras p l0 l1 t H) as E. simpl in E.
  unfold Rsqr. simpl pow in *. rewrite E.
  pose proof (norm_pos _ _ H) as Hn. simpl pow in Hn.
  set (t0 := t - _). pose proof (Rle_0_sqr t0). unfold Rsqr in *. nra.
Qed.

Lemma signed_dist_attained p l0 l1 : l0 <> l1 ->
  exists q, on_line_through l0 l1 q /\ dist2 p q = Rabs (signed_dist p l0 l1).
Proof.
  intros H. pose (n2 := (fst l1 - fst l0)^2 + (snd l1 - snd l0)^2).
  pose (t0 := ((fst p - fst l0) * (fst l1 - fst l0) + (snd p - snd l0) * (snd l1 - snd l0)) / n2).
  exists (fst l0 + t0 * (fst l1 - fst l0), snd l0 + t0 * (snd l1 - snd l0)).
  split; [exists t0; reflexivity|].
  unfold dist2; simpl fst; simpl snd. rewrite <- sqrt_Rsqr_abs. f_equal.
  pose proof (signed_dist_pythagoras p l0 l1 t0 H) as E. cbv zeta in E. fold n2 in E. fold t0 in E.
  rewrite E. unfold Rsqr. ring.
Qed.

Lemma signed_dist_sign p l0 l1 : l0 <> l1 -> (0 < signed_dist p l0 l1 <-> right_of l0 l1 p).
Proof.
  intros H. unfold signed_dist, right_of. pose proof (sqrt_norm_pos _ _ H) as Hs.
  set (s := sqrt _) in *. set (c := (fst l1 - fst l0) * _ - _).
  split; intros L.
  - assert (0 < - c). { replace (- c) with (- c / s * s) by (field; lra). nra. }
    unfold c in *; lra.
  - apply Rdiv_lt_0_compat; unfold c; lra.
Qed.

Lemma signed_dist_swap p l0 l1 : signed_dist p l1 l0 = - signed_dist p l0 l1.
Proof.
  unfold signed_dist.
  replace ((fst l0 - fst l1)^2 + (snd l0 - snd l1)^2) with ((fst l1 - fst l0)^2 + (snd l1 - snd l0)^2) by ring.
  unfold Rdiv. rewrite <- Ropp_mult_distr_l_reverse. f_equal. ring.
Qed.

Lemma signed_dist_zero p l0 l1 : l0 <> l1 -> (signed_dist p l0 l1 = 0 <-> on_line_through l0 l1 p).
Proof.
  intros H. split.
  - intros E. destruct (signed_dist_attained p l0 l1 H) as [q [Hq D]].
    rewrite E, Rabs_R0 in D. unfold dist2 in D.
    pose proof (pow2_ge_0 (fst p - fst q)) as N1. pose proof (pow2_ge_0 (snd p - snd q)) as N2.
    apply sqrt_eq_0 in D; [|lra].
    assert (fst p - fst q = 0 /\ snd p - snd q = 0) as [E1 E2]
      by (split; apply Rsqr_eq_0; rewrite Rsqr_pow2; lra).
    destruct Hq as [t Ht]. exists t. rewrite <- Ht. destruct p, q; simpl in *; f_equal; lra.
  - intros Ho. pose proof (signed_dist_min p l0 l1 p H Ho) as L.
    unfold dist2 in L. replace ((fst p - fst p)^2 + (snd p - snd p)^2) with 0 in L by ring.
    rewrite sqrt_0 in L. unfold Rabs in L. destruct (Rcase_abs _); lra.
Qed.

Lemma signed_dist_rotate a p l0 l1 :
  signed_dist (rotate_point a p) (rotate_point a l0) (rotate_point a l1) = signed_dist p l0 l1.
Proof.
  pose proof (sin2_cos2 a) as H; unfold Rsqr in H.
  unfold signed_dist, rotate_point; simpl fst; simpl snd.
  set (s := sin a) in *; set (c := cos a) in *.
  assert (E : forall x y, (s*s+c*c) * x = y -> x = y) by (intros; rewrite H in *; lra).
  unfold Rdiv; apply f_equal2.
  - symmetry; apply E; ring.
  - apply (f_equal Rinv), (f_equal sqrt). symmetry; apply E; ring.
Qed.

(** the distance only depends on the line, not on the two points spanning it (same direction) *)
Lemma signed_dist_reparam p l0 l1 s t :
  s < t -> l0 <> l1 ->
  signed_dist p (fst l0 + s * (fst l1 - fst l0), snd l0 + s * (snd l1 - snd l0))
                (fst l0 + t * (fst l1 - fst l0), snd l0 + t * (snd l1 - snd l0)) = signed_dist p l0 l1.
Proof.
  intros Hst H. pose proof (sqrt_norm_pos _ _ H) as Hs.
  unfold signed_dist; simpl fst; simpl snd.
  set (X := fst l1 - fst l0) in *. set (Y := snd l1 - snd l0) in *.
  replace ((fst l0 + t * X - (fst l0 + s * X))^2 + (snd l0 + t * Y - (snd l0 + s * Y))^2)
    with ((t - s)^2 * (X^2 + Y^2)) by ring.
  rewrite sqrt_mult by (pose proof (norm_pos _ _ H); unfold X, Y; nra).
  replace (sqrt ((t-s)^2)) with (t - s) by (rewrite <- Rsqr_pow2, sqrt_Rsqr; lra).
  field. lra.
Qed.

(** ** Lines and circles *)
Lemma lli_sound l1 l2 q : line_line_intersection l1 l2 = Ok q -> on_line l1 q /\ on_line l2 q.
Proof.
  destruct l1 as [m1 b1|c1|], l2 as [m2 b2|c2|]; simpl; try discriminate.
  - unfold raise_if. destruct (Reqb_spec m1 m2); [discriminate|].
    intros E; inversion E; subst; simpl. split; auto. field; lra.
  - intros E; inversion E; subst; simpl; auto.
  - intros E; inversion E; subst; simpl; auto.
Qed.

Lemma lli_some l1 l2 : well_formed_line l1 -> well_formed_line l2 -> ~ parallel l1 l2 ->
  exists q, line_line_intersection l1 l2 = Ok q.
Proof.
  destruct l1 as [m1 b1|c1|], l2 as [m2 b2|c2|]; simpl; intros H1 H2 H3; try tauto; eauto;
    try (exfalso; apply H1; reflexivity); try (exfalso; apply H2; reflexivity).
  unfold raise_if; destruct (Reqb_spec m1 m2); [tauto|eauto].
Qed.

Lemma lli_none l1 l2 : parallel l1 l2 -> line_line_intersection l1 l2 = Err ValueError.
Proof.
  destruct l1 as [m1 b1|c1|], l2 as [m2 b2|c2|]; simpl; intros H; try tauto; auto.
  unfold raise_if; destruct (Reqb_spec m1 m2); tauto.
Qed.

Lemma lli_unique l1 l2 q q' : ~ parallel l1 l2 ->
  on_line l1 q -> on_line l2 q -> on_line l1 q' -> on_line l2 q' -> q = q'.
Proof.
  destruct q as [x y], q' as [x' y'].
  destruct l1 as [m1 b1|c1|], l2 as [m2 b2|c2|]; simpl; intros H A B A' B'; try tauto.
  - assert (E : x = x'). { assert (Z : (m1 - m2) * (x - x') = 0) by lra. apply Rmult_integral in Z. destruct Z; [exfalso; apply H|]; lra. }
    subst; f_equal; lra.
  - subst; f_equal; lra.
  - subst; f_equal; lra.
Qed.

Lemma lli_comm l1 l2 : well_formed_line l1 -> well_formed_line l2 -> line_line_intersection l1 l2 = line_line_intersection l2 l1.
Proof.
  intros W1 W2.
  assert (D : parallel l1 l2 \/ ~ parallel l1 l2).
  { destruct l1, l2; simpl; auto. destruct (Req_dec m m0); auto. }
  destruct D as [D|D].
  - rewrite (lli_none _ _ D). symmetry; apply lli_none. destruct l1, l2; simpl in *; auto.
  - assert (D' : ~ parallel l2 l1) by (intros X; apply D; destruct l1, l2; simpl in *; auto).
    destruct (lli_some l1 l2 W1 W2 D) as [q Hq]. destruct (lli_some l2 l1 W2 W1 D') as [q' Hq'].
    rewrite Hq, Hq'. f_equal. destruct (lli_sound _ _ _ Hq), (lli_sound _ _ _ Hq').
    eapply lli_unique; eauto.
Qed.

Lemma on_circle_sq c r q : 0 < r -> (on_circle c r q <-> (fst q - fst c)^2 + (snd q - snd c)^2 = r^2).
Proof.
  intros Hr. unfold on_circle, dist2. split; intros H.
  - rewrite <- H. rewrite pow2_sqrt; auto. pose proof (pow2_ge_0 (fst q - fst c)). pose proof (pow2_ge_0 (snd q - snd c)). lra.
  - rewrite H. apply sqrt_pow2; lra.
Qed.

(** quadratic formula *)
Lemma quad_none A B C x : 0 < A -> B^2 - 4*A*C < 0 -> A*x^2 + B*x + C <> 0.
Proof. intros HA HD E. assert ((2*A*x + B)^2 = B^2 - 4*A*C) by nra. pose proof (Rle_0_sqr (2*A*x+B)). unfold Rsqr in *. nra. Qed.
Lemma quad_one A B C x : 0 < A -> B^2 - 4*A*C = 0 -> (A*x^2 + B*x + C = 0 <-> x = - B / (2*A)).
Proof.
  intros HA HD. split; intros E.
  - assert (H : (2*A*x + B)^2 = 0) by nra.
    assert (2*A*x + B = 0) by (apply Rsqr_eq_0; unfold Rsqr; lra).
    apply Rmult_eq_reg_l with (2*A); [|lra]. field_simplify; lra.
  - subst. assert (C = B^2 / (4*A)) by (apply Rmult_eq_reg_l with (4*A); [field_simplify; lra|lra]).
    rewrite H. field; lra.
Qed.
Lemma quad_two A B C x : 0 < A -> 0 < B^2 - 4*A*C ->
  (A*x^2 + B*x + C = 0 <-> x = (- B + sqrt (B^2 - 4*A*C)) / (2*A) \/ x = (- B - sqrt (B^2 - 4*A*C)) / (2*A)).
Proof.
  intros HA HD. pose proof (sqrt_sqrt (B^2 - 4*A*C) ltac:(lra)) as S. set (s := sqrt _) in *.
  split; intros E.
  - assert (H : (2*A*x + B - s) * (2*A*x + B + s) = 0) by nra.
    apply Rmult_integral in H. destruct H as [H|H]; [left|right];
      apply Rmult_eq_reg_l with (2*A); try lra; field_simplify; lra.
  - assert (HC : C = (B^2 - s*s) / (4*A)) by (rewrite S; field; lra).
    rewrite HC. destruct E; subst x; field; lra.
Qed.

Lemma lci_spec l c r pts : line_circle_intersection l c r = Ok pts ->
  forall q, In q pts <-> on_line l q /\ on_circle c r q.
Proof.
  unfold line_circle_intersection, raise_if. destruct (Rleb_spec r 0) as [Hr|Hr]; [discriminate|].
  apply Rnot_le_lt in Hr. destruct c as [cx cy]; simpl fst; simpl snd.
  destruct l as [m b|x0|]; [| |discriminate]; cbv zeta.
  - set (A := 1 + m^2). set (B := 2 * (m*b - m*cy - cx)).
    set (C := cx^2 + cy^2 + b^2 - 2*b*cy - r^2).
    assert (HA : 0 < A) by (unfold A; nra).
    assert (EQ : forall q, on_line (LSlope m b) q /\ on_circle (cx,cy) r q <->
                 (snd q = m * fst q + b /\ A * fst q ^2 + B * fst q + C = 0)).
    { intros [x y]; rewrite on_circle_sq by auto; simpl.
      split; intros [H1 H2]; split; auto; subst y; unfold A, B, C in *; nra. }
    destruct (Rltb_spec (B^2 - 4*A*C) 0) as [D|D].
    + intros E; inversion E; subst; clear E. intros q; rewrite EQ; simpl. split; [tauto|].
      intros [_ H]. exact (quad_none _ _ _ _ HA D H).
    + destruct (Reqb_spec (B^2 - 4*A*C) 0) as [Z|Z].
      * intros E; injection E as <-. intros q; rewrite EQ. rewrite (quad_one _ _ _ _ HA Z).
        destruct q as [x y]; simpl fst; simpl snd; simpl In. split.
        -- intros [H|[]]; injection H as <- <-; auto.
        -- intros [-> ->]; auto.
      * assert (P : 0 < B^2 - 4*A*C) by lra.
        intros E; injection E as <-. intros q; rewrite EQ. rewrite (quad_two _ _ _ _ HA P).
        destruct q as [x y]; simpl fst; simpl snd; simpl In. split.
        -- intros [H|[H|[]]]; injection H as <- <-; auto.
        -- intros [-> [->| ->]]; auto.
  - set (B := -2 * cy). set (C := cy^2 + (x0-cx)^2 - r^2).
    assert (EQ : forall q, on_line (LVert x0) q /\ on_circle (cx,cy) r q <->
                 (fst q = x0 /\ 1 * snd q ^2 + B * snd q + C = 0)).
    { intros [x y]; rewrite on_circle_sq by auto; simpl.
      split; intros [H1 H2]; split; auto; subst x; unfold B, C in *; nra. }
    assert (HA : 0 < 1) by lra.
    destruct (Rltb_spec (B^2 - 4*1*C) 0) as [D|D].
    + intros E; inversion E; subst; clear E. intros q; rewrite EQ; simpl. split; [tauto|].
      intros [_ H]. exact (quad_none _ _ _ _ HA D H).
    + destruct (Reqb_spec (B^2 - 4*1*C) 0) as [Z|Z].
      * intros E; injection E as <-. intros q; rewrite EQ. rewrite (quad_one _ _ _ _ HA Z).
        destruct q as [x y]; simpl fst; simpl snd; simpl In. split.
        -- intros [H|[]]; injection H as <- <-; auto.
        -- intros [-> ->]; auto.
      * assert (P : 0 < B^2 - 4*1*C) by lra.
        intros E; injection E as <-. intros q; rewrite EQ. rewrite (quad_two _ _ _ _ HA P).
        destruct q as [x y]; simpl fst; simpl snd; simpl In. split.
        -- intros [H|[H|[]]]; injection H as <- <-; auto.
        -- intros [-> [->| ->]]; auto.
Qed.

Lemma lci_nodup l c r pts : line_circle_intersection l c r = Ok pts -> NoDup pts.
Proof.
  unfold line_circle_intersection, raise_if. destruct (Rleb_spec r 0) as [Hr|Hr]; [discriminate|].
  destruct l as [m b|x0|]; [| |discriminate]; cbv zeta;
    match goal with |- context [Rltb ?d 0] => destruct (Rltb_spec d 0) as [D|D] end;
    try (intros E; inversion E; subst; constructor);
    match goal with |- context [Reqb ?d 0] => destruct (Reqb_spec d 0) as [Z|Z] end;
    intros E; injection E as <-.
  all: repeat constructor; simpl; try tauto.
  all: intros [H|[]]; injection H; intros.
  all: match goal with H : context [sqrt ?d] |- _ => assert (P : 0 < sqrt d) by (apply sqrt_lt_R0; lra) end.
  - set (s := sqrt _) in *.
    assert (HA : 0 < 1 + m^2) by nra.
    assert (E : s / (1 + m^2) = 0).
    { match type of H1 with ?u = ?v => transitivity (v - u); [|lra] end. field. simpl in HA; lra. }
    assert (0 < s / (1 + m^2)) by (apply Rdiv_lt_0_compat; auto). lra.
  - set (s := sqrt _) in *. lra.
Qed.

Lemma lci_total l c r : 0 < r -> well_formed_line l -> exists pts, line_circle_intersection l c r = Ok pts.
Proof.
  intros Hr W. unfold line_circle_intersection, raise_if. destruct (Rleb_spec r 0); [lra|].
  destruct l as [m b|x0|]; [| |exfalso; apply W; reflexivity]; cbv zeta; destruct (Rltb _ 0); eauto; destruct (Reqb _ 0); eauto.
Qed.

Lemma lci_reject l c r : r <= 0 -> line_circle_intersection l c r = Err ValueError.
Proof. intros; unfold line_circle_intersection, raise_if; rewrite Rleb_true by auto; reflexivity. Qed.

(** ** Packaged statements used by PropertiesSupport.v *)
Lemma cdf_laws_ex (f : R -> R -> R -> R) :
  f = sigmoid_cdf \/ f = cauchy_cdf ->
  (forall x x0 g, 0 <= f x x0 g <= 1) /\
  (forall x y x0 g, 0 <= g -> x <= y -> f x x0 g <= f y x0 g) /\
  (forall x y x0 g, 1 / 100000000 < g -> x < y -> f x x0 g < f y x0 g) /\
  (forall x0 g, 1 / 100000000 < Rabs g -> f x0 x0 g = 1/2) /\
  (forall x0 d g, 1 / 100000000 < Rabs g -> f (x0 + d) x0 g + f (x0 - d) x0 g = 1) /\
  (forall x x0, x < x0 -> f x x0 0 = 0) /\ (forall x x0, x0 < x -> f x x0 0 = 1).
Proof.
  assert (NC : forall g, 1 / 100000000 < Rabs g -> isclose0 g = false)
    by (intros; unfold isclose0; apply Rleb_false; auto).
  assert (NP : forall g, 1 / 100000000 < g -> isclose0 g = false)
    by (intros; apply NC; rewrite Rabs_pos_eq; lra).
  intros [-> | ->]; (split; [|split; [|split; [|split; [|split; [|split]]]]]).
  - apply sigmoid_cdf_bound.
  - intros; apply sigmoid_cdf_mono; lra.
  - intros x y x0 g Hg H. unfold sigmoid_cdf. rewrite (NP g Hg).
    assert (L : (x - x0) / g < (y - x0) / g) by (apply div_lt_mono; lra).
    pose proof (tanh_increasing _ _ L). lra.
  - intros x0 g Hg. unfold sigmoid_cdf; rewrite (NC g Hg).
    replace ((x0 - x0) / g) with 0 by (unfold Rdiv; ring). rewrite tanh_0'. lra.
  - intros; apply sigmoid_cdf_sym; auto.
  - intros; unfold sigmoid_cdf, step_cdf. rewrite isclose0_0, Rltb_false, Rltb_true by lra. reflexivity.
  - intros; unfold sigmoid_cdf, step_cdf. rewrite isclose0_0, Rltb_true by lra. reflexivity.
  - apply cauchy_cdf_bound.
  - intros; apply cauchy_cdf_mono; lra.
  - intros x y x0 g Hg H. unfold cauchy_cdf. rewrite (NP g Hg).
    assert (L : (x - x0) / g < (y - x0) / g) by (apply div_lt_mono; lra).
    pose proof (atan_increasing _ _ L).
    pose proof PI_RGT_0. assert (0 < 1 / PI) by (apply Rdiv_lt_0_compat; lra). nra.
  - intros x0 g Hg. unfold cauchy_cdf; rewrite (NC g Hg).
    replace ((x0 - x0) / g) with 0 by (unfold Rdiv; ring). rewrite atan_0. lra.
  - intros; apply cauchy_cdf_sym; auto.
  - intros; unfold cauchy_cdf, step_cdf. rewrite isclose0_0, Rltb_false, Rltb_true by lra. reflexivity.
  - intros; unfold cauchy_cdf, step_cdf. rewrite isclose0_0, Rltb_true by lra. reflexivity.
Qed.

Lemma multi_cdf_bound (f : R -> R -> R -> R) :
  f = sigmoid_cdf \/ f = cauchy_cdf ->
  forall x n params, length params = (2 * n)%nat ->
  exists v, multi_cdf f x params = Ok v /\ 0 <= v <= INR n.
Proof.
  intros Hf x n params Hl. unfold multi_cdf, raise_if.
  assert (Nat.odd (length params) = false) as ->.
  { rewrite Hl. rewrite Nat.odd_mul. reflexivity. }
  eexists; split; [reflexivity|]. apply sum_cdf_bound; auto.
  destruct Hf as [-> | ->]; intros; [apply sigmoid_cdf_bound|apply cauchy_cdf_bound].
Qed.

Lemma multi_cdf_odd f x params : Nat.Odd (length params) -> multi_cdf f x params = Err AssertionError.
Proof.
  intros H. unfold multi_cdf, raise_if. apply Nat.odd_spec in H. rewrite H. reflexivity.
Qed.

Lemma glf_round_trip p : glf_admissible p ->
  (forall x, inverse_glf p (glf p x) = x) /\
  (forall v, strictly_between (asymptote_left p) (glf_far_asymptote p) v -> glf p (inverse_glf p v) = v).
Proof.
  intros H; split; intros; [apply inverse_glf_glf_l|apply glf_inverse_glf_l]; auto.
Qed.

Lemma glf_round_trip_C1 p : glf_admissible p -> denominator_offset p = 1 ->
  (forall x, inverse_glf p (glf p x) = x) /\
  (forall v, strictly_between (asymptote_left p) (asymptote_right p) v -> glf p (inverse_glf p v) = v).
Proof. intros H HC. rewrite <- (glf_far_asymptote_1 p HC). apply glf_round_trip; auto. Qed.

Lemma glf_growth p : glf_admissible p -> 0 < growth_rate p -> asymptote_left p < asymptote_right p ->
  (forall x y, x < y -> glf p x < glf p y) /\
  (forall x, asymptote_left p < glf p x < glf_far_asymptote p) /\
  (forall v, asymptote_left p < v < glf_far_asymptote p -> exists x, glf p x = v).
Proof.
  intros H HB HA. split; [|split].
  - intros; apply glf_mono_l; auto. nra.
  - intros x. pose proof (glf_bound p H x) as [L|L]; auto.
    exfalso. unfold glf_far_asymptote in L.
    pose proof (Rpower_pos (denominator_offset p) (1 / asymmetry p)).
    assert (0 < (asymptote_right p - asymptote_left p) / Rpower (denominator_offset p) (1 / asymmetry p))
      by (apply Rdiv_lt_0_compat; lra). lra.
  - intros v Hv. exists (inverse_glf p v). apply glf_inverse_glf_l; auto. left; auto.
Qed.

Lemma glf_mirror p x : glf_admissible p ->
  glf {| asymptote_left := asymptote_left p; asymptote_right := asymptote_right p;
         growth_rate := - growth_rate p; asymmetry := asymmetry p; shape_factor := shape_factor p;
         denominator_offset := denominator_offset p; offset := offset p |} (2 * offset p - x) = glf p x.
Proof.
  intros _. unfold glf; simpl. do 4 f_equal. f_equal. f_equal. ring.
Qed.

Lemma rotate_laws a b p q :
  dist2 (rotate_point a p) (rotate_point a q) = dist2 p q /\
  rotate_point b (rotate_point a p) = rotate_point (a + b) p /\
  rotate_point (- a) (rotate_point a p) = p /\
  rotate_point (2 * PI) p = p.
Proof.
  split; [apply rotate_dist|split; [apply rotate_compose|split; [apply rotate_inverse|]]].
  unfold rotate_point. rewrite cos_2PI, sin_2PI. destruct p; simpl; f_equal; ring.
Qed.

Lemma rotate_points_list a ps : rotate_points (- a) (rotate_points a ps) = ps /\ length (rotate_points a ps) = length ps.
Proof.
  unfold rotate_points; rewrite map_map; split; [|apply map_length].
  rewrite <- (map_id ps) at 2. apply map_ext. intros; apply rotate_inverse.
Qed.

Lemma signed_dist_laws p l0 l1 : l0 <> l1 ->
  (forall q, on_line_through l0 l1 q -> Rabs (signed_dist p l0 l1) <= dist2 p q) /\
  (exists q, on_line_through l0 l1 q /\ dist2 p q = Rabs (signed_dist p l0 l1)) /\
  (0 < signed_dist p l0 l1 <-> right_of l0 l1 p) /\
  (signed_dist p l0 l1 < 0 <-> right_of l1 l0 p) /\
  (signed_dist p l0 l1 = 0 <-> on_line_through l0 l1 p) /\
  (forall a, signed_dist (rotate_point a p) (rotate_point a l0) (rotate_point a l1) = signed_dist p l0 l1).
Proof.
  intros H. split; [intros; apply signed_dist_min; auto|].
  split; [apply signed_dist_attained; auto|].
  split; [apply signed_dist_sign; auto|].
  split; [|split; [apply signed_dist_zero; auto|intros; apply signed_dist_rotate]].
  rewrite <- signed_dist_sign by auto. rewrite signed_dist_swap. split; lra.
Qed.

Lemma lli_laws l1 l2 : well_formed_line l1 -> well_formed_line l2 ->
  (parallel l1 l2 -> line_line_intersection l1 l2 = Err ValueError) /\
  (~ parallel l1 l2 -> exists q, line_line_intersection l1 l2 = Ok q /\ on_line l1 q /\ on_line l2 q /\
      forall q', on_line l1 q' -> on_line l2 q' -> q' = q) /\
  line_line_intersection l1 l2 = line_line_intersection l2 l1.
Proof.
  intros W1 W2. split; [apply lli_none|split; [|apply lli_comm; auto]].
  intros Hp. destruct (lli_some _ _ W1 W2 Hp) as [q Hq]. exists q. split; auto.
  destruct (lli_sound _ _ _ Hq). split; auto. split; auto. intros; eapply lli_unique; eauto.
Qed.

Lemma lci_laws l c r : well_formed_line l ->
  (r <= 0 -> line_circle_intersection l c r = Err ValueError) /\
  (0 < r -> exists pts, line_circle_intersection l c r = Ok pts /\ NoDup pts /\ (length pts <= 2)%nat /\
     forall q, In q pts <-> on_line l q /\ on_circle c r q).
Proof.
  intros W; split; [apply lci_reject|]. intros Hr. destruct (lci_total l c r Hr W) as [pts Hp].
  exists pts; split; auto. split; [eapply lci_nodup; eauto|]. split; [|eapply lci_spec; eauto].
  revert Hp. unfold line_circle_intersection, raise_if. destruct (Rleb r 0); [discriminate|].
  destruct l as [m b|x0|]; [| |discriminate]; cbv zeta; destruct (Rltb _ 0);
    try (intros E; injection E as <-; simpl; lia); destruct (Reqb _ 0);
    intros E; injection E as <-; simpl; lia.
Qed.

(** ** multi_glf *)
Lemma multi_glf_tuples x gs : multi_glf_sum x (flat_map glf_tuple gs) = glf_total gs x.
Proof. induction gs as [|[a k b nu q c o] t IH]; [reflexivity|]. cbn [flat_map glf_tuple app multi_glf_sum]. rewrite IH. reflexivity. Qed.
Lemma tuples_of ps : (length ps mod 7 = 0)%nat -> exists gs, ps = flat_map glf_tuple gs.
Proof.
  intros H. assert (E : exists n, length ps = (7 * n)%nat) by (exists (length ps / 7)%nat; pose proof (Nat.div_mod (length ps) 7); lia).
  destruct E as (n & E). clear H. revert ps E. induction n as [|n IH]; intros ps E.
  - exists []. destruct ps; [reflexivity|simpl in E; lia].
  - destruct ps as [|a [|k [|b [|nu [|q [|c [|o t]]]]]]]; simpl in E; try lia.
    destruct (IH t) as (gs & ->); [lia|].
    exists ({| asymptote_left := a; asymptote_right := k; growth_rate := b; asymmetry := nu;
             shape_factor := q; denominator_offset := c; offset := o |} :: gs). reflexivity.
Qed.
Lemma length_tuples gs : length (flat_map glf_tuple gs) = (7 * length gs)%nat.
Proof. induction gs; [reflexivity|]. cbn [flat_map]. rewrite app_length, IHgs. simpl. lia. Qed.
Lemma multi_glf_sum_of x gs : multi_glf x (flat_map glf_tuple gs) = Ok (glf_total gs x).
Proof.
  unfold multi_glf. rewrite length_tuples, Nat.mul_comm, Nat.mod_mul by lia. cbn [Nat.eqb negb raise_if].
  rewrite multi_glf_tuples. reflexivity.
Qed.
Lemma multi_glf_domain x ps : (forall gs, ps <> flat_map glf_tuple gs) -> multi_glf x ps = Err AssertionError.
Proof.
  intros H. unfold multi_glf. destruct (length ps mod 7 =? 0)%nat eqn:E; [|reflexivity].
  apply Nat.eqb_eq in E. destruct (tuples_of ps E) as (gs & Eg). elim (H gs Eg).
Qed.
Lemma glf_total_rises gs x y : gs <> [] -> x < y ->
  (forall g, In g gs -> glf_admissible g /\ 0 < growth_rate g /\ asymptote_left g < asymptote_right g) ->
  glf_total gs x < glf_total gs y.
Proof.
  intros Hn Hxy H. destruct gs as [|g t]; [contradiction|]. clear Hn. revert g H. induction t as [|g' t IH]; intros g H.
  - destruct (H g (or_introl eq_refl)) as (A & B & C). destruct (glf_growth g A B C) as (M & _). specialize (M x y Hxy).
    unfold glf_total. simpl. lra.
  - destruct (H g (or_introl eq_refl)) as (A & B & C). destruct (glf_growth g A B C) as (M & _). specialize (M x y Hxy).
    assert (K : glf_total (g' :: t) x < glf_total (g' :: t) y) by (apply IH; intros k Hk; apply H; right; exact Hk).
    unfold glf_total in *. simpl in *. lra.
Qed.
(** ** pixel_to_volt_1d *)
Lemma pixel_to_volt_ends n v0 v1 : (0 < n)%nat ->
  pixel_to_volt_1d 0 n v0 v1 = Ok v0 /\ pixel_to_volt_1d n n v0 v1 = Ok v1 /\
  exists f, (forall k, pixel_to_volt_1d k n v0 v1 = Ok (f k)) /\ forall k, f (S k) - f k = (v1 - v0) / INR n.
Proof.
  intros H. assert (0 < INR n) by (apply lt_0_INR, H). unfold pixel_to_volt_1d, raise_if.
  destruct (n =? 0)%nat eqn:E; [apply Nat.eqb_eq in E; lia|]. split; [|split].
  - f_equal. simpl. field. lra.
  - f_equal. field. lra.
  - eexists. split; [reflexivity|]. intros k. cbn beta. rewrite S_INR. field. lra.
Qed.
Lemma pixel_to_volt_last n v0 v1 : (2 <= n)%nat -> v0 <> v1 -> pixel_to_volt_1d (n - 1) n v0 v1 <> Ok v1.
Proof.
  intros H N E. assert (0 < INR n) by (apply lt_0_INR; lia). unfold pixel_to_volt_1d, raise_if in E.
  destruct (n =? 0)%nat; [discriminate|]. injection E as E. rewrite minus_INR in E by lia. simpl (INR 1) in E.
  apply N. replace ((INR n - 1) / INR n) with (1 - / INR n) in E by (field; lra).
  assert (K : (v1 - v0) * / INR n = 0) by lra. apply Rmult_integral in K. destruct K as [K|K]; [lra|].
  pose proof (Rinv_0_lt_compat _ H0). lra.
Qed.
Lemma pixel_to_volt_zero k v0 v1 : pixel_to_volt_1d k 0 v0 v1 = Err ZeroDivisionError.
Proof. reflexivity. Qed.
(** ** is_point_below_line *)
Lemma below_line_spec p l b : is_point_below_line p l = Ok b -> (b = true <-> below l p).
Proof.
  destruct l; simpl; intros H; try discriminate; injection H as <-.
  - destruct (Rltb_spec (snd p) (m * fst p + b0)); split; intros; try discriminate; tauto.
  - destruct (Rltb_spec (snd p) (IZR b0)); split; intros; try discriminate; tauto.
Qed.
Lemma below_line_accepts p l : (exists b, is_point_below_line p l = Ok b) <-> ~ exists x, l = BFloat x.
Proof.
  split.
  - intros (b & H) (x & ->). discriminate.
  - destruct l; simpl; eauto. intros H. elim H. eauto.
Qed.
Lemma below_line_float p x : is_point_below_line p (BFloat x) = Err ValueError.
Proof. reflexivity. Qed.
