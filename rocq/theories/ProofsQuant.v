(** Proofs about the quantisation of the occupations. *)
From Verif Require Import RPrelude Arr ModelSupport ModelTct ModelCsd ModelInstance ModelDefault SpecSupport SpecTct SpecCsd SpecOrder SpecInstance SpecQuant
  ProofsSupport ProofsTct ProofsOcc ProofsScan ProofsDefault.
Local Open Scope R_scope.

(** ** Tails of the distribution functions *)
Lemma sigmoid_low t : 1/2 * (1 + tanh t) <= exp (2 * t).
Proof.
  rewrite tanh_exp. pose proof (exp_pos (2 * t)) as P.
  replace (1 / 2 * (1 + (1 - 2 / (exp (2 * t) + 1)))) with (exp (2 * t) / (exp (2 * t) + 1)) by (field; lra).
  apply Rmult_le_reg_r with (exp (2 * t) + 1); [lra|]. unfold Rdiv. rewrite Rmult_assoc, Rinv_l by lra. nra.
Qed.
Lemma sigmoid_high t : 1 - exp (- (2 * t)) <= 1/2 * (1 + tanh t).
Proof. pose proof (sigmoid_low (- t)) as H. rewrite tanh_odd in H. replace (2 * - t) with (- (2 * t)) in H by ring. lra. Qed.
Lemma cauchy_low t : 0 < t -> 1 / PI * atan (- t) + 1/2 <= / (PI * t).
Proof.
  intros H. pose proof PI_RGT_0 as P. rewrite atan_opp.
  assert (E : atan t = PI / 2 - atan (/ t)) by (rewrite atan_inv; lra). rewrite E.
  pose proof (atan_le (/ t) ltac:(left; apply Rinv_0_lt_compat; auto)) as A.
  replace (1 / PI * - (PI / 2 - atan (/ t)) + 1 / 2) with (/ PI * atan (/ t)) by (field; lra).
  rewrite Rinv_mult. apply Rmult_le_compat_l; [left; apply Rinv_0_lt_compat; auto|auto].
Qed.
Lemma cauchy_high t : 0 < t -> 1 - / (PI * t) <= 1 / PI * atan t + 1/2.
Proof. intros H. pose proof (cauchy_low t H) as C. rewrite atan_opp in C. lra. Qed.

(** ** Geometric sums *)
Lemma exp_scale x j : exp (INR j * x) = exp x ^ j.
Proof. induction j as [|j IH]; [simpl; rewrite Rmult_0_l, exp_0; auto|]. rewrite S_INR, Rmult_plus_distr_r, exp_plus, IH, Rmult_1_l. simpl. ring. Qed.
Lemma geometric_up E q n : 0 <= q < 1 -> Rsum (map (fun j => E * q ^ j) (seq 0 n)) = E * (1 - q ^ n) / (1 - q).
Proof.
  intros Q. induction n as [|n IH]; [simpl; field; lra|]. rewrite seq_S, map_app, Rsum_app, IH. cbn [map Rsum Nat.add].
  change (q ^ S n) with (q * q ^ n). field. lra.
Qed.
Lemma geometric_down E q m : 0 <= q < 1 -> Rsum (map (fun k => E * q ^ (m - 1 - k)) (seq 0 m)) = E * (1 - q ^ m) / (1 - q).
Proof.
  intros Q. induction m as [|m IH]; [simpl; field; lra|]. rewrite seq_S, map_app, Rsum_app. cbn [map Rsum Nat.add].
  replace (S m - 1 - m)%nat with 0%nat by lia.
  rewrite (map_ext_in _ (fun k => q * (E * q ^ (m - 1 - k)))).
  - assert (M : forall (f : nat -> R) l, Rsum (map (fun k => q * f k) l) = q * Rsum (map f l))
      by (induction l as [|x t IHl]; cbn [map Rsum]; [lra|rewrite IHl; ring]).
    rewrite M, IH. change (q ^ S m) with (q * q ^ m). simpl (q ^ 0). field. lra.
  - intros k Hk. apply in_seq in Hk. replace (S m - 1 - k)%nat with (S (m - 1 - k)) by lia. simpl. ring.
Qed.
Lemma geometric_bound E q n : 0 <= E -> 0 <= q < 1 -> E * (1 - q ^ n) / (1 - q) <= E / (1 - q).
Proof.
  intros HE Q. unfold Rdiv. apply Rmult_le_compat_r; [left; apply Rinv_0_lt_compat; lra|].
  pose proof (pow_le q n ltac:(lra)). nra.
Qed.

(** ** A sum of n steps of which m are passed *)
Lemma steps_sum (F : nat -> R) n m up down : (m <= n)%nat ->
  (forall k, (k < m)%nat -> 1 - down k <= F k <= 1) -> (forall k, (m <= k < n)%nat -> 0 <= F k <= up (k - m)%nat) ->
  INR m - Rsum (map down (seq 0 m)) <= Rsum (map F (seq 0 n)) <= INR m + Rsum (map up (seq 0 (n - m))).
Proof.
  intros Hm Hd Hu. replace n with (m + (n - m))%nat at 1 2 by lia. rewrite seq_app, map_app, Rsum_app. cbn [Nat.add].
  assert (D : INR m - Rsum (map down (seq 0 m)) <= Rsum (map F (seq 0 m)) <= INR m).
  { clear Hu. induction m as [|m IH]; [simpl; lra|]. rewrite seq_S, !map_app, !Rsum_app, S_INR. cbn [map Rsum Nat.add].
    pose proof (Hd m ltac:(lia)). assert (I : INR m - Rsum (map down (seq 0 m)) <= Rsum (map F (seq 0 m)) <= INR m) by (apply IH; [lia|intros; apply Hd; lia]). lra. }
  assert (U : forall j, (j <= n - m)%nat -> 0 <= Rsum (map F (seq m j)) <= Rsum (map up (seq 0 j))).
  { induction j as [|j IH]; [simpl; lra|]. intros Hj. rewrite !seq_S, !map_app, !Rsum_app. cbn [map Rsum Nat.add].
    pose proof (Hu (m + j)%nat ltac:(lia)) as B. replace (m + j - m)%nat with j in B by lia. specialize (IH ltac:(lia)). lra. }
  specialize (U (n - m)%nat ltac:(lia)). lra.
Qed.

(** ** Positions *)
Lemma beyond_linear u l po k j q : beyond u l po (k + j) q = beyond u l po k q - INR j * pitch u l po.
Proof.
  unfold beyond, pitch. rewrite <- (Ropp_involutive (INR j * _)). unfold Rdiv. rewrite <- Rmult_assoc.
  unfold cross, vec, peak_point, period_vector. cbn [fst snd]. rewrite plus_INR. ring.
Qed.
Lemma between_all u l po n m c q : 0 <= pitch u l po -> between u l po n m c q ->
  (forall k, (k < m)%nat -> c + INR (m - 1 - k) * pitch u l po <= beyond u l po k q) /\
  (forall k, (m <= k < n)%nat -> beyond u l po k q <= - (c + INR (k - m) * pitch u l po)).
Proof.
  intros P (Hm & B1 & B2). split; intros k Hk.
  - specialize (B1 ltac:(lia)). replace (m - 1)%nat with (k + (m - 1 - k))%nat in B1 by lia. rewrite beyond_linear in B1. lra.
  - specialize (B2 ltac:(lia)). replace k with (m + (k - m))%nat at 1 by lia. rewrite beyond_linear. lra.
Qed.

(** Arguments of the distribution functions *)
Lemma cdf_argument g u l po k q : 0 < g -> u <> l -> 1 / 100000000 * g * dist2 u l < Rabs (cross (vec u l) (coupling_vector po)) ->
  let w := - cross (vec u l) (coupling_vector po) / sqrt (fst (vec u l) ^ 2 + snd (vec u l) ^ 2) / g in
  isclose0 w = false /\ (line_distance u l q - line_distance u l (peak_point po l k)) / w = g * beyond u l po k q.
Proof.
  intros Hg Hul Hw. cbn zeta. pose proof (vec_norm_pos u l Hul) as N. rewrite dist2_vec in Hw. unfold line_distance.
  set (nn := sqrt _) in *. set (c := cross (vec u l) (coupling_vector po)) in *.
  assert (C0 : c <> 0) by (intros E; rewrite E, Rabs_R0 in Hw; nra).
  split.
  - destruct (isclose0_spec (- c / nn / g)) as [H|]; auto. exfalso.
    replace (- c / nn / g) with (- (c / (nn * g))) in H by (field; lra). rewrite Rabs_Ropp in H. unfold Rdiv in H.
    rewrite Rabs_mult, (Rabs_pos_eq (/ (nn * g))) in H by (left; apply Rinv_0_lt_compat; nra).
    assert (Q : Rabs c * / (nn * g) * (nn * g) <= 1 * / 100000000 * (nn * g)) by (apply Rmult_le_compat_r; [nra|auto]).
    rewrite Rmult_assoc, Rinv_l in Q by nra. nra.
  - unfold beyond. fold c.
    replace (cross (vec u l) (vec (peak_point po l k) q)) with (cross (vec u l) (vec u q) - cross (vec u l) (vec u (peak_point po l k)))
      by (unfold cross, vec; cbn [fst snd]; ring).
    field. repeat split; auto; lra.
Qed.

(** ** The occupations *)
Section Occupation.
Variables (label : arr2 nat -> arr2 nat) (params : list tct_params) (rot : R) (lut : option nat) (kind : cdf_kind) (gf : option R)
  (res : resolution) (d : csd_data) (a1 b1 a2 b2 : R) (v : point) (o : R * R) (lab n : nat) (u l : point) (po : tct_params).
Hypothesis (C : csd_config label params lut kind gf)
  (H : ideal_csd_geometric label params [a1; b1] [a2; b2] res rot lut kind gf = Ok d)
  (Px : scan_pixel d (a1, b1) (a2, b2) v o lab) (Sum : fst o + snd o = INR n) (Hn : (1 <= n)%nat)
  (I : interdot_line params n u l) (Ep : nth_error params (n - 1) = Some po)
  (G : 0 < gamma_of kind gf) (W : 1 / 100000000 * gamma_of kind gf * dist2 u l < Rabs (cross (vec u l) (coupling_vector po))).

Lemma occupation_sum f (F : R -> R) : cdf_of kind f -> (forall x x0 g, isclose0 g = false -> f x x0 g = F ((x - x0) / g)) ->
  fst o = Rsum (map (fun k => F (gamma_of kind gf * beyond u l po k (tct_view rot v))) (seq 0 n)).
Proof.
  intros Cf E. assert (Hul : u <> l) by (destruct C as (_ & _ & _ & _ & _ & X); eapply X; eauto).
  rewrite (scan_dot1 _ _ _ _ _ _ _ _ _ _ _ _ _ _ _ _ _ n u l po f C eq_refl eq_refl H Px Sum Hn I Ep Cf).
  unfold dot1_formula. f_equal. apply map_ext. intros k.
  destruct (cdf_argument (gamma_of kind gf) u l po k (tct_view rot v) G Hul W) as [Cl Ar]. rewrite E by exact Cl. rewrite Ar. reflexivity.
Qed.

Lemma quantised_sigmoid m c : kind = Sigmoid -> 0 < pitch u l po -> between u l po n m c (tct_view rot v) ->
  let bound := exp (- (2 * gamma_of kind gf * c)) / (1 - exp (- (2 * gamma_of kind gf * pitch u l po))) in
  Rabs (fst o - INR m) <= bound /\ Rabs (snd o - INR (n - m)) <= bound.
Proof.
  intros K P B bound.
  pose proof (occupation_sum sigmoid_cdf (fun t => 1/2 * (1 + tanh t)) ltac:(left; auto)) as E.
  assert (Cdf : forall x x0 g, isclose0 g = false -> sigmoid_cdf x x0 g = 1/2 * (1 + tanh ((x - x0) / g)))
    by (intros x x0 g Hg; unfold sigmoid_cdf; rewrite Hg; reflexivity). specialize (E Cdf).
  destruct (between_all u l po n m c _ ltac:(lra) B) as [B1 B2]. destruct B as (Hm & _).
  set (g := gamma_of kind gf) in *. set (p := pitch u l po) in *. set (q := exp (- (2 * g * p))) in *. set (A := exp (- (2 * g * c))) in *.
  assert (Q : 0 <= q < 1). { split; [left; apply exp_pos|]. unfold q. rewrite <- exp_0. apply exp_increasing. nra. }
  assert (A0 : 0 <= A) by (left; apply exp_pos).
  assert (T : forall j, exp (- (2 * (g * (c + INR j * p)))) = A * q ^ j).
  { intros j. unfold A, q. rewrite <- exp_scale, <- exp_plus. f_equal. ring. }
  pose proof (steps_sum (fun k => 1/2 * (1 + tanh (g * beyond u l po k (tct_view rot v)))) n m (fun j => A * q ^ j) (fun k => A * q ^ (m - 1 - k)) Hm) as S0.
  destruct S0 as [S1 S2].
  - intros k Hk. pose proof (tanh_bound (g * beyond u l po k (tct_view rot v))). split; [|lra].
    eapply Rle_trans; [|apply sigmoid_high]. rewrite <- T. apply Rplus_le_compat_l, Ropp_le_contravar.
    destruct (Rle_lt_or_eq_dec (- (2 * (g * beyond u l po k (tct_view rot v)))) (- (2 * (g * (c + INR (m - 1 - k) * p))))) as [Lt|Eq].
    + specialize (B1 k Hk). nra.
    + left. apply exp_increasing; auto.
    + right. f_equal. exact Eq.
  - intros k Hk. pose proof (tanh_bound (g * beyond u l po k (tct_view rot v))). split; [lra|].
    eapply Rle_trans; [apply sigmoid_low|]. rewrite <- T.
    destruct (Rle_lt_or_eq_dec (2 * (g * beyond u l po k (tct_view rot v))) (- (2 * (g * (c + INR (k - m) * p))))) as [Lt|Eq].
    + specialize (B2 k Hk). nra.
    + left. apply exp_increasing; auto.
    + right. f_equal. exact Eq.
  - rewrite <- E in S1, S2. rewrite geometric_down in S1 by auto. rewrite geometric_up in S2 by auto.
    pose proof (geometric_bound A q m A0 Q). pose proof (geometric_bound A q (n - m) A0 Q).
    change (bound) with (A / (1 - q)). rewrite minus_INR by auto. split; apply Rabs_le; lra.
Qed.

Lemma quantised_cauchy m c : kind = Cauchy -> 0 <= pitch u l po -> 0 < c -> between u l po n m c (tct_view rot v) ->
  let bound := INR n / (PI * gamma_of kind gf * c) in
  Rabs (fst o - INR m) <= bound /\ Rabs (snd o - INR (n - m)) <= bound.
Proof.
  intros K P Hc B bound.
  pose proof (occupation_sum cauchy_cdf (fun t => 1 / PI * atan t + 1/2) ltac:(right; auto)) as E.
  assert (Cdf : forall x x0 g, isclose0 g = false -> cauchy_cdf x x0 g = 1 / PI * atan ((x - x0) / g) + 1/2)
    by (intros x x0 g Hg; unfold cauchy_cdf; rewrite Hg; reflexivity). specialize (E Cdf).
  destruct (between_all u l po n m c _ P B) as [B1 B2]. destruct B as (Hm & _).
  set (g := gamma_of kind gf) in *. set (p := pitch u l po) in *. pose proof PI_RGT_0 as PI0.
  set (A := / (PI * (g * c))).
  assert (GC : 0 < g * c) by (apply Rmult_lt_0_compat; auto).
  assert (A0 : 0 < A) by (apply Rinv_0_lt_compat, Rmult_lt_0_compat; auto).
  assert (Mono : forall s t, s <= t -> atan s <= atan t) by (intros s t [Hl| ->]; [left; apply atan_increasing; auto|right; auto]).
  assert (PP : 0 < 1 / PI) by (apply Rdiv_lt_0_compat; lra).
  assert (Bd : forall t, 0 <= 1 / PI * atan t + 1/2 <= 1).
  { intros t. pose proof (atan_bound t) as [L1 L2]. assert (PE : 1 / PI * (PI / 2) = 1/2) by (field; lra). nra. }
  pose proof (steps_sum (fun k => 1 / PI * atan (g * beyond u l po k (tct_view rot v)) + 1/2) n m (fun _ => A) (fun _ => A) Hm) as S0.
  destruct S0 as [S1 S2].
  - intros k Hk. split; [|apply Bd]. eapply Rle_trans; [apply (cauchy_high (g * c) GC)|].
    apply Rplus_le_compat_r, Rmult_le_compat_l; [lra|]. apply Mono. specialize (B1 k Hk).
    pose proof (pos_INR (m - 1 - k)). assert (0 <= INR (m - 1 - k) * p) by (apply Rmult_le_pos; auto). nra.
  - intros k Hk. split; [apply Bd|]. eapply Rle_trans; [|apply (cauchy_low (g * c) GC)].
    apply Rplus_le_compat_r, Rmult_le_compat_l; [lra|]. apply Mono. specialize (B2 k Hk).
    pose proof (pos_INR (k - m)). assert (0 <= INR (k - m) * p) by (apply Rmult_le_pos; auto). nra.
  - rewrite <- E in S1, S2.
    assert (K1 : forall j, Rsum (map (fun _ : nat => A) (seq 0 j)) = INR j * A).
    { induction j as [|j IH]; [simpl; ring|]. rewrite seq_S, map_app, Rsum_app, IH, S_INR. cbn [map Rsum]. ring. }
    rewrite K1 in S1, S2.
    assert (INR m <= INR n) by (apply le_INR; auto). assert (INR (n - m) <= INR n) by (apply le_INR; lia).
    assert (Eb : bound = INR n * A) by (unfold bound, A, Rdiv; rewrite <- Rmult_assoc; reflexivity). rewrite Eb.
    rewrite minus_INR in * by auto. split; apply Rabs_le; nra.
Qed.
End Occupation.

(** ** The default configuration *)
Lemma default_pitch n u l po : (1 <= n)%nat -> interdot_line default_tcts n u l -> nth_error default_tcts (n - 1) = Some po ->
  46/10 <= pitch u l po /\ 1 / 100000000 * gamma_of Sigmoid None * dist2 u l < Rabs (cross (vec u l) (coupling_vector po)).
Proof.
  intros Hn (pu & cu & po' & Eu & Cu & -> & Eo & Co) Ep. rewrite Eo in Ep. injection Ep as ->.
  assert (Hn' : (n < 14)%nat) by (change 14%nat with (length default_tcts); apply nth_error_Some; congruence).
  assert (Main : forall x y, x = fst l - (fst cu + len_right pu) -> y = snd l - (snd cu + len_right pu * slope_right pu) ->
    let D := x * (end_y po - start_y po) - y * (end_x po - start_x po) in
    1 / 10000000 < D /\ 46/10 * D <= x * (len_left po * slope_left po + len_right po * slope_right po) - y * (len_left po + len_right po) /\
    -1/2 <= x <= 1/2 /\ -1/2 <= y <= 1/2).
  { destruct cu as [cx cy], l as [lx ly]. unfold default_tcts in *.
    destruct n as [|[|[|[|[|[|[|[|[|[|[|[|[|[|n]]]]]]]]]]]]]]; try (exfalso; lia).
    all: cbn [nth_error Nat.sub] in Eu, Eo; injection Eu as <-; injection Eo as <-.
    all: destruct Cu as [C1 C2], Co as [C3 C4]; numbers; intros x y Ex Ey; cbn zeta.
    all: repeat split; lra. }
  destruct (Main _ _ eq_refl eq_refl) as (M1 & M2 & Mx & My). cbn zeta in M1, M2. clear Main.
  unfold pitch, gamma_of, dist2, cross, vec, period_vector, coupling_vector. cbn [fst snd].
  set (x := fst l - (fst cu + len_right pu)) in *. set (y := snd l - (snd cu + len_right pu * slope_right pu)) in *.
  set (D := x * (end_y po - start_y po) - y * (end_x po - start_x po)) in *. split.
  - apply Rmult_le_reg_r with D; [lra|]. unfold Rdiv at 2. rewrite Rmult_assoc, Rinv_l by lra. lra.
  - rewrite Rabs_pos_eq by lra. replace (fst cu + len_right pu - fst l) with (- x) by (unfold x; ring).
    replace (snd cu + len_right pu * slope_right pu - snd l) with (- y) by (unfold y; ring).
    assert (sqrt ((- x) ^ 2 + (- y) ^ 2) <= 1). { rewrite <- sqrt_1. apply sqrt_le_1_alt. nra. }
    lra.
Qed.

Lemma exp_twentieths k : (21/20) ^ k <= exp (INR k * (1/20)).
Proof.
  rewrite exp_scale. apply pow_incr. split; [lra|]. pose proof (exp_ineq1 (1/20) ltac:(lra)). lra.
Qed.
Lemma small_tail x k B : INR k * (1/20) <= x -> 0 < B -> B <= (21/20) ^ k -> exp (- x) <= / B.
Proof.
  intros Hx HB Hk. rewrite exp_Ropp. apply Rinv_le_contravar; auto. eapply Rle_trans; [exact Hk|]. eapply Rle_trans; [apply exp_twentieths|].
  destruct Hx as [Hx| ->]; [left; apply exp_increasing; auto|right; auto].
Qed.
Lemma default_quantised label res d a1 b1 a2 b2 v o lab n u l po m c k B :
  (forall x, is_labelling x (label x)) ->
  ideal_csd_geometric label default_tcts [a1; b1] [a2; b2] res (- (PI / 4)) (Some 1000%nat) Sigmoid None = Ok d ->
  scan_pixel d (a1, b1) (a2, b2) v o lab -> fst o + snd o = INR n -> (1 <= n)%nat ->
  interdot_line default_tcts n u l -> nth_error default_tcts (n - 1) = Some po ->
  between u l po n m c (tct_view (- (PI / 4)) v) ->
  INR k * (1/20) <= 2 * (22/10) * c -> 0 < B -> B * (1 + 1/1000) <= (21/20) ^ k ->
  Rabs (fst o - INR m) <= / B /\ Rabs (snd o - INR (n - m)) <= / B.
Proof.
  intros Lab H Px Sum Hn I Ep Bt Hk HB Pk.
  destruct (default_pitch n u l po Hn I Ep) as [P W].
  assert (C : csd_config label default_tcts (Some 1000%nat) Sigmoid None) by exact (default_config label Lab).
  pose proof (quantised_sigmoid label default_tcts _ _ Sigmoid None res d a1 b1 a2 b2 v o lab n u l po C H Px Sum Hn I Ep
    ltac:(simpl; lra) W m c eq_refl ltac:(lra) Bt) as Q. cbn zeta in Q. cbn [gamma_of] in Q.
  assert (T1 : exp (- (2 * (22 / 10) * c)) <= / (B * (1 + 1/1000))) by (apply (small_tail _ k); lra).
  assert (T2 : exp (- (2 * (22 / 10) * pitch u l po)) <= / 1001).
  { apply (small_tail _ 150%nat); [rewrite INR_IZR_INZ; simpl IZR; lra|lra|].
    replace 150%nat with (15 * 10)%nat by reflexivity. rewrite pow_mult. apply Rle_trans with (2 ^ 10); [simpl; lra|]. apply pow_incr. simpl; lra. }
  assert (E : exp (- (2 * (22 / 10) * c)) / (1 - exp (- (2 * (22 / 10) * pitch u l po))) <= / B).
  { set (q := exp (- (2 * (22 / 10) * pitch u l po))) in *. set (e := exp (- (2 * (22 / 10) * c))) in *.
    apply Rmult_le_reg_r with (1 - q); [lra|]. unfold Rdiv. rewrite Rmult_assoc, Rinv_l by lra.
    rewrite Rinv_mult in T1. assert (0 < / B) by (apply Rinv_0_lt_compat; auto).
    replace (/ (1 + 1/1000)) with (1 - / 1001) in T1 by (field; lra). nra. }
  lra.
Qed.

Lemma default_between label res d a1 b1 a2 b2 v o lab n u l po m :
  (forall x, is_labelling x (label x)) ->
  ideal_csd_geometric label default_tcts [a1; b1] [a2; b2] res (- (PI / 4)) (Some 1000%nat) Sigmoid None = Ok d ->
  scan_pixel d (a1, b1) (a2, b2) v o lab -> fst o + snd o = INR n -> (1 <= n)%nat ->
  interdot_line default_tcts n u l -> nth_error default_tcts (n - 1) = Some po ->
  46/10 <= pitch u l po /\
  (between u l po n m 1 (tct_view (- (PI / 4)) v) -> Rabs (fst o - INR m) <= 1/72 /\ Rabs (snd o - INR (n - m)) <= 1/72) /\
  (between u l po n m (pitch u l po / 2) (tct_view (- (PI / 4)) v) -> Rabs (fst o - INR m) <= 1/15000 /\ Rabs (snd o - INR (n - m)) <= 1/15000).
Proof.
  intros Lab H P S N I E. destruct (default_pitch n u l po N I E) as [Pi _]. split; [exact Pi|]. split; intros Bt.
  - replace (1/72) with (/ 72) by lra. apply (default_quantised label res d a1 b1 a2 b2 v o lab n u l po m 1 88%nat 72 Lab H P S N I E Bt).
    + rewrite INR_IZR_INZ; simpl IZR; lra.
    + lra.
    + replace 88%nat with (8 * 11)%nat by reflexivity. rewrite pow_mult. apply Rle_trans with ((1477/1000) ^ 11); [simpl; lra|]. apply pow_incr. simpl; lra.
  - replace (1/15000) with (/ 15000) by lra. apply (default_quantised label res d a1 b1 a2 b2 v o lab n u l po m _ 202%nat 15000 Lab H P S N I E Bt).
    + rewrite INR_IZR_INZ; simpl IZR; lra.
    + lra.
    + replace 202%nat with (2 * 101)%nat by reflexivity. rewrite pow_mult. replace 101%nat with (1 + 10 * 10)%nat by reflexivity. rewrite pow_add, pow_mult.
      assert (L : 265/100 <= ((21/20) ^ 2) ^ 10) by (simpl; lra).
      assert (0 <= (((21/20) ^ 2) ^ 10) ^ 10 - (265/100) ^ 10) by (apply Rge_le, Rge_minus, Rle_ge, pow_incr; lra).
      assert (15500 <= (265/100) ^ 10 * (1102/1000)) by (simpl; lra). simpl ((_ ^ 2) ^ 1). lra.
Qed.
