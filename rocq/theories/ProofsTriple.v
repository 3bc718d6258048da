(** Proofs about interdot transitions between triple points. *)
From Verif Require Import RPrelude Arr ModelSupport ModelTct ModelCsd ModelInstance ModelDefault ModelSampling ModelConfigCsd SpecSupport SpecTct SpecCsd SpecOrder SpecInstance SpecQuant
  SpecSampling SpecConfigCsd SpecExchange ProofsSupport ProofsTct ProofsCsd ProofsOcc ProofsDriver ProofsRegions ProofsScan ProofsDistortions ProofsOrder ProofsCover ProofsConfigCsd
  ProofsDefault ProofsQuant ProofsExchange ProofsExchange2.
Local Open Scope R_scope.

Lemma triple_beyond params n k s q u l po : Forall admissible params -> interdot_line params n u l -> nth_error params (n - 1) = Some po ->
  same_period params n \/ k = 0%nat -> between_triple_points params n k s q -> beyond u l po k q = 0.
Proof.
  intros A (pu & cu & po' & Eu & Cu & -> & Eo & Cl) Ep P (p & r & c & d & E1 & E2 & Cc & (cp & cr & Cp & Cr & ->) & ->).
  rewrite Forall_forall in A. rewrite E1 in Eo, Ep. injection Eo as <-. injection Ep as <-. rewrite Eu in E2. injection E2 as <-.
  assert (Sp : slope_left p <> slope_right p) by (apply (A p (nth_error_In _ _ E1))).
  assert (Su : slope_left pu <> slope_right pu) by (apply (A pu (nth_error_In _ _ Eu))).
  assert (c = l) by exact (ProofsOcc.corner_unique p c l Sp Cc Cl). assert (cp = l) by exact (ProofsOcc.corner_unique p cp l Sp Cp Cl).
  assert (cr = cu) by exact (ProofsOcc.corner_unique pu cr cu Su Cr Cu). subst c cp cr.
  assert (PV : INR k * fst (period_vector p) = INR k * fst (period_vector pu) /\ INR k * snd (period_vector p) = INR k * snd (period_vector pu)).
  { destruct P as [(x & y & X1 & X2 & X3)| ->].
    - rewrite E1 in X1. injection X1 as <-. rewrite Eu in X2. injection X2 as <-. rewrite X3. auto.
    - simpl INR. lra. }
  unfold period_vector in PV. cbn [fst snd] in PV. destruct PV as [PV1 PV2].
  unfold beyond, Rdiv. apply Rmult_eq_0_compat_r. unfold cross, vec, peak_point. cbn [fst snd]. rewrite PV1, PV2. ring.
Qed.

Section Occupation.
Variables (label : arr2 nat -> arr2 nat) (params : list tct_params) (rot : R) (lut : option nat) (kind : cdf_kind) (gf : option R)
  (res : resolution) (d : csd_data) (a1 b1 a2 b2 : R) (v : point) (o : R * R) (lab n : nat) (u l : point) (po : tct_params).
Hypothesis (C : csd_config label params lut kind gf)
  (H : ideal_csd_geometric label params [a1; b1] [a2; b2] res rot lut kind gf = Ok d)
  (Px : scan_pixel d (a1, b1) (a2, b2) v o lab) (Sum : fst o + snd o = INR n) (Hn : (1 <= n)%nat)
  (I : interdot_line params n u l) (Ep : nth_error params (n - 1) = Some po)
  (G : 0 < gamma_of kind gf) (W : 1 / 100000000 * gamma_of kind gf * dist2 u l < Rabs (cross (vec u l) (coupling_vector po))).
Variables (k : nat) (s : R).
Hypothesis (Hk : (k < n)%nat) (P : 0 < pitch u l po) (Sp : same_period params n \/ k = 0%nat)
  (Tp : between_triple_points params n k s (tct_view rot v)).

Lemma triple_adm : Forall admissible params.
Proof. destruct C as (Pr & _). eapply Forall_impl; [|exact Pr]; simpl; tauto. Qed.
Lemma triple_steps (F : R -> R) (tail : nat -> R) : (forall x, 0 <= F x <= 1) -> F 0 = 1/2 ->
  (forall j, 1 - tail j <= F (gamma_of kind gf * (INR (S j) * pitch u l po)) /\ F (- (gamma_of kind gf * (INR (S j) * pitch u l po))) <= tail j) ->
  fst o = Rsum (map (fun k => F (gamma_of kind gf * beyond u l po k (tct_view rot v))) (seq 0 n)) ->
  INR k + 1/2 - Rsum (map (fun j => tail (k - 1 - j)%nat) (seq 0 k)) <= fst o <= INR k + 1/2 + Rsum (map tail (seq 0 (n - 1 - k))).
Proof.
  intros Bd Half Tl E.
  pose proof (triple_beyond params n k s _ u l po triple_adm I Ep Sp Tp) as B0.
  set (X := fun j => F (gamma_of kind gf * beyond u l po j (tct_view rot v))) in *.
  assert (Xk : X k = 1/2) by (unfold X; rewrite B0, Rmult_0_r; exact Half).
  replace n with (k + S (n - 1 - k))%nat in E by lia. rewrite seq_app, map_app, Rsum_app in E. cbn [Nat.add seq map Rsum] in E. rewrite Xk in E.
  pose proof (steps_sum X k k (fun _ => 0) (fun j => tail (k - 1 - j)%nat) ltac:(lia)) as S1.
  pose proof (steps_sum (fun j => X (S k + j)%nat) (n - 1 - k) 0 tail (fun _ => 0) ltac:(lia)) as S2.
  assert (Em : map X (seq (S k) (n - 1 - k)) = map (fun j => X (S k + j)%nat) (seq 0 (n - 1 - k))).
  { rewrite <- (map_map (fun j => (S k + j)%nat) X). f_equal. clear. generalize (n - 1 - k)%nat as m. generalize (S k) as a.
    intros a m. apply nth_error_ext. intros i. rewrite nth_error_map_seq. destruct (Nat.ltb_spec i m) as [L|L].
    - rewrite nth_error_nth' with (d := 0%nat) by (rewrite seq_length; auto). rewrite seq_nth by auto. reflexivity.
    - apply nth_error_None. rewrite seq_length. auto. }
  rewrite Em in E. rewrite Nat.sub_diag in S1. rewrite Nat.sub_0_r in S2. cbn [seq map Rsum] in S1, S2.
  destruct S1 as [S1 S1'].
  - intros j Hj. split; [|apply Bd]. destruct (Tl (k - 1 - j)%nat) as [T _]. eapply Rle_trans; [exact T|]. unfold X. right. do 2 f_equal.
    replace (beyond u l po j (tct_view rot v)) with (beyond u l po (j + (k - j)) (tct_view rot v) + INR (k - j) * pitch u l po) by (rewrite beyond_linear; ring).
    replace (j + (k - j))%nat with k by lia. rewrite B0. replace (S (k - 1 - j)) with (k - j)%nat by lia. ring.
  - intros j Hj; lia.
  - destruct S2 as [S2 S2'].
    + intros j Hj; lia.
    + intros j Hj. split; [apply Bd|]. destruct (Tl j) as [_ T]. rewrite Nat.sub_0_r. eapply Rle_trans; [|exact T]. unfold X. right. f_equal.
      replace (S k + j)%nat with (k + S j)%nat by lia. rewrite beyond_linear, B0. ring.
    + simpl (INR 0) in *. rewrite E. lra.
Qed.
Lemma triple_sigmoid : kind = Sigmoid ->
  let e := exp (- (2 * gamma_of kind gf * pitch u l po)) in Rabs (fst o - (INR k + 1/2)) <= e / (1 - e).
Proof.
  intros K e. pose proof (ProofsQuant.occupation_sum label params rot lut kind gf res d a1 b1 a2 b2 v o lab n u l po C H Px Sum Hn I Ep G W
    sigmoid_cdf (fun t => 1/2 * (1 + tanh t)) ltac:(left; auto)) as E.
  assert (Cdf : forall x x0 g, isclose0 g = false -> sigmoid_cdf x x0 g = 1/2 * (1 + tanh ((x - x0) / g)))
    by (intros x x0 g Hg; unfold sigmoid_cdf; rewrite Hg; reflexivity). specialize (E Cdf).
  assert (Q : 0 <= e < 1). { split; [left; apply exp_pos|]. unfold e. rewrite <- exp_0. apply exp_increasing. nra. }
  assert (T : forall j, exp (- (2 * (gamma_of kind gf * (INR (S j) * pitch u l po)))) = e * e ^ j).
  { intros j. unfold e. rewrite <- exp_scale, <- exp_plus. f_equal. rewrite S_INR. ring. }
  pose proof (triple_steps (fun t => 1/2 * (1 + tanh t)) (fun j => e * e ^ j)) as S0. destruct S0 as [S1 S2]; auto.
  - intros x. pose proof (tanh_bound x). lra.
  - rewrite tanh_exp, Rmult_0_r, exp_0. lra.
  - intros j. rewrite <- T. split; [apply sigmoid_high|]. eapply Rle_trans; [apply sigmoid_low|]. right. f_equal. ring.
  - rewrite geometric_up in S2 by auto. rewrite (geometric_down e e k) in S1 by auto.
    pose proof (geometric_bound e e k ltac:(lra) Q). pose proof (geometric_bound e e (n - 1 - k) ltac:(lra) Q).
    apply Rabs_le. lra.
Qed.
Lemma triple_cauchy : kind = Cauchy -> Rabs (fst o - (INR k + 1/2)) <= INR (n - 1) / (PI * gamma_of kind gf * pitch u l po).
Proof.
  intros K. pose proof (ProofsQuant.occupation_sum label params rot lut kind gf res d a1 b1 a2 b2 v o lab n u l po C H Px Sum Hn I Ep G W
    cauchy_cdf (fun t => 1 / PI * atan t + 1/2) ltac:(right; auto)) as E.
  assert (Cdf : forall x x0 g, isclose0 g = false -> cauchy_cdf x x0 g = 1 / PI * atan ((x - x0) / g) + 1/2)
    by (intros x x0 g Hg; unfold cauchy_cdf; rewrite Hg; reflexivity). specialize (E Cdf).
  pose proof PI_RGT_0 as PI0. assert (PP : 0 < 1 / PI) by (apply Rdiv_lt_0_compat; lra).
  assert (GP : 0 < gamma_of kind gf * pitch u l po) by (apply Rmult_lt_0_compat; auto).
  set (A := / (PI * (gamma_of kind gf * pitch u l po))).
  assert (A0 : 0 < A) by (apply Rinv_0_lt_compat, Rmult_lt_0_compat; auto).
  assert (Mono : forall x y, x <= y -> 1 / PI * atan x + 1/2 <= 1 / PI * atan y + 1/2).
  { intros x y [L| ->]; [|lra]. pose proof (atan_increasing x y L). nra. }
  assert (Bd : forall t, 0 <= 1 / PI * atan t + 1/2 <= 1).
  { intros t. pose proof (atan_bound t) as [L1 L2]. assert (PE : 1 / PI * (PI / 2) = 1/2) by (field; lra). nra. }
  assert (Far : forall j, gamma_of kind gf * pitch u l po <= gamma_of kind gf * (INR (S j) * pitch u l po)).
  { intros j. rewrite S_INR. pose proof (pos_INR j). assert (0 <= INR j * (gamma_of kind gf * pitch u l po)) by (apply Rmult_le_pos; lra). lra. }
  pose proof (triple_steps (fun t => 1 / PI * atan t + 1/2) (fun _ => A)) as S0. destruct S0 as [S1 S2]; auto.
  - rewrite atan_0. lra.
  - intros j. split.
    + eapply Rle_trans; [apply (cauchy_high _ GP)|]. apply Mono, Far.
    + eapply Rle_trans; [|apply (cauchy_low _ GP)]. apply Mono. specialize (Far j). lra.
  - assert (K1 : forall j, Rsum (map (fun _ : nat => A) (seq 0 j)) = INR j * A).
    { induction j as [|j IH]; [simpl; ring|]. rewrite seq_S, map_app, Rsum_app, IH, S_INR. cbn [map Rsum]. ring. }
    rewrite K1 in S1, S2.
    assert (INR k <= INR (n - 1)) by (apply le_INR; lia). assert (INR (n - 1 - k) <= INR (n - 1)) by (apply le_INR; lia).
    replace (INR (n - 1) / (PI * gamma_of kind gf * pitch u l po)) with (INR (n - 1) * A) by (unfold A, Rdiv; rewrite <- Rmult_assoc; reflexivity).
    apply Rabs_le. nra.
Qed.
End Occupation.

(** ** Sampled configurations *)
Lemma sampled_pitch p d : sampled_tct p d -> let i := interdot p d in
  0 < cross (- fst i, - snd i) (coupling_vector p) /\
  134/100 * cross (- fst i, - snd i) (coupling_vector p) <= cross (- fst i, - snd i) (period_vector p).
Proof.
  intros H. pose proof H as (L1 & L2 & S1 & S2 & A & _ & a & len & w & Ha & Hl & Hw & _ & [E1 E2] & E). cbv zeta in E. cbv zeta.
  fold (interdot p d) in E. rewrite E. unfold coupling_vector, period_vector. rewrite E1, E2.
  set (t := atan (slope_left p) + a) in *. set (m := atan ((slope_left p + slope_right p) / 2)) in *. cbn [fst snd].
  set (T := len_left p + len_right p). set (V := len_left p * slope_left p + len_right p * slope_right p). set (mu := V / T).
  assert (HT : 0.02 <= T) by (unfold T; lra).
  assert (EV : V = mu * T) by (unfold mu; field; lra).
  assert (T1 : 0 <= atan (slope_left p) <= slope_left p) by (apply atan_small_range; lra).
  assert (T2 : 0 <= - atan (slope_right p) <= - slope_right p) by (rewrite <- atan_opp; apply atan_small_range; lra).
  assert (M1 : m < atan (slope_left p)) by (apply atan_increasing; lra).
  assert (M2 : atan (slope_right p) < m) by (apply atan_increasing; lra).
  assert (B1 : mu < slope_left p). { apply Rmult_lt_reg_r with T; [lra|]. rewrite <- EV. unfold V, T. nra. }
  assert (B2 : slope_right p < mu). { apply Rmult_lt_reg_r with T; [lra|]. rewrite <- EV. unfold V, T. nra. }
  pose proof (atan_increasing _ _ B1) as N1. pose proof (atan_increasing _ _ B2) as N2.
  assert (Sm : 0.548 <= sin (t - m)) by (apply sin_mid; unfold t; lra).
  assert (Su : 0.548 <= sin (t - atan mu)) by (apply sin_mid; unfold t; lra).
  pose proof (slope_line mu t) as Sl.
  assert (N : 1 <= sqrt (1 + Rsqr mu)). { rewrite <- sqrt_1 at 1. apply sqrt_le_1_alt. pose proof (Rle_0_sqr mu). lra. }
  assert (Q : 0.548 <= sin t - mu * cos t) by (rewrite Sl; nra).
  replace (cross (- (len * cos t), - (len * sin t)) (start_x p + w * cos m - start_x p, start_y p + w * sin m - start_y p)) with (len * (w * sin (t - m)))
    by (rewrite sin_minus; unfold cross; cbn [fst snd]; ring).
  replace (cross (- (len * cos t), - (len * sin t)) (T, V)) with (len * (T * (sin t - mu * cos t)))
    by (rewrite EV; unfold cross; cbn [fst snd]; ring).
  pose proof (SIN_bound (t - m)) as SB.
  assert (X1 : 0.01096 <= T * (sin t - mu * cos t)) by nra.
  assert (X2 : 0 < w * sin (t - m) <= 0.00814) by nra.
  split; [nra|]. replace (134/100 * (len * (w * sin (t - m)))) with (len * (134/100 * (w * sin (t - m)))) by ring.
  apply Rmult_le_compat_l; lra.
Qed.
Lemma translates_line p d tcts n u l po : sampled_tct p d -> translates p d tcts -> (1 <= n)%nat -> interdot_line tcts n u l -> nth_error tcts (n - 1) = Some po ->
  vec u l = (- fst (interdot p d), - snd (interdot p d)) /\ coupling_vector po = coupling_vector p /\ period_vector po = period_vector p.
Proof.
  intros H Tr Hn (pu & cu & po' & Iu & Cu & -> & Io & Cl) Epo. rewrite Epo in Io. injection Io as <-.
  pose proof (Tr _ _ Iu) as Hq. pose proof (Tr _ _ Epo) as Ho.
  pose proof (sampled_corner p d H) as C. set (c := (start_x p + _, _)) in C.
  assert (Np : slope_left p <> slope_right p) by (destruct H as (_ & _ & ? & ? & _); lra).
  assert (El : l = (fst c + INR (n - 1) * fst d, snd c + INR (n - 1) * snd d)).
  { apply (ProofsOcc.corner_unique po); auto; [subst po; auto|]. subst po. destruct C as [C1 C2]. split; cbn [start_x start_y end_x end_y slope_left slope_right fst snd]; lra. }
  assert (Ec : cu = (fst c + INR n * fst d, snd c + INR n * snd d)).
  { apply (ProofsOcc.corner_unique pu); auto; [subst pu; auto|]. subst pu. destruct C as [C1 C2]. split; cbn [start_x start_y end_x end_y slope_left slope_right fst snd]; lra. }
  assert (En : INR n = INR (n - 1) + 1) by (rewrite minus_INR by lia; simpl; ring).
  split; [|split].
  - unfold vec, interdot. subst cu l pu. cbn [fst snd len_right slope_right]. rewrite En. f_equal; ring.
  - subst po. unfold coupling_vector. cbn [start_x start_y end_x end_y]. f_equal; ring.
  - subst po. reflexivity.
Qed.
Lemma sampled_triple {G} (r : rng G) fuel label g x g1 res dd a1 b1 a2 b2 v o lab n k s : uniform_ok r -> (forall m, is_labelling m (label m)) ->
  sample_ideal_csd r fuel label g = (Ok x, g1) ->
  ideal_csd_geometric label (g_tcts x) [a1; b1] [a2; b2] res (g_rotation x) (g_lut x) (g_cdf x) (g_gamma x) = Ok dd ->
  scan_pixel dd (a1, b1) (a2, b2) v o lab -> fst o + snd o = INR n -> (k < n)%nat ->
  between_triple_points (g_tcts x) n k s (tct_view (g_rotation x) v) -> Rabs (fst o - (INR k + 1/2)) <= 1/300.
Proof.
  intros U Lab E H Px Sum Hk Tp. destruct (sampled_shape r fuel U label Lab g x g1 E) as (p & d & Sp & (A1 & A2 & A3 & A4) & Len & Tr).
  destruct (sampled_ordered r fuel U label Lab g x g1 E) as (C & _). unfold config_ok in C.
  assert (Hn : (1 <= n < length (g_tcts x))%nat).
  { destruct Tp as (q & q' & _ & _ & _ & Eq & _). split; [lia|]. apply nth_error_Some. congruence. }
  pose proof (translates_exchangeable p d _ Sp Tr n Hn) as [SP Cp].
  assert (Fa : Forall admissible (g_tcts x)) by (destruct C as (Pr & _); eapply Forall_impl; [|exact Pr]; simpl; tauto).
  destruct (interdot_exists _ n Fa Hn) as (u & l & I). assert (I' := I). destruct I' as (_ & _ & po & _ & _ & _ & Ep & _).
  destruct (translates_line p d _ n u l po Sp Tr ltac:(lia) I Ep) as (Ev & Ec & Epp).
  destruct (sampled_pitch p d Sp) as [P1 P2]. cbv zeta in P1, P2.
  assert (Pi : 134/100 <= pitch u l po) by (unfold pitch; rewrite Ev, Ec, Epp; apply ratio_low; auto).
  assert (Gm : gamma_of (g_cdf x) (g_gamma x) = 22/10) by (rewrite A3, A4; reflexivity).
  specialize (Cp u l po I Ep). rewrite (Rabs_pos_eq (22/10)) in Cp by lra. rewrite <- Gm in Cp.
  pose proof (triple_sigmoid label (g_tcts x) (g_rotation x) (g_lut x) (g_cdf x) (g_gamma x) res dd a1 b1 a2 b2 v o lab n u l po C H Px Sum ltac:(lia) I Ep
    ltac:(rewrite Gm; lra) Cp k s Hk ltac:(lra) (or_introl SP) Tp A3) as Q. cbv zeta in Q. rewrite Gm in Q.
  eapply Rle_trans; [exact Q|].
  assert (T : exp (- (2 * (22/10) * pitch u l po)) <= / 301).
  { apply (small_tail _ 117%nat); [rewrite INR_IZR_INZ; simpl IZR; lra|lra|].
    replace 117%nat with (9 * 13)%nat by reflexivity. rewrite pow_mult. apply Rle_trans with ((15513/10000) ^ 13); [simpl; lra|]. apply pow_incr. simpl; lra. }
  pose proof (exp_pos (- (2 * (22/10) * pitch u l po))) as Q0. set (e := exp _) in *.
  apply Rmult_le_reg_r with (1 - e); [lra|]. unfold Rdiv at 1. rewrite Rmult_assoc, Rinv_l by lra. lra.
Qed.

(** ** The default configuration: the last transition with seven electrons *)
Section Default.
Variable label : arr2 nat -> arr2 nat.
Hypothesis Lab : forall m, is_labelling m (label m).
Let lut := Some 1000%nat.
Let c7 : point := (-65053332250091/591774800000000, -7516702012984911943591/59177480000000000000000).
Let c8 : point := (-488258306400959/3935302400000000, -47701059368117258135767/393530240000000000000000).
Let u : point := (fst c8 + len_right tct8, snd c8 + len_right tct8 * slope_right tct8).
Let d : point := (fst c8 + 6 * (len_left tct8 + len_right tct8) + len_right tct8 - (fst c7 + 6 * (len_left tct7 + len_right tct7)),
  snd c8 + 6 * (len_left tct8 * slope_left tct8 + len_right tct8 * slope_right tct8) + len_right tct8 * slope_right tct8
  - (snd c7 + 6 * (len_left tct7 * slope_left tct7 + len_right tct7 * slope_right tct7))).
Let q : point := (fst c7 + 6 * (len_left tct7 + len_right tct7) + 9/10 * fst d,
  snd c7 + 6 * (len_left tct7 * slope_left tct7 + len_right tct7 * slope_right tct7) + 9/10 * snd d).
Lemma i6 : INR 6 = 6. Proof. rewrite INR_IZR_INZ. reflexivity. Qed.
Lemma i7 : INR 7 = 7. Proof. rewrite INR_IZR_INZ. reflexivity. Qed.
Lemma i8 : INR 8 = 8. Proof. rewrite INR_IZR_INZ. reflexivity. Qed.
Lemma q_triple : between_triple_points default_tcts 7 6 (9/10) q.
Proof.
  exists tct7, tct8, c7, d. split; [reflexivity|]. split; [reflexivity|]. split; [exact c7_corner|]. split.
  - exists c7, c8. split; [exact c7_corner|]. split; [exact c8_corner|]. unfold peak_point. cbn [fst snd]. rewrite i6. reflexivity.
  - unfold peak_point. cbn [fst snd]. rewrite i6. reflexivity.
Qed.
Lemma beyond_q : beyond u c7 tct7 6 q <= - (14/100).
Proof.
  unfold beyond. match goal with |- ?a / ?b <= _ => assert (B : 0 < b /\ 14/100 * b <= - a) end.
  { unfold cross, vec, peak_point, coupling_vector, u, q, d, c7, c8, tct7, tct8; numbers; rewrite ?i6; lra. }
  destruct B as [B1 B2]. pose proof (ratio_low _ _ _ B1 B2) as R0. unfold Rdiv in *. lra.
Qed.
Lemma q_above : on_or_above default_tcts lut (- (PI / 4)) (rotate_point (- (PI / 4)) q) 7.
Proof.
  assert (Ev : tct_view (- (PI / 4)) (rotate_point (- (PI / 4)) q) = q) by (unfold tct_view; apply rotate_back).
  destruct (stack_exists default_tcts lut 0.43 0.0000025 default_bounded 7 tct7 ltac:(lia) eq_refl) as (F & HF).
  exists tct7, (F (fst q)). split; [lia|]. split; [reflexivity|]. rewrite Ev. split; [apply HF|].
  assert (B : bounded_tct 0.43 0.0000025 lut tct7) by exact (nth_bounded default_tcts lut 0.43 0.0000025 default_bounded 6 tct7 tct7_nth).
  destruct (bounded_explicit 0.43 0.0000025 lut tct7 7 F ltac:(lra) B ltac:(lia) HF) as (f & Hf & Cl). specialize (Cl (fst q)). apply Rabs_le_inv in Cl.
  destruct B as (A & Pk & _). pose proof (below_right_line tct7 c7 7 f A Pk c7_corner ltac:(lia) Hf (fst q)) as Bl. rewrite i7 in Bl.
  set (y := f (fst q)) in *. set (Y := F (fst q)) in *. clearbody y Y. clear HF Hf Ev.
  revert Bl. unfold q, d, c7, c8, tct7, tct8; numbers. intros Bl. lra.
Qed.
Lemma q_below : strictly_below default_tcts lut (- (PI / 4)) (rotate_point (- (PI / 4)) q) 8.
Proof.
  assert (Ev : tct_view (- (PI / 4)) (rotate_point (- (PI / 4)) q) = q) by (unfold tct_view; apply rotate_back).
  destruct (stack_exists default_tcts lut 0.43 0.0000025 default_bounded 8 tct8 ltac:(lia) eq_refl) as (F & HF).
  exists tct8, (F (fst q)). split; [lia|]. split; [reflexivity|]. rewrite Ev. split; [apply HF|].
  assert (B : bounded_tct 0.43 0.0000025 lut tct8) by exact (nth_bounded default_tcts lut 0.43 0.0000025 default_bounded 7 tct8 tct8_nth).
  destruct (bounded_explicit 0.43 0.0000025 lut tct8 8 F ltac:(lra) B ltac:(lia) HF) as (f & Hf & Cl). specialize (Cl (fst q)). apply Rabs_le_inv in Cl.
  destruct B as (A & Pk & _).
  pose proof (above_valleys tct8 c8 8 f A Pk c8_corner ltac:(lia) Hf (fst q) ltac:(lia)) as Bl. rewrite i8 in Bl.
  specialize (Bl ltac:(unfold q, d, c7, c8, tct7, tct8; numbers; lra)).
  set (y := f (fst q)) in *. set (Y := F (fst q)) in *. clearbody y Y. clear HF Hf Ev.
  revert Bl. unfold q, d, c7, c8, tct7, tct8; numbers. intros Bl. lra.
Qed.
Lemma default_triple_misses : exists v o lead,
  ideal_csd_geometric label default_tcts [fst v; fst v] [snd v; snd v] (ResInt 1) (- (PI / 4)) lut Sigmoid None = Ok (Csd1 [o] lead) /\
  between_triple_points default_tcts 7 6 (9/10) (tct_view (- (PI / 4)) v) /\ fst o + snd o = 7 /\ fst o < 6 + 1/2 - 1/8.
Proof.
  set (v := rotate_point (- (PI / 4)) q).
  assert (Ev : tct_view (- (PI / 4)) v = q) by (unfold tct_view, v; apply rotate_back).
  pose proof (default_config label Lab) as C. pose proof C as (P & _). cbn [g_tcts g_lut g_cdf g_gamma default_csd] in C, P.
  assert (K : Sigmoid <> UnknownCdf) by discriminate.
  assert (Er : res_list (ResInt 1) = [Z.of_nat 1]) by reflexivity.
  destruct (csd_1d label default_tcts (fst v) (fst v) (snd v) (snd v) (ResInt 1) 1 (- (PI / 4)) lut Sigmoid None _ P K eq_refl Er) as (occ & lead & E & Lo & Ll & _ & _ & Q).
  destruct occ as [|o [|]]; try discriminate Lo. destruct lead as [|lab [|]]; try discriminate Ll.
  assert (Pv : forall x, pixel_voltage (x, x) 1 0 = x) by (intros x; unfold pixel_voltage; cbn [fst snd INR]; ring).
  destruct (Q 0%nat o eq_refl) as (m & A & Po). rewrite !Pv in A, Po. replace (fst v, snd v) with v in A, Po by (destruct v; auto).
  assert (El : electrons default_tcts lut (- (PI / 4)) v 7).
  { split; [|exact q_below]. intros k Hk. 
    apply (above_lower default_tcts lut 0.43 0.0000025 0.0016 ltac:(lra) default_bounded default_stacked ltac:(lra) _ v k 7); [lia|exact q_above]. }
  assert (m = 7%nat). { destruct A as [A|[A _]]; [exact (electrons_unique _ _ _ _ _ _ A El)|exfalso; exact (electrons_not_above_all _ _ _ _ _ El A)]. } subst m.
  destruct (pixel_occ_bounds _ _ _ _ _ _ _ Po) as (_ & S1 & _). rewrite i7 in S1.
  exists v, o, [lab]. split; [exact E|]. split; [rewrite Ev; exact q_triple|]. split; [exact S1|].
  assert (Px : scan_pixel (Csd1 [o] [lab]) (fst v, fst v) (snd v, snd v) v o lab).
  { exists 0%nat. cbn [length]. rewrite !Pv. repeat split; auto. }
  assert (Cdf : forall x x0 g, isclose0 g = false -> sigmoid_cdf x x0 g = 1/2 * (1 + tanh ((x - x0) / g)))
    by (intros x x0 g Hg; unfold sigmoid_cdf; rewrite Hg; reflexivity).
  destruct (default_pitch 7 u c7 tct7 ltac:(lia) line7 eq_refl) as [Pi W].
  pose proof (ProofsQuant.occupation_sum label default_tcts (- (PI / 4)) lut Sigmoid None (ResInt 1) _ _ _ _ _ v o lab 7 u c7 tct7 C E Px ltac:(rewrite i7; lra) ltac:(lia) line7 eq_refl
    ltac:(simpl; lra) W sigmoid_cdf (fun t => 1/2 * (1 + tanh t)) ltac:(left; auto) Cdf) as F.
  rewrite Ev in F. cbn [gamma_of] in F. cbn [seq map Rsum] in F.
  assert (One : forall t, 1/2 * (1 + tanh t) <= 1) by (intros t; pose proof (tanh_bound t); lra).
  assert (L : 1/2 * (1 + tanh (22/10 * beyond u c7 tct7 6 q)) < 3/8).
  { pose proof beyond_q as Bq. set (b := beyond u c7 tct7 6 q) in *. rewrite tanh_exp.
    assert (X : exp (2 * (22/10 * b)) < 3/5).
    { apply Rle_lt_trans with (exp (- (616/1000))); [apply exp_le; lra|].
      rewrite exp_Ropp. replace (3/5) with (/ (5/3)) by lra. apply Rinv_lt_contravar; [apply Rmult_lt_0_compat; [lra|apply exp_pos]|].
      replace (616/1000) with (308/1000 + 308/1000) by lra. rewrite exp_plus. pose proof (exp_ge (308/1000)). nra. }
    pose proof (exp_pos (2 * (22/10 * b))) as X0. set (e := exp _) in *.
    assert (Y : / (8/5) < / (e + 1)) by (apply Rinv_lt_contravar; [nra|lra]). unfold Rdiv. lra. }
  repeat match type of F with context [1/2 * (1 + tanh ?t)] => pose proof (One t); set (tanh t) in * end.
  lra.
Qed.
End Default.

Lemma sampled_exchange {G} (r : rng G) fuel label g x g1 res res' dd dd' a1 b1 a2 b2 c1 e1 c2 e2 v o lab o' lab' : uniform_ok r -> (forall m, is_labelling m (label m)) ->
  sample_ideal_csd r fuel label g = (Ok x, g1) ->
  ideal_csd_geometric label (g_tcts x) [a1; b1] [a2; b2] res (g_rotation x) (g_lut x) (g_cdf x) (g_gamma x) = Ok dd ->
  ideal_csd_geometric label (exchanged_tcts (g_tcts x)) [c1; e1] [c2; e2] res' (g_rotation x) (g_lut x) (g_cdf x) (g_gamma x) = Ok dd' ->
  scan_pixel dd (a1, b1) (a2, b2) v o lab -> scan_pixel dd' (c1, e1) (c2, e2) (exchange v) o' lab' ->
  fst o' + snd o' = fst o + snd o -> o' = exchange o.
Proof.
  intros U Lab E. destruct (sampled_shape r fuel U label Lab g x g1 E) as (p & d & Sp & (A1 & A2 & A3 & A4) & Len & Tr).
  destruct (sampled_ordered r fuel U label Lab g x g1 E) as (C & _). unfold config_ok in C. rewrite A1.
  apply exchange_pixels; auto.
  assert (Gm : gamma_of (g_cdf x) (g_gamma x) = 22/10) by (rewrite A3, A4; reflexivity). rewrite Gm. eapply translates_exchangeable; eauto.
Qed.
