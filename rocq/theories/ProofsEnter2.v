(** Proofs about the dot that gets the electron: the straight parts belong to the TCT; default and sampled configurations. *)
From Verif Require Import RPrelude Arr ModelSupport ModelTct ModelCsd ModelInstance ModelSampling ModelConfigCsd ModelDefault
  SpecSupport SpecTct SpecCsd SpecOrder SpecInstance SpecSampling SpecConfigCsd SpecQuant SpecExchange SpecEnter
  ProofsSupport ProofsTct ProofsTctShape ProofsOcc ProofsScan ProofsConfigCsd ProofsDefault ProofsQuant ProofsTriple ProofsExchange2 ProofsSmooth ProofsEnter.
Local Open Scope R_scope.

Lemma periods p lut f : admissible p -> good_mode p lut -> is_tct p lut None f ->
  forall k x, f (x + INR k * (len_left p + len_right p)) = f x + INR k * (len_left p * slope_left p + len_right p * slope_right p).
Proof.
  intros A M F k. induction k as [|k IH]; intros x.
  - simpl. rewrite !Rmult_0_l, !Rplus_0_r. reflexivity.
  - rewrite S_INR. replace (x + (INR k + 1) * (len_left p + len_right p)) with (x + INR k * (len_left p + len_right p) + (len_left p + len_right p)) by ring.
    rewrite (tct_periodic p lut f A M F), IH. ring.
Qed.
Lemma branch_on_tct params lut n k right t b p f : nth_error params (n - 1) = Some p -> admissible p -> good_mode p lut ->
  is_tct p lut (Some n) f -> on_branch params n k right t b -> straight_part params n k right b -> f (fst b) = snd b.
Proof.
  intros Ep A M Fn (p1 & c & Hk & E1 & Co & Ht & Ot & Eb) (p2 & c2 & E2 & Co2 & St).
  rewrite Ep in E1, E2. injection E1 as <-. injection E2 as <-.
  rewrite (ProofsOcc.corner_unique p c2 c (proj1 A) Co2 Co) in St. clear Co2 c2.
  destruct (tct_total p lut None A M Logic.I) as [f0 F0].
  destruct (tct_one_period p lut f0 A M F0) as (c' & Co' & _ & Q2 & _ & Q4).
  rewrite (ProofsOcc.corner_unique p c' c (proj1 A) Co' Co) in *. clear c' Co'. cbv zeta in Q2, Q4.
  destruct (tct_outer p lut n f0 f A M ltac:(lia) F0 Fn) as (O1 & O2 & O3). cbv zeta in O1, O2, O3.
  pose proof (periods p lut f0 A M F0) as Per.
  destruct A as (Hs & HT & c' & Co' & A1 & A2 & A3).
  rewrite (ProofsOcc.corner_unique p c' c Hs Co' Co) in *. clear c' Co'.
  destruct Co as [C1 C2]. set (T := len_left p + len_right p) in *. set (V := len_left p * slope_left p + len_right p * slope_right p) in *.
  assert (Kn : INR k + 1 <= INR n) by (rewrite <- S_INR; apply le_INR; lia). pose proof (pos_INR k) as K0.
  assert (KT : 0 <= INR k * T) by (apply Rmult_le_pos; lra).
  assert (ET : T = len_left p + len_right p) by reflexivity.
  assert (EV : V = len_left p * slope_left p + len_right p * slope_right p) by reflexivity.
  assert (Px : fst (peak_point p c k) = fst c + INR k * T) by reflexivity.
  assert (Py : snd (peak_point p c k) = snd c + INR k * V) by reflexivity.
  cbv zeta in St, Eb. rewrite Px, Py in Eb. rewrite Px in St. clear Px Py. clearbody T V.
  destruct right; unfold branch_vector in Eb; cbn [fst snd] in Eb; subst b; cbn [fst snd] in *.
  - destruct St as [S1 S2]. set (x := fst c + INR k * T + t * len_right p) in *.
    assert (Ey : snd c + INR k * V + t * (len_right p * slope_right p) = snd c + INR k * V + slope_right p * (x - (fst c + INR k * T))) by (unfold x; ring).
    rewrite Ey. clear Ey. clearbody x. unfold outer in S2. destruct (Nat.eq_dec (S k) n) as [En|Nn].
    + rewrite O3; rewrite <- En, S_INR; lra.
    + destruct S2 as [S2|S2]; [lia|].
      assert (K1 : INR k + 1 + 1 <= INR n) by (rewrite <- !S_INR; apply le_INR; lia).
      assert (KN : INR k * T + T <= (INR n - 1) * T) by nra.
      rewrite O1 by lra. replace x with (x - INR k * T + INR k * T) by ring. rewrite Per, Q2 by lra. lra.
  - destruct St as [S1 S2]. set (x := fst c + INR k * T + - t * len_left p) in *.
    assert (Ey : snd c + INR k * V + - t * (len_left p * slope_left p) = snd c + INR k * V + slope_left p * (x - (fst c + INR k * T))) by (unfold x; ring).
    rewrite Ey. clear Ey. clearbody x. unfold outer in S2. destruct k as [|k].
    + simpl (INR 0) in *. rewrite O2; lra.
    + destruct S2 as [S2|S2]; [lia|]. rewrite S_INR in *.
      assert (K1 : 0 <= INR k * T) by (apply Rmult_le_pos; [apply pos_INR|lra]).
      assert (KN : INR k * T + T <= (INR n - 1) * T) by nra.
      rewrite O1 by nra. replace x with (x - INR k * T + INR k * T) by ring. rewrite Per.
      assert (F1 : f0 (start_x p) = start_y p) by (rewrite <- O1 by nra; rewrite O2; lra).
      pose proof (Per 1%nat (start_x p)) as P1. simpl (INR 1) in P1. rewrite !Rmult_1_l, F1 in P1.
      rewrite Q4 by lra. rewrite P1. lra.
Qed.

(** ** Default configuration *)
Lemma nat_bool right : INR (Nat.b2n right) = if right then 1 else 0.
Proof. destruct right; reflexivity. Qed.
Section DefaultJump.
Context (label : arr2 nat -> arr2 nat) (Lab : forall x, is_labelling x (label x)) (res : resolution) (d : csd_data) (a1 b1 a2 b2 : R) (v : point) (o : R * R) (lab n : nat)
  (H : ideal_csd_geometric label default_tcts [a1; b1] [a2; b2] res (- (PI / 4)) (Some 1000%nat) Sigmoid None = Ok d)
  (Px : scan_pixel d (a1, b1) (a2, b2) v o lab).
Lemma default_above k right t b tau e : fst o + snd o = INR n -> on_branch default_tcts n k right t b -> dist2 (tct_view (- (PI / 4)) v) b <= 5/100000 ->
  (tau = 1/3 /\ e = 1/8) \/ (tau = 1/2 /\ e = 1/27) -> tau <= t -> outer right n k \/ t <= 1 - tau ->
  Rabs (fst o - (INR k + (if right then 1 else 0))) <= e.
Proof.
  intros Sum Br Near Te T1 T2.
  assert (A : exists c m B, 0 < c /\ c <= tau * (157/100) /\ 1/3 <= tau <= 1/2 /\ INR m * (1/20) <= 2 * (22/10) * c /\ 1 < B < 400 /\ B + 1/1000 <= (21/20) ^ m /\ e = / B).
  { destruct Te as [[-> ->]|[-> ->]].
    - exists (52/100), 45%nat, 8. repeat split; try lra; rewrite INR_IZR_INZ; simpl IZR; lra.
    - exists (78/100), 68%nat, 27. repeat split; try lra; rewrite INR_IZR_INZ; simpl IZR; lra. }
  destruct A as (c & m & B & A1 & A2 & A3 & A4 & A5 & A6 & ->).
  destruct (default_above_gen label Lab res d a1 b1 a2 b2 v o lab n H Px Sum k right t b c tau Br Near A3 T1 T2 A2) as (u & l & po & Hn & I & Ep & Bt).
  pose proof (default_tail label Lab res d a1 b1 a2 b2 v o lab n H Px Sum u l po _ c m B Hn I Ep A1 A4 ltac:(lra) A6 Bt ltac:(lra)) as [Q _].
  rewrite plus_INR, nat_bool in Q. exact Q.
Qed.
Lemma default_below k right t b tau e : fst o + snd o = INR n - 1 -> on_branch default_tcts n k right t b -> dist2 (tct_view (- (PI / 4)) v) b <= 5/100000 ->
  (tau = 1/3 /\ e = 1/5) \/ (tau = 1/2 /\ e = 1/17) -> tau <= t -> outer right n k \/ t <= 1 - tau ->
  Rabs (fst o - INR k) <= e.
Proof.
  intros Sum Br Near Te T1 T2. assert (Hk : (k < n)%nat) by (destruct Br as (? & ? & ? & _); lia).
  destruct n as [|n']; [lia|]. rewrite S_INR in Sum. replace (INR n' + 1 - 1) with (INR n') in Sum by ring.
  destruct n' as [|m'].
  - assert (C : csd_config label default_tcts (Some 1000%nat) Sigmoid None) by exact (default_config label Lab).
    destruct (scan_bounds _ _ _ _ _ _ _ _ _ _ _ _ _ _ _ _ _ C eq_refl eq_refl H Px). simpl in Sum.
    replace k with 0%nat by lia. simpl. assert (0 <= e) by (destruct Te as [[_ ->]|[_ ->]]; lra). apply Rabs_le; lra.
  - assert (A : exists c m B, 0 < c /\ ((tau = 1/3 /\ c = 119/300) \/ (tau = 1/2 /\ c = 135/200)) /\ INR m * (1/20) <= 2 * (22/10) * c /\ 1 < B < 400 /\ B + 1/1000 <= (21/20) ^ m /\ e = / B).
    { destruct Te as [[-> ->]|[-> ->]].
      - exists (119/300), 34%nat, 5. repeat split; try lra; rewrite INR_IZR_INZ; simpl IZR; lra.
      - exists (135/200), 59%nat, 17. repeat split; try lra; rewrite INR_IZR_INZ; simpl IZR; lra. }
    destruct A as (c & m & B & A1 & A2 & A4 & A5 & A6 & ->).
    destruct (default_below_gen label Lab res d a1 b1 a2 b2 v o lab (S m') H Px Sum k right t b c tau ltac:(lia) Br Near T1 T2 A2) as (u & l & po & I & Ep & Bt).
    exact (proj1 (default_tail label Lab res d a1 b1 a2 b2 v o lab (S m') H Px Sum u l po _ c m B ltac:(lia) I Ep A1 A4 ltac:(lra) A6 Bt ltac:(lra))).
Qed.
End DefaultJump.

Lemma default_jump label res res' d d' a1 b1 a2 b2 a1' b1' a2' b2' v v' o o' lab lab' n k right t b tau e :
  (forall x, is_labelling x (label x)) ->
  ideal_csd_geometric label default_tcts [a1; b1] [a2; b2] res (- (PI / 4)) (Some 1000%nat) Sigmoid None = Ok d -> scan_pixel d (a1, b1) (a2, b2) v o lab ->
  ideal_csd_geometric label default_tcts [a1'; b1'] [a2'; b2'] res' (- (PI / 4)) (Some 1000%nat) Sigmoid None = Ok d' -> scan_pixel d' (a1', b1') (a2', b2') v' o' lab' ->
  fst o + snd o = INR n -> fst o' + snd o' = INR n - 1 -> on_branch default_tcts n k right t b ->
  dist2 (tct_view (- (PI / 4)) v) b <= 5/100000 -> dist2 (tct_view (- (PI / 4)) v') b <= 5/100000 ->
  (tau = 1/3 /\ e = 1/3) \/ (tau = 1/2 /\ e = 1/10) -> tau <= t -> outer right n k \/ t <= 1 - tau ->
  let j := if right then 1 else 0 in
  Rabs (fst o - fst o' - j) <= e /\ Rabs (snd o - snd o' - (1 - j)) <= e.
Proof.
  intros Lab H Px H' Px' Sum Sum' Br N1 N2 Te T1 T2 j.
  assert (A : Rabs (fst o - fst o' - j) <= e).
  { destruct Te as [[-> ->]|[-> ->]].
    - pose proof (default_above label Lab res d a1 b1 a2 b2 v o lab n H Px k right t b (1/3) (1/8) Sum Br N1 ltac:(left; auto) T1 T2) as Q1.
      pose proof (default_below label Lab res' d' a1' b1' a2' b2' v' o' lab' n H' Px' k right t b (1/3) (1/5) Sum' Br N2 ltac:(left; auto) T1 T2) as Q2.
      fold j in Q1. apply Rabs_le_inv in Q1, Q2. apply Rabs_le. lra.
    - pose proof (default_above label Lab res d a1 b1 a2 b2 v o lab n H Px k right t b (1/2) (1/27) Sum Br N1 ltac:(right; auto) T1 T2) as Q1.
      pose proof (default_below label Lab res' d' a1' b1' a2' b2' v' o' lab' n H' Px' k right t b (1/2) (1/17) Sum' Br N2 ltac:(right; auto) T1 T2) as Q2.
      fold j in Q1. apply Rabs_le_inv in Q1, Q2. apply Rabs_le. lra. }
  split; [exact A|]. replace (snd o - snd o' - (1 - j)) with (- (fst o - fst o' - j)) by lra. rewrite Rabs_Ropp. exact A.
Qed.

(** ** Sampled configurations *)
Lemma sampled_span p d : sampled_tct p d -> let i := interdot p d in let D := cross (- fst i, - snd i) (coupling_vector p) in
  0 < D /\ 134/100 * D <= cross (- fst i, - snd i) (period_vector p) /\
  forall s, 67/100 * D + 2/100000 * sqrt (fst i ^ 2 + snd i ^ 2) <= cross (- fst i, - snd i) (branch_vector s p).
Proof.
  intros H i D. destruct (sampled_pitch p d H) as [P1 P2]. fold i in P1, P2. fold D in P1, P2. split; [exact P1|]. split; [exact P2|].
  pose proof H as (L1 & L2 & S1 & S2 & A & _ & a & len & w & Ha & Hl & Hw & _ & [E1 E2] & E). cbv zeta in E.
  fold (interdot p d) in E. unfold D. clear P1 P2. clear D. subst i. rewrite E. unfold coupling_vector. rewrite E1, E2.
  set (t := atan (slope_left p) + a) in *. set (m := atan ((slope_left p + slope_right p) / 2)) in *. cbn [fst snd].
  assert (T1 : 0 <= atan (slope_left p) <= slope_left p) by (apply atan_small_range; lra).
  assert (T2 : 0 <= - atan (slope_right p) <= - slope_right p) by (rewrite <- atan_opp; apply atan_small_range; lra).
  assert (M1 : m < atan (slope_left p)) by (apply atan_increasing; lra).
  assert (M2 : atan (slope_right p) < m) by (apply atan_increasing; lra).
  assert (Sm : 0.548 <= sin (t - m)) by (apply sin_mid; unfold t; lra).
  assert (Q : forall mu, 0.548 <= sin (t - atan mu) -> 0.548 <= sin t - mu * cos t).
  { intros mu Su. assert (N : 1 <= sqrt (1 + Rsqr mu)). { rewrite <- sqrt_1 at 1. apply sqrt_le_1_alt. pose proof (Rle_0_sqr mu). lra. }
    rewrite slope_line. nra. }
  assert (Ql : 0.548 <= sin t - slope_left p * cos t) by (apply Q, sin_mid; unfold t; lra).
  assert (Qr : 0.548 <= sin t - slope_right p * cos t) by (apply Q, sin_mid; unfold t; lra).
  replace (cross (- (len * cos t), - (len * sin t)) (start_x p + w * cos m - start_x p, start_y p + w * sin m - start_y p)) with (len * (w * sin (t - m)))
    by (rewrite sin_minus; unfold cross; cbn [fst snd]; ring).
  assert (Ls : sqrt ((len * cos t) ^ 2 + (len * sin t) ^ 2) = len).
  { replace ((len * cos t) ^ 2 + (len * sin t) ^ 2) with (len ^ 2 * (Rsqr (sin t) + Rsqr (cos t))) by (unfold Rsqr; ring).
    rewrite sin2_cos2, Rmult_1_r. apply sqrt_pow2. lra. }
  rewrite Ls. pose proof (SIN_bound (t - m)) as SB.
  assert (X2 : 0 < w * sin (t - m) <= 0.00814) by nra.
  intros s.
  assert (B : exists ls sl, 0.01 <= ls /\ 0.548 <= sin t - sl * cos t /\ branch_vector s p = (ls, ls * sl)).
  { destruct s; [exists (len_right p), (slope_right p)|exists (len_left p), (slope_left p)]; repeat split; auto; lra. }
  destruct B as (ls & sl & B1 & B2 & ->).
  replace (cross (- (len * cos t), - (len * sin t)) (ls, ls * sl)) with (len * (ls * (sin t - sl * cos t))) by (unfold cross; cbn [fst snd]; ring).
  assert (X1 : 0.00548 <= ls * (sin t - sl * cos t)) by nra.
  replace (67/100 * (len * (w * sin (t - m))) + 2/100000 * len) with (len * (67/100 * (w * sin (t - m)) + 2/100000)) by ring.
  apply Rmult_le_compat_l; lra.
Qed.
Lemma sampled_setup {G} (r : rng G) fuel label g x g1 n : uniform_ok r -> (forall m, is_labelling m (label m)) ->
  sample_ideal_csd r fuel label g = (Ok x, g1) -> (1 <= n < length (g_tcts x))%nat ->
  csd_config label (g_tcts x) (g_lut x) (g_cdf x) (g_gamma x) /\ g_cdf x = Sigmoid /\ gamma_of (g_cdf x) (g_gamma x) = 22/10 /\
  exists u l po pu, interdot_line (g_tcts x) n u l /\ nth_error (g_tcts x) (n - 1) = Some po /\ nth_error (g_tcts x) n = Some pu /\
    1 / 100000000 * gamma_of (g_cdf x) (g_gamma x) * dist2 u l < Rabs (cross (vec u l) (coupling_vector po)) /\
    period_vector po = period_vector pu /\ 134/100 <= pitch u l po /\
    0 <= dist2 u l / Rabs (cross (vec u l) (coupling_vector po)) /\
    forall s, 67/100 + 2/100000 * (dist2 u l / Rabs (cross (vec u l) (coupling_vector po))) <= span u l po (branch_vector s po) /\
      branch_vector s pu = branch_vector s po.
Proof.
  intros U Lab E Hn. destruct (sampled_shape r fuel U label Lab g x g1 E) as (p & d & Sp & (A1 & A2 & A3 & A4) & Len & Tr).
  destruct (sampled_ordered r fuel U label Lab g x g1 E) as (C & _). unfold config_ok in C.
  pose proof (translates_exchangeable p d _ Sp Tr n Hn) as [SP Cp].
  assert (Fa : Forall admissible (g_tcts x)) by (destruct C as (Pr & _); eapply Forall_impl; [|exact Pr]; simpl; tauto).
  destruct (interdot_exists _ n Fa Hn) as (u & l & I). assert (I' := I). destruct I' as (pu & cu & po & Eu & _ & _ & Ep & _).
  destruct (translates_line p d _ n u l po Sp Tr ltac:(lia) I Ep) as (Ev & Ec & Epp).
  destruct (sampled_span p d Sp) as (P1 & P2 & P3). cbv zeta in P1, P2, P3.
  assert (Gm : gamma_of (g_cdf x) (g_gamma x) = 22/10) by (rewrite A3, A4; reflexivity).
  specialize (Cp u l po I Ep). rewrite (Rabs_pos_eq (22/10)) in Cp by lra. rewrite <- Gm in Cp.
  pose proof (Tr _ _ Ep) as Ho. pose proof (Tr _ _ Eu) as Hu.
  assert (Eb : forall s, branch_vector s po = branch_vector s p) by (intros s; rewrite Ho; reflexivity).
  assert (Du : dist2 u l = sqrt (fst (interdot p d) ^ 2 + snd (interdot p d) ^ 2)).
  { unfold dist2. f_equal. pose proof (f_equal fst Ev) as V1. pose proof (f_equal snd Ev) as V2. unfold vec in V1, V2. cbn [fst snd] in V1, V2.
    replace (fst u - fst l) with (fst (interdot p d)) by (apply Ropp_eq_compat in V1; rewrite Ropp_involutive in V1; rewrite <- V1; ring).
    replace (snd u - snd l) with (snd (interdot p d)) by (apply Ropp_eq_compat in V2; rewrite Ropp_involutive in V2; rewrite <- V2; ring). reflexivity. }
  split; [exact C|]. split; [exact A3|]. split; [exact Gm|]. exists u, l, po, pu.
  split; [exact I|]. split; [exact Ep|]. split; [exact Eu|]. split; [exact Cp|].
  split; [rewrite Ho, Hu; reflexivity|].
  split; [unfold pitch; rewrite Ev, Ec, Epp; apply ratio_low; auto|].
  split; [apply Rmult_le_pos; [apply sqrt_pos|left; apply Rinv_0_lt_compat, Rabs_pos_lt; rewrite Ev, Ec; lra]|].
  intros s. split; [|rewrite Ho, Hu; reflexivity].
  rewrite Eb. unfold span. rewrite Ev, Ec, Du, Rabs_pos_eq by lra. specialize (P3 s).
  set (D := cross _ (coupling_vector p)) in *. set (B := cross _ (branch_vector s p)) in *. set (w := sqrt _) in *. clearbody D B w.
  apply ratio_low; [exact P1|]. replace ((67/100 + 2/100000 * (w / D)) * D) with (67/100 * D + 2/100000 * w) by (field; lra). exact P3.
Qed.
Lemma sampled_tail n c p : 335/1000 <= c -> 134/100 <= p -> tail_bound Sigmoid (22/10) n c p <= 49/200.
Proof.
  intros Hc Hp. cbn [tail_bound].
  assert (T : exp (- (2 * (22/10) * p)) <= / 301).
  { apply (small_tail _ 117%nat); [rewrite INR_IZR_INZ; simpl IZR; lra|lra|].
    replace 117%nat with (9 * 13)%nat by reflexivity. rewrite pow_mult. apply Rle_trans with ((15513/10000) ^ 13); [simpl; lra|]. apply pow_incr. simpl; lra. }
  assert (E : exp (- (2 * (22/10) * c)) <= / (4116/1000)) by (apply (small_tail _ 29%nat); [rewrite INR_IZR_INZ; simpl IZR; lra|lra|simpl; lra]).
  pose proof (exp_pos (- (2 * (22/10) * p))) as Q0. set (e := exp (- (2 * (22/10) * c))) in *. set (f := exp (- (2 * (22/10) * p))) in *. clearbody e f.
  apply Rmult_le_reg_r with (1 - f); [lra|]. unfold Rdiv at 1. rewrite Rmult_assoc, Rinv_l by lra. lra.
Qed.
Section SampledPixel.
Context {G : Type} (r : rng G) (fuel : nat) (label : arr2 nat -> arr2 nat) (g : G) (x : geometric) (g1 : G)
  (U : uniform_ok r) (Lab : forall m, is_labelling m (label m)) (E : sample_ideal_csd r fuel label g = (Ok x, g1))
  (res : resolution) (d : csd_data) (a1 b1 a2 b2 : R) (v : point) (o : R * R) (lab n : nat)
  (H : ideal_csd_geometric label (g_tcts x) [a1; b1] [a2; b2] res (g_rotation x) (g_lut x) (g_cdf x) (g_gamma x) = Ok d)
  (Px : scan_pixel d (a1, b1) (a2, b2) v o lab) (Hn : (1 <= n < length (g_tcts x))%nat).
Lemma sampled_above k right t b : fst o + snd o = INR n -> on_branch (g_tcts x) n k right t b -> dist2 (tct_view (g_rotation x) v) b <= 1/100000 ->
  1/2 <= t -> outer right n k \/ t = 1/2 -> Rabs (fst o - (INR k + (if right then 1 else 0))) <= 49/200.
Proof.
  intros Sum Br Near T1 T2.
  destruct (sampled_setup r fuel label g x g1 n U Lab E Hn) as (C & Ks & Gm & u & l & po & pu & I & Ep & Eu & W & Per & Pi & W0 & Sp).
  assert (Q : Rabs (fst o - (INR k + (if right then 1 else 0))) <= tail_bound (g_cdf x) (gamma_of (g_cdf x) (g_gamma x)) n (335/1000) (pitch u l po)).
  { apply (above_pixel label (g_tcts x) (g_rotation x) (g_lut x) (g_cdf x) (g_gamma x) res d a1 b1 a2 b2 v o lab n u l po C H Px Sum ltac:(lia) I Ep ltac:(rewrite Gm; lra) W
      k right t b (1/100000) (335/1000)); auto; try lra.
    - intros s. destruct (Sp s). lra.
    - destruct (Sp right). nra.
    - destruct (Sp right) as [S1 _]. destruct T2 as [T2| ->]; [left; exact T2|right; lra]. }
  rewrite Gm, Ks in Q. eapply Rle_trans; [exact Q|]. apply sampled_tail; lra.
Qed.
Lemma sampled_below k right t b : fst o + snd o = INR n -> on_branch (g_tcts x) (S n) k right t b -> dist2 (tct_view (g_rotation x) v) b <= 1/100000 ->
  1/2 <= t -> outer right (S n) k \/ t = 1/2 -> Rabs (fst o - INR k) <= 49/200.
Proof.
  intros Sum Br Near T1 T2.
  destruct (sampled_setup r fuel label g x g1 n U Lab E Hn) as (C & Ks & Gm & u & l & po & pu & I & Ep & Eu & W & Per & Pi & W0 & Sp).
  assert (Q : Rabs (fst o - INR k) <= tail_bound (g_cdf x) (gamma_of (g_cdf x) (g_gamma x)) n (335/1000) (pitch u l po)).
  { apply (below_pixel label (g_tcts x) (g_rotation x) (g_lut x) (g_cdf x) (g_gamma x) res d a1 b1 a2 b2 v o lab n u l po C H Px Sum ltac:(lia) I Ep ltac:(rewrite Gm; lra) W
      pu k right t b (1/100000) (335/1000)); auto; try lra.
    - intros s. destruct (Sp s) as [S1 ->]. lra.
    - destruct (Sp right) as [S1 ->]. nra.
    - destruct (Sp right) as [S1 ->]. destruct T2 as [T2| ->]; [left; exact T2|right; lra]. }
  rewrite Gm, Ks in Q. eapply Rle_trans; [exact Q|]. apply sampled_tail; lra.
Qed.
End SampledPixel.
Lemma sampled_jump {G} (r : rng G) fuel label g x g1 res res' d d' a1 b1 a2 b2 a1' b1' a2' b2' v v' o o' lab lab' n k right t b :
  uniform_ok r -> (forall m, is_labelling m (label m)) -> sample_ideal_csd r fuel label g = (Ok x, g1) ->
  ideal_csd_geometric label (g_tcts x) [a1; b1] [a2; b2] res (g_rotation x) (g_lut x) (g_cdf x) (g_gamma x) = Ok d -> scan_pixel d (a1, b1) (a2, b2) v o lab ->
  ideal_csd_geometric label (g_tcts x) [a1'; b1'] [a2'; b2'] res' (g_rotation x) (g_lut x) (g_cdf x) (g_gamma x) = Ok d' -> scan_pixel d' (a1', b1') (a2', b2') v' o' lab' ->
  fst o + snd o = INR n -> fst o' + snd o' = INR n - 1 -> (n < length (g_tcts x))%nat -> on_branch (g_tcts x) n k right t b ->
  dist2 (tct_view (g_rotation x) v) b <= 1/100000 -> dist2 (tct_view (g_rotation x) v') b <= 1/100000 ->
  1/2 <= t -> outer right n k \/ t = 1/2 ->
  let j := if right then 1 else 0 in
  Rabs (fst o - fst o' - j) <= 49/100 /\ Rabs (snd o - snd o' - (1 - j)) <= 49/100.
Proof.
  intros U Lab E H Px H' Px' Sum Sum' Hl Br N1 N2 T1 T2 j. assert (Hk : (k < n)%nat) by (destruct Br as (? & ? & ? & _); lia).
  assert (A : Rabs (fst o - fst o' - j) <= 49/100).
  { pose proof (sampled_above r fuel label g x g1 U Lab E res d a1 b1 a2 b2 v o lab n H Px ltac:(lia) k right t b Sum Br N1 T1 T2) as Q1. fold j in Q1.
    assert (Q2 : Rabs (fst o' - INR k) <= 49/200).
    { destruct n as [|[|n]]; [lia| |].
      - destruct (sampled_ordered r fuel U label Lab g x g1 E) as (C & _). unfold config_ok in C.
        destruct (sampled_shape r fuel U label Lab g x g1 E) as (p & dd & _ & (_ & A2 & A3 & A4) & _).
        destruct (scan_bounds _ _ _ _ _ _ _ _ _ _ _ _ _ _ _ _ _ C eq_refl eq_refl H' Px'). simpl in Sum'.
        replace k with 0%nat by lia. simpl. apply Rabs_le; lra.
      - rewrite S_INR in Sum'. apply (sampled_below r fuel label g x g1 U Lab E res' d' a1' b1' a2' b2' v' o' lab' (S n) H' Px' ltac:(lia) k right t b); auto. lra. }
    apply Rabs_le_inv in Q1, Q2. apply Rabs_le. lra. }
  split; [exact A|]. replace (snd o - snd o' - (1 - j)) with (- (fst o - fst o' - j)) by lra. rewrite Rabs_Ropp. exact A.
Qed.
