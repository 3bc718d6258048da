(** Proofs about sampled ideal charge stability diagrams. *)
From Coq Require Import Lra.
From Verif Require Import RPrelude Arr ModelSupport ModelTct ModelCsd ModelSensor ModelSampling ModelSimulation ModelInstance
  ModelConfig ModelConfigCsd SpecTct SpecCsd SpecOrder SpecSampling SpecInstance SpecConfigCsd
  ProofsTct ProofsRegions ProofsMask ProofsDriver ProofsFine ProofsScan ProofsInstance ProofsConfig ProofsOrder ProofsCover.
Local Open Scope R_scope.

(** ** directions *)
Lemma norm_pos s : 0 < sqrt (1 + Rsqr s). Proof. apply sqrt_lt_R0. pose proof (Rle_0_sqr s). lra. Qed.
Lemma norm_slope s : norm (1, s) = sqrt (1 + Rsqr s).
Proof. unfold norm. cbn [fst snd]. f_equal. unfold Rsqr. ring. Qed.
Lemma slope_polar s : (1, s) = scale (sqrt (1 + Rsqr s)) (cos (atan s), sin (atan s)).
Proof.
  unfold scale. cbn [fst snd]. rewrite cos_atan, sin_atan. pose proof (norm_pos s). f_equal; field; lra.
Qed.
Lemma normalise_polar n t : 0 < n -> normalise (scale n (cos t, sin t)) = (cos t, sin t).
Proof.
  intros H. assert (E : norm (scale n (cos t, sin t)) = n).
  { unfold norm, scale. cbn [fst snd]. replace ((n * cos t) ^ 2 + (n * sin t) ^ 2) with (n ^ 2 * (Rsqr (sin t) + Rsqr (cos t))) by (unfold Rsqr; ring).
    rewrite sin2_cos2, Rmult_1_r. apply sqrt_pow2. lra. }
  unfold normalise. rewrite E. unfold scale. cbn [fst snd]. f_equal; field; lra.
Qed.
Lemma rotate_polar a n t : rotate_point a (scale n (cos t, sin t)) = scale n (cos (t + a), sin (t + a)).
Proof. unfold rotate_point, scale. cbn [fst snd]. rewrite cos_plus, sin_plus. f_equal; ring. Qed.
Lemma lead_angle_atan s1 s2 : s2 <= s1 -> lead_angle s1 s2 = atan s1 - atan s2.
Proof.
  intros H. unfold lead_angle.
  assert (Hm : atan s2 <= atan s1) by (destruct H as [H| ->]; [left; apply atan_increasing; auto|right; auto]).
  replace ((1 * 1 + s1 * s2) / (norm (1, s1) * norm (1, s2))) with (cos (atan s1 - atan s2)).
  - apply acos_cos. pose proof (atan_bound s1). pose proof (atan_bound s2). lra.
  - rewrite cos_minus, !cos_atan, !sin_atan, !norm_slope. pose proof (norm_pos s1). pose proof (norm_pos s2). field. lra.
Qed.
Lemma direction s1 a : normalise (rotate_point a (1, s1)) = (cos (atan s1 + a), sin (atan s1 + a)).
Proof. rewrite (slope_polar s1), rotate_polar. apply normalise_polar, norm_pos. Qed.
Lemma direction_mean m : normalise (1, m) = (cos (atan m), sin (atan m)).
Proof. rewrite (slope_polar m). apply normalise_polar, norm_pos. Qed.

(** ** the sampled numbers *)
Section Sampled.
Context {G : Type}.
Variable r : rng G.
Variable fuel : nat.
Hypothesis U : uniform_ok r.

Lemma sample_slopes_inv n g s1 s2 g1 : sample_slopes r n g = (Ok (s1, s2), g1) ->
  0.21429 <= s1 <= 0.54688 /\ -0.44 <= s2 <= -0.07692 /\ 0.43760867228 <= atan s1 - atan s2.
Proof.
  revert g. induction n as [|n IH]; cbn [sample_slopes]; intros g H; [discriminate|].
  apply bind_ok in H. destruct H as (x1 & g2 & H1 & H). apply bind_ok in H. destruct H as (x2 & g3 & H2 & H).
  apply (uniform_inv r U) in H1. apply (uniform_inv r U) in H2.
  rewrite lead_angle_atan in H by lra.
  destruct (Rleb_spec 0.43760867228 (atan x1 - atan x2)) as [L|L]; cbn [andb] in H; [|exact (IH _ H)].
  destruct (Rleb_spec (atan x1 - atan x2) 1.6789624091) as [L'|L']; [|exact (IH _ H)].
  apply ret_inv in H. destruct H as [E _]. injection E as <- <-. auto.
Qed.
Lemma sample_slopes_err n g e g1 : sample_slopes r n g = (Err e, g1) -> e = OutOfFuel.
Proof.
  revert g. induction n as [|n IH]; cbn [sample_slopes]; intros g H; [injection H as <- _; auto|].
  apply bind_err in H. destruct H as [H|(x1 & g2 & H1 & H)]; [apply uniform_err in H; lra|].
  apply bind_err in H. destruct H as [H|(x2 & g3 & H2 & H)]; [apply uniform_err in H; lra|].
  destruct (Rleb _ _ && Rleb _ _); [discriminate|exact (IH _ H)].
Qed.
Lemma sample_direction_inv n s1 g v g1 : sample_interdot_direction r n s1 g = (Ok v, g1) ->
  exists a, 0.58153916891 <= a <= 1.396938844 /\ v = (cos (atan s1 + a), sin (atan s1 + a)).
Proof.
  revert g. induction n as [|n IH]; cbn [sample_interdot_direction]; intros g H; [discriminate|].
  apply bind_ok in H. destruct H as (a & g2 & H1 & H). apply (uniform_inv r U) in H1. cbv zeta in H.
  destruct (Rltb _ 0 || Rltb _ 0); [exact (IH _ H)|].
  apply ret_inv in H. destruct H as [<- _]. exists a. split; auto. apply direction.
Qed.
Lemma sample_direction_err n s1 g e g1 : sample_interdot_direction r n s1 g = (Err e, g1) -> e = OutOfFuel.
Proof.
  revert g. induction n as [|n IH]; cbn [sample_interdot_direction]; intros g H; [injection H as <- _; auto|].
  apply bind_err in H. destruct H as [H|(a & g2 & H1 & H)]; [apply uniform_err in H; lra|]. cbv zeta in H.
  destruct (Rltb _ 0 || Rltb _ 0); [exact (IH _ H)|discriminate].
Qed.
Lemma sample_length_inv n g v g1 : sample_interdot_length r n g = (Ok v, g1) -> 0.00261 <= v <= 0.00987.
Proof.
  revert g. induction n as [|n IH]; cbn [sample_interdot_length]; intros g H; [discriminate|].
  apply bind_ok in H. destruct H as (a & g2 & H1 & H). apply (uniform_inv r U) in H1.
  destruct (Rltb _ _ || Rltb _ _); [exact (IH _ H)|]. apply ret_inv in H. destruct H as [<- _]. auto.
Qed.
Lemma sample_length_err n g e g1 : sample_interdot_length r n g = (Err e, g1) -> e = OutOfFuel.
Proof.
  revert g. induction n as [|n IH]; cbn [sample_interdot_length]; intros g H; [injection H as <- _; auto|].
  apply bind_err in H. destruct H as [H|(a & g2 & H1 & H)]; [apply uniform_err in H; lra|].
  destruct (Rltb _ _ || Rltb _ _); [exact (IH _ H)|discriminate].
Qed.
Lemma fit_width_inv n len0 w0 g len w g1 : 0.00261 <= len0 <= 0.00987 -> 0.00043 <= w0 <= 0.00814 ->
  fit_width r n len0 w0 g = (Ok (len, w), g1) ->
  0.00261 <= len <= 0.00987 /\ 0.00043 <= w <= 0.00814 /\ 0.8692269873603532 <= len / w <= 9.055385138137407.
Proof.
  revert len0 w0 g. induction n as [|n IH]; cbn [fit_width]; intros len0 w0 g H1 H2 H;
  (destruct (Rleb_spec 0.8692269873603532 (len0 / w0)) as [L|L]; cbn [andb] in H;
   [destruct (Rleb_spec (len0 / w0) 9.055385138137407) as [L'|L']; [apply ret_inv in H; destruct H as [E _]; injection E as <- <-; auto|]|]);
  try discriminate;
  (apply bind_ok in H; destruct H as (x1 & g2 & D1 & H); apply bind_ok in H; destruct H as (x2 & g3 & D2 & H);
   apply (uniform_inv r U) in D1; apply (uniform_inv r U) in D2; exact (IH _ _ _ D1 D2 H)).
Qed.
Lemma fit_width_err n len0 w0 g e g1 : fit_width r n len0 w0 g = (Err e, g1) -> e = OutOfFuel.
Proof.
  revert len0 w0 g. induction n as [|n IH]; cbn [fit_width]; intros len0 w0 g H; destruct (Rleb _ _ && Rleb _ _); try discriminate.
  - injection H as <- _; auto.
  - apply bind_err in H. destruct H as [H|(x1 & g2 & H1 & H)]; [apply uniform_err in H; lra|].
    apply bind_err in H. destruct H as [H|(x2 & g3 & H2 & H)]; [apply uniform_err in H; lra|]. exact (IH _ _ _ H).
Qed.

Lemma rotate_back a v : rotate_point (- a) (rotate_point a v) = v.
Proof.
  destruct v as [x y]. unfold rotate_point. cbn [fst snd]. rewrite cos_neg, sin_neg.
  pose proof (sin2_cos2 a) as S. unfold Rsqr in S.
  f_equal.
  - replace x with ((sin a * sin a + cos a * cos a) * x) at 3 by (rewrite S; ring). ring.
  - replace y with ((sin a * sin a + cos a * cos a) * y) at 3 by (rewrite S; ring). ring.
Qed.
Lemma first_tct_inv g p d g1 : sample_first_tct r fuel g = (Ok (p, d), g1) -> sampled_tct p d.
Proof.
  unfold sample_first_tct. intros H.
  apply bind_ok in H. destruct H as ((s1 & s2) & g2 & H1 & H). apply sample_slopes_inv in H1. destruct H1 as (S1 & S2 & S3).
  apply bind_ok in H. destruct H as (l0 & g3 & H1 & H). apply (uniform_inv r U) in H1.
  apply bind_ok in H. destruct H as (l1 & g4 & H2 & H). apply (uniform_inv r U) in H2.
  apply bind_ok in H. destruct H as (dir & g5 & H3 & H). apply sample_direction_inv in H3. destruct H3 as (a & Ha & ->).
  apply bind_ok in H. destruct H as (len0 & g6 & H3 & H). apply sample_length_inv in H3.
  apply bind_ok in H. destruct H as (w0 & g7 & H4 & H). apply (uniform_inv r U) in H4.
  apply bind_ok in H. destruct H as ((len & w) & g8 & H5 & H). apply fit_width_inv in H5; auto. destruct H5 as (B1 & B2 & B3).
  cbv zeta in H.
  apply bind_ok in H. destruct H as (bx & g9 & H5 & H). apply (uniform_inv r U) in H5.
  apply bind_ok in H. destruct H as (by0 & g10 & H6 & H). apply (uniform_inv r U) in H6.
  apply ret_inv in H. destruct H as [E _]. apply pair_equal_spec in E. destruct E as [<- <-].
  assert (bx = -0.14) by lra. assert (by0 = -0.14) by lra. subst bx by0.
  rewrite direction_mean. unfold sampled_tct, scale. cbn [fst snd len_left len_right slope_left slope_right start_x start_y end_x end_y].
  split; [auto|]. split; [auto|]. split; [auto|]. split; [auto|]. split; [auto|]. split.
  { rewrite <- surjective_pairing. apply rotate_back. }
  exists a, len, w. split; [auto|]. split; [auto|]. split; [auto|]. split; [auto|]. split; [auto|].
  f_equal; ring.
Qed.
Lemma first_tct_err g e g1 : sample_first_tct r fuel g = (Err e, g1) -> e = OutOfFuel.
Proof.
  unfold sample_first_tct. intros H.
  apply bind_err in H. destruct H as [H|((s1 & s2) & g2 & _ & H)]; [eapply sample_slopes_err; eauto|].
  apply bind_err in H. destruct H as [H|(l0 & g3 & _ & H)]; [apply uniform_err in H; lra|].
  apply bind_err in H. destruct H as [H|(l1 & g4 & _ & H)]; [apply uniform_err in H; lra|].
  apply bind_err in H. destruct H as [H|(dir & g5 & _ & H)]; [eapply sample_direction_err; eauto|].
  apply bind_err in H. destruct H as [H|(len0 & g6 & _ & H)]; [eapply sample_length_err; eauto|].
  apply bind_err in H. destruct H as [H|(w0 & g7 & _ & H)]; [apply uniform_err in H; lra|].
  apply bind_err in H. destruct H as [H|((len & w) & g8 & _ & H)]; [eapply fit_width_err; eauto|].
  apply bind_err in H. destruct H as [H|(bx & g9 & _ & H)]; [apply uniform_err in H; lra|].
  apply bind_err in H. destruct H as [H|(by0 & g10 & _ & H)]; [apply uniform_err in H; lra|].
  discriminate.
Qed.
End Sampled.

(** ** translated TCTs *)
Definition moved (e : point) (p : tct_params) : tct_params :=
  mk_tct (len_left p) (len_right p) (slope_left p) (slope_right p)
         (start_x p + fst e) (start_y p + snd e) (end_x p + fst e) (end_y p + snd e).
Lemma corner_moved e p c : corner p c -> corner (moved e p) (fst c + fst e, snd c + snd e).
Proof. unfold corner. simpl. lra. Qed.
Lemma admissible_moved e p : admissible p -> admissible (moved e p).
Proof.
  intros (A1 & A2 & c & C & B1 & B2 & B3). split; [exact A1|]. split; [exact A2|].
  exists (fst c + fst e, snd c + snd e). split; [apply corner_moved; auto|]. simpl. lra.
Qed.
Lemma bounded_moved L eps lut e p : bounded_tct L eps lut p -> bounded_tct L eps lut (moved e p).
Proof.
  intros (A & P & S1 & S2 & M). split; [apply admissible_moved; auto|]. split; [exact P|]. split; [exact S1|]. split; [exact S2|].
  destruct lut as [[|n]|]; auto. unfold moved. cbn [end_x start_x].
  replace (end_x p + fst e - (start_x p + fst e)) with (end_x p - start_x p) by ring. exact M.
Qed.

(** ** geometry of a sampled TCT *)
Lemma sin_low : 0.548 <= sin 0.58153916891.
Proof.
  destruct (SIN 0.58153916891) as [S _]; [lra|pose proof PI2_3_2; lra|].
  refine (Rle_trans _ _ _ _ S). unfold sin_lb, sin_approx, sin_term. simpl. lra.
Qed.
Lemma sin_mid t : 0.58153916891 <= t <= 2.4 -> 0.548 <= sin t.
Proof.
  intros H. pose proof PI2_3_2. pose proof sin_low. destruct (Rle_lt_dec t (PI / 2)).
  - refine (Rle_trans _ _ _ H1 _). apply sin_incr_1; lra.
  - rewrite <- (sin_PI_x t). refine (Rle_trans _ _ _ H1 _). apply sin_incr_1; lra.
Qed.
Lemma atan_small_range s : 0 <= s -> 0 <= atan s <= s.
Proof.
  intros H. split.
  - destruct H as [H| <-]; [|rewrite atan_0; lra]. rewrite <- atan_0. left. apply atan_increasing; auto.
  - destruct H as [H| <-]; [|rewrite atan_0; lra].
    destruct (MVT_cor2 atan (fun x => / (1 + x ^ 2)) 0 s H) as (c & E & B).
    { intros c _. apply derivable_pt_lim_atan. }
    rewrite atan_0 in E. assert (0 < 1 + c ^ 2) by (pose proof (pow2_ge_0 c); lra).
    assert (/ (1 + c ^ 2) <= 1) by (rewrite <- Rinv_1; apply Rinv_le_contravar; [lra|pose proof (pow2_ge_0 c); lra]).
    nra.
Qed.

Section Geometry.
Variables (p : tct_params) (d : point).
Hypothesis H : sampled_tct p d.
Let sl := slope_left p.
Let sr := slope_right p.
Definition interdot : point := (fst d + len_right p, snd d + len_right p * slope_right p).

Lemma slope_line s t : sin t - s * cos t = sin (t - atan s) * sqrt (1 + Rsqr s).
Proof.
  rewrite sin_minus, cos_atan, sin_atan. pose proof (norm_pos s). field. lra.
Qed.
Lemma sampled_rises : rises 0.0014 p interdot.
Proof.
  destruct H as (_ & _ & S1 & S2 & A & _ & a & len & w & Ha & Hl & _ & _ & _ & E). cbv zeta in E.
  fold interdot in E. rewrite E. unfold rises. cbn [fst snd]. fold sl sr in S1, S2, A |- *.
  assert (T1 : 0 <= atan sl <= sl) by (apply atan_small_range; lra).
  assert (T2 : 0 <= - atan sr <= - sr) by (rewrite <- atan_opp; apply atan_small_range; lra).
  assert (N : forall s, 1 <= sqrt (1 + Rsqr s)).
  { intros s. rewrite <- sqrt_1 at 1. apply sqrt_le_1_alt. pose proof (Rle_0_sqr s). lra. }
  assert (K : forall s, 0.548 <= sin (atan sl + a - atan s) -> s * (len * cos (atan sl + a)) + 0.0014 <= len * sin (atan sl + a)).
  { intros s Hs. pose proof (slope_line s (atan sl + a)) as Q. specialize (N s).
    assert (0.548 <= sin (atan sl + a - atan s) * sqrt (1 + Rsqr s)) by nra.
    assert (0.0014 <= len * (sin (atan sl + a - atan s) * sqrt (1 + Rsqr s))) by nra.
    rewrite <- Q in H1. lra. }
  split; apply K; apply sin_mid; lra.
Qed.
Lemma sampled_width : 0 < end_x p - start_x p <= 0.00814 /\ end_y p - start_y p = (sl + sr) / 2 * (end_x p - start_x p).
Proof.
  destruct H as (_ & _ & S1 & S2 & A & _ & a & len & w & Ha & Hl & Hw & _ & [E1 E2] & _). fold sl sr in S1, S2, E1, E2 |- *.
  rewrite E1, E2. set (m := (sl + sr) / 2) in *.
  assert (C : 0 < cos (atan m)) by (rewrite cos_atan; apply Rdiv_lt_0_compat; [lra|apply norm_pos]).
  assert (C1 : cos (atan m) <= 1) by apply COS_bound.
  assert (Sn : sin (atan m) = m * cos (atan m)) by (rewrite cos_atan, sin_atan; pose proof (norm_pos m); field; lra).
  rewrite Sn. split; [nra|ring].
Qed.
Lemma sampled_corner : corner p (start_x p + (end_x p - start_x p) / 2, start_y p + sl * ((end_x p - start_x p) / 2)).
Proof. destruct sampled_width as [_ E]. unfold corner. cbn [fst snd]. fold sl sr. lra. Qed.
Lemma sampled_start : start_x p = 0 /\ -0.198 <= start_y p <= -0.1979.
Proof.
  destruct H as (_ & _ & _ & _ & _ & E & _). rewrite rotate_quarter in E. cbn [fst snd] in E.
  pose proof sqrt2_bounds as B. apply pair_equal_spec in E. destruct E as [E1 E2].
  assert (F1 : start_x p + start_y p = -0.14 * sqrt 2) by (rewrite <- E1; field; lra).
  assert (F2 : start_y p - start_x p = -0.14 * sqrt 2) by (rewrite <- E2; field; lra).
  lra.
Qed.
Lemma sampled_bounded : bounded_tct 0.55 0.000005 (Some 1000%nat) p.
Proof.
  pose proof sampled_corner as C. pose proof sampled_width as [W _].
  destruct H as (L1 & L2 & S1 & S2 & _). fold sl sr in S1, S2.
  split; [|split; [unfold peak; fold sl sr; lra|split; [fold sl; apply Rabs_le; lra|split; [fold sr; apply Rabs_le; lra|]]]].
  - split; [fold sl sr; lra|]. split; [lra|]. eexists. split; [exact C|]. cbn [fst]. lra.
  - split; [lia|]. change (1000 - 1)%nat with 999%nat. rewrite INR_IZR_INZ. simpl IZR. lra.
Qed.
End Geometry.

(** ** the list of translated TCTs *)
Definition mult (k : nat) (d : point) : point := (INR k * fst d, INR k * snd d).
Definition stack (p : tct_params) (d : point) (n : nat) : list tct_params := map (fun k => moved (mult k d) p) (seq 0 n).
Lemma stack_length p d n : length (stack p d n) = n. Proof. unfold stack. rewrite map_length, seq_length. reflexivity. Qed.
Lemma nth_stack p d n k : (k < n)%nat -> nth_error (stack p d n) k = Some (moved (mult k d) p).
Proof.
  intros H. unfold stack. erewrite map_nth_error; [reflexivity|].
  rewrite (nth_error_nth' _ 0%nat) by (rewrite seq_length; auto). rewrite seq_nth by auto. reflexivity.
Qed.
Lemma nth_stack_inv p d n k q : nth_error (stack p d n) k = Some q -> (k < n)%nat /\ q = moved (mult k d) p.
Proof.
  intros E. assert (k < n)%nat by (rewrite <- (stack_length p d n); apply nth_error_Some; congruence).
  split; auto. rewrite nth_stack in E by auto. congruence.
Qed.
Lemma stack_translates p d n : translates p d (stack p d n).
Proof. intros k q E. apply nth_stack_inv in E. destruct E as [_ ->]. reflexivity. Qed.
Lemma tct_eta p : mk_tct (len_left p) (len_right p) (slope_left p) (slope_right p) (start_x p) (start_y p) (end_x p) (end_y p) = p.
Proof. destruct p; reflexivity. Qed.
Lemma stack_one p d : stack p d 1 = [p].
Proof.
  unfold stack, moved, mult. simpl. rewrite !Rmult_0_l, !Rplus_0_r. rewrite tct_eta. reflexivity.
Qed.
Lemma stack_snoc p d n : stack p d (S n) = stack p d n ++ [moved (mult n d) p].
Proof. unfold stack. rewrite seq_S, map_app. reflexivity. Qed.
Lemma shift_moved p d n : shift_tct d (moved (mult n d) p) = moved (mult (S n) d) p.
Proof. unfold shift_tct, moved, mult. cbn [len_left len_right slope_left slope_right start_x start_y end_x end_y fst snd]. rewrite S_INR. f_equal; ring. Qed.
Lemma add_stack p d n : (1 <= n)%nat -> add_one_tct (stack p d n) d = Ok (stack p d (S n)).
Proof.
  intros H. destruct n as [|n]; [lia|]. unfold add_one_tct. rewrite (stack_snoc p d n) at 1. rewrite rev_app_distr. simpl rev. cbn [app].
  rewrite shift_moved, <- stack_snoc. reflexivity.
Qed.

Section Stacked.
Variables (p : tct_params) (d : point).
Hypothesis H : sampled_tct p d.
Let sl := slope_left p.
Let sr := slope_right p.

Lemma stack_bounded n : Forall (bounded_tct 0.55 0.000005 (Some 1000%nat)) (stack p d n).
Proof.
  apply Forall_forall. intros q I. unfold stack in I. apply in_map_iff in I. destruct I as (k & <- & _).
  apply bounded_moved. eapply sampled_bounded; eauto.
Qed.
Lemma stack_vector k j c : corner p c -> interdot_vector (moved (mult k d) p) (moved (mult (S k) d) p) j (interdot p d).
Proof.
  intros C. exists (fst c + fst (mult k d), snd c + snd (mult k d)), (fst c + fst (mult (S k) d), snd c + snd (mult (S k) d)).
  split; [apply corner_moved; auto|]. split; [apply corner_moved; auto|].
  unfold interdot, peak_point, mult, moved. cbn [fst snd len_left len_right slope_left slope_right]. rewrite S_INR. f_equal; ring.
Qed.
Lemma stack_stacked n : stacked 0.0014 (stack p d n).
Proof.
  intros k q1 q2 Hk E1 E2. apply nth_stack_inv in E1. destruct E1 as [_ ->]. apply nth_stack_inv in E2. destruct E2 as [_ ->].
  replace k with (S (k - 1)) at 3 by lia.
  pose proof (sampled_corner p d H) as C. pose proof (sampled_rises p d H) as R.
  split; [split; apply Rle_refl|]. split; exists (interdot p d); (split; [eapply stack_vector; eauto|exact R]).
Qed.
End Stacked.

Section Coverage.
Variables (p : tct_params) (d : point) (n : nat).
Hypothesis H : sampled_tct p d.
Hypothesis Hn : (1 <= n < 256)%nat.
Let lut := Some 1000%nat.
Let rot := - (PI / 4).
Let tcts := stack p d n.
Let last_tct := moved (mult (n - 1) d) p.
Variable label : arr2 nat -> arr2 nat.
Hypothesis Lab : forall m, is_labelling m (label m).

Lemma covered_config : csd_config label tcts lut Sigmoid None.
Proof.
  apply (stacked_config label 0.55 0.000005 lut 0.0014 tcts Sigmoid None); try lra; try discriminate; auto.
  - apply stack_bounded; auto.
  - apply stack_stacked; auto.
  - unfold tcts. rewrite stack_length. auto.
  - simpl. lra.
Qed.
Lemma last_nth : nth_error tcts (length tcts - 1) = Some last_tct.
Proof. unfold tcts. rewrite stack_length. apply nth_stack. lia. Qed.
Lemma last_exists : exists F, is_tct last_tct lut (Some n) F.
Proof. apply (stack_exists tcts lut 0.55 0.000005 (stack_bounded p d H n)); [lia|]. unfold tcts. rewrite nth_stack by lia. reflexivity. Qed.

Variable F : R -> R.
Hypothesis HF : is_tct last_tct lut (Some n) F.

(** the last TCT varies slowly *)
Lemma last_slope x y : F x - 0.55 * Rabs (x - y) - 0.00001 <= F y.
Proof.
  destruct (bounded_close 0.55 0.000005 lut last_tct n F ltac:(lra) (bounded_moved _ _ _ _ _ (sampled_bounded p d H)) ltac:(lia) HF) as (f & Lp & C).
  specialize (Lp x y). pose proof (C x) as C1. pose proof (C y) as C2.
  apply Rabs_le_inv in C1. apply Rabs_le_inv in C2. apply Rabs_le_inv in Lp. lra.
Qed.
(** and lies high enough above the first one *)
Lemma last_low x : -0.19801 - 0.55 * Rabs x + (INR n - 1) * 0.00139 <= F x.
Proof.
  pose proof (sampled_bounded p d H) as B. pose proof (sampled_start p d H) as [X0 Y0].
  assert (E1 : nth_error tcts (1 - 1) = Some p).
  { unfold tcts. rewrite nth_stack by lia. f_equal. unfold moved, mult. simpl. rewrite !Rmult_0_l, !Rplus_0_r. apply tct_eta. }
  destruct (stack_exists tcts lut 0.55 0.000005 (stack_bounded p d H n) 1 p (le_n _) E1) as (f & Hf).
  assert (En : nth_error tcts (n - 1) = Some last_tct) by (unfold tcts; apply nth_stack; lia).
  pose proof (stack_between tcts lut 0.55 0.000005 0.0014 ltac:(lra) (stack_bounded p d H n) (stack_stacked p d H n) 1 n p last_tct f F ltac:(lia) E1 En Hf HF x) as S.
  rewrite minus_INR in S by lia. change (INR 1) with 1 in S.
  destruct (bounded_explicit 0.55 0.000005 lut p 1 f ltac:(lra) B (le_n _) Hf) as (f0 & Hf0 & C).
  destruct B as (A & Pk & _).
  destruct (peak_anchor p _ 1 f0 A Pk (sampled_corner p d H) (le_n _) Hf0 0 ltac:(lia)) as [K _].
  cbn [fst snd] in K. change (INR 0) with 0 in K. rewrite !Rmult_0_l, !Rplus_0_r in K.
  match type of K with f0 ?t = ?u => replace t with (start_x p) in K by ring; replace u with (start_y p) in K by ring end.
  pose proof (one_slopes p 1 f0 A Pk (le_n _) Hf0) as Sl.
  specialize (C x). apply Rabs_le_inv in C. destruct H as (_ & _ & S1 & S2 & _). rewrite X0 in K.
  assert (L : start_y p - 0.55 * Rabs x <= f0 x).
  { destruct (Rle_lt_dec 0 x) as [P|P].
    - rewrite Rabs_pos_eq by auto. specialize (Sl 0 x P). rewrite K in Sl. nra.
    - rewrite Rabs_left by auto. specialize (Sl x 0 ltac:(lra)). rewrite K in Sl. nra. }
  assert (0 <= INR n - 1) by (pose proof (le_INR 1 n ltac:(lia)) as Q; change (INR 1) with 1 in Q; lra).
  nra.
Qed.

Lemma in_window_max lims k q : fst lims < snd lims -> in_window lims k q -> q < snd lims + spacing lims k / 2.
Proof. intros _ [_ W]. exact W. Qed.
(** a scan succeeds when the last TCT lies above everything it shows *)
Lemma high_scan_ok a1 b1 a2 b2 nx ny t : a1 <> b1 -> a2 <> b2 -> (2 <= nx)%nat -> (2 <= ny)%nat ->
  let xl := np_sort (a1, b1) in let yl := np_sort (a2, b2) in
  (forall x, -0.111 <= x <= 0.111 -> t - Rabs x <= F x) ->
  -0.2 <= fst xl -> snd xl <= -0.06 -> -0.2 <= fst yl -> snd yl <= -0.06 -> spacing xl nx <= 0.0157 -> spacing yl ny <= 0.0157 ->
  sqrt 2 * (snd xl + spacing xl nx / 2) <= t -> sqrt 2 * (snd yl + spacing yl ny / 2) <= t ->
  exists dd, ideal_csd_geometric label tcts [a1; b1] [a2; b2] (ResArray [Z.of_nat nx; Z.of_nat ny]) rot lut Sigmoid None = Ok dd.
Proof.
  intros N1 N2 Hx Hy xl yl HL X1 X2 Y1 Y2 P1 P2 T1 T2.
  pose proof (sorted_lt (a1, b1) N1) as Sx. pose proof (sorted_lt (a2, b2) N2) as Sy. fold xl in Sx. fold yl in Sy.
  pose proof (spacing_pos xl nx Sx Hx) as Px. pose proof (spacing_pos yl ny Sy Hy) as Py. pose proof sqrt2_bounds as Q.
  assert (Sp : sqrt 2 * sqrt 2 = 2) by (apply sqrt_sqrt; lra).
  assert (LT : length tcts = n) by (unfold tcts; apply stack_length).
  destruct (scan_below_ok label tcts last_tct F a1 b1 a2 b2 nx ny lut Sigmoid None covered_config last_nth ltac:(rewrite LT; exact HF) N1 N2 Hx Hy) as (occ & lead & E);
    [|exists (Csd2 occ lead); exact E].
  fold xl yl. intros q1 q2 W1 W2 W3 W4. set (x := (q1 - q2) / sqrt 2). set (y := (q1 + q2) / sqrt 2).
  assert (Ex : sqrt 2 * x = q1 - q2) by (unfold x; field; lra). assert (Ey : sqrt 2 * y = q1 + q2) by (unfold y; field; lra).
  assert (Bx : -0.111 <= x <= 0.111) by (split; nra).
  specialize (HL x Bx). refine (Rlt_le_trans _ _ _ _ HL).
  assert (G1 : y + x < t).
  { assert (sqrt 2 * (y + x) = 2 * q1) by lra. assert (2 * q1 < sqrt 2 * t) by nra. nra. }
  assert (G2 : y - x < t).
  { assert (sqrt 2 * (y - x) = 2 * q2) by lra. assert (2 * q2 < sqrt 2 * t) by nra. nra. }
  unfold Rabs. destruct (Rcase_abs x); lra.
Qed.
End Coverage.

Section Test.
Variables (p : tct_params) (d : point).
Hypothesis H : sampled_tct p d.
Variable label : arr2 nat -> arr2 nat.
Hypothesis Lab : forall m, is_labelling m (label m).
Let lut := Some 1000%nat.
Let rot := - (PI / 4).
Definition test_ideal (n : nat) : result csd_data :=
  ideal_csd_geometric label (stack p d n) [-0.2; -0.06] [-0.2; -0.06] (ResArray [Z.of_nat 10; Z.of_nat 10]) (- (PI / 4)) (Some 1000%nat) Sigmoid None.

Lemma test_outcome n : (1 <= n < 256)%nat ->
  match test_ideal n with
  | Ok _ => exists m, test_measurement label (stack p d n) = Ok m
  | Err e => test_measurement label (stack p d n) = Err e
  end.
Proof.
  intros Hn.
  pose proof (measure_outcome (W := unit) label (sampled_csd (stack p d n)) default_sensor (Some test_range) (Some test_range)
    (-0.2) (-0.06) (-0.2) (-0.06) (ResArray [10; 10]%Z) tt (covered_config p d n H Hn label Lab)) as M.
  assert (Wf : well_formed_request [-0.2; -0.06] [-0.2; -0.06] (res_list (ResArray [10; 10]%Z))).
  { exists (-0.2), (-0.06), (-0.2), (-0.06). split; [reflexivity|]. split; [reflexivity|]. split; [simpl; lia|]. intros _.
    split; [lra|]. split; [lra|]. repeat constructor; lia. }
  specialize (M Wf ltac:(discriminate)). cbv zeta in M.
  specialize (M ltac:(repeat constructor; lia)).
  assert (Sw : sweep_within (Some test_range) (-0.2) (-0.06)) by (simpl; lra).
  specialize (M Sw Sw).
  change (ideal_of label (sampled_csd (stack p d n)) (-0.2) (-0.06) (-0.2) (-0.06) (ResArray [10; 10]%Z)) with (test_ideal n) in M.
  unfold test_measurement. change (fst test_range) with (-0.2). change (snd test_range) with (-0.06).
  destruct (test_ideal n) as [dd|e].
  - destruct M as (m & E). exists m. rewrite E. reflexivity.
  - rewrite M. reflexivity.
Qed.
Lemma test_ideal_error n e : (1 <= n < 256)%nat -> test_ideal n = Err e -> e = IndexError.
Proof.
  intros Hn E. destruct (covered_config p d n H Hn label Lab) as (P & Hl & K & _).
  destruct (csd_2d label (stack p d n) (-0.2) (-0.06) (-0.2) (-0.06) 10 10 rot lut Sigmoid None _ P Hl K (gamma_of_ok Sigmoid None K) ltac:(lra) ltac:(lra) ltac:(lia) ltac:(lia) Lab)
    as (lead & _ & _ & _ & _ & D).
  unfold test_ideal in E. fold lut rot in E. destruct D as [(occ & E' & _)|[E' _]]; rewrite E in E'; [discriminate|]. congruence.
Qed.

Lemma test_sort : np_sort (-0.2, -0.06) = (-0.2, -0.06). Proof. apply np_sort_asc. simpl. lra. Qed.
Lemma test_spacing : spacing (-0.2, -0.06) 10 = 0.14 / 9.
Proof. unfold spacing. cbn [fst snd]. change (10 - 1)%nat with 9%nat. rewrite INR_IZR_INZ. simpl IZR. lra. Qed.
Lemma last_of n : (1 <= n < 256)%nat -> exists F, is_tct (moved (mult (n - 1) d) p) lut (Some n) F.
Proof. intros Hn. apply last_exists; auto. Qed.

Lemma test_enough n : (91 <= n < 256)%nat -> exists dd, test_ideal n = Ok dd.
Proof.
  intros Hn. destruct (last_of n ltac:(lia)) as (F & HF).
  pose proof sqrt2_bounds as Q.
  apply (high_scan_ok p d n H ltac:(lia) label Lab F HF (-0.2) (-0.06) (-0.2) (-0.06) 10 10 (-0.0738)); try lra; try lia; rewrite ?test_sort, ?test_spacing; cbn [fst snd]; try lra.
  - intros x Hx. pose proof (last_low p d n H ltac:(lia) F HF x) as L. pose proof (Rabs_pos x).
    assert (90 <= INR n - 1) by (assert (INR 91 <= INR n) by (apply le_INR; lia); rewrite (INR_IZR_INZ 91) in *; simpl IZR in *; lra).
    lra.
Qed.

Lemma test_passed n dd F : (1 <= n < 256)%nat -> test_ideal n = Ok dd -> is_tct (moved (mult (n - 1) d) p) lut (Some n) F ->
  forall x, -0.0764 - 0.55 * Rabs x <= F x.
Proof.
  intros Hn E HF. pose proof sqrt2_bounds as Q.
  assert (V : fst (tct_view rot (-0.06, -0.06)) = 0) by (unfold rot; rewrite view_quarter; cbn [fst snd]; field; lra).
  destruct (sample_near (-0.2, -0.06) (-0.2, -0.06) 10 10 rot (-0.06, -0.06)) as (x0 & I0 & D0); try (simpl; lra); try lia.
  rewrite V, Rminus_0_r in D0.
  assert (SD : sample_distance (-0.2, -0.06) (-0.2, -0.06) 10 10 rot / 2 <= 0.00146).
  { unfold sample_distance, rotated_extent, rot. rewrite cos_neg, sin_neg, Rabs_Ropp, cos_PI4, sin_PI4, test_spacing. cbn [fst snd].
    assert (C : 0 < 1 / sqrt 2) by (apply Rdiv_lt_0_compat; lra). rewrite !(Rabs_pos_eq (1 / sqrt 2)) by lra.
    assert (C2 : 1 / sqrt 2 <= 0.70712).
    { apply Rmult_le_reg_r with (sqrt 2); [lra|]. unfold Rdiv. rewrite Rmult_assoc, Rinv_l by lra. lra. }
    change ((10 + 10) * 4 - 1)%nat with 79%nat. rewrite INR_IZR_INZ. simpl IZR. lra. }
  assert (B0 : Rabs x0 <= 0.00146) by lra. pose proof (Rabs_le_inv _ _ B0) as B0'.
  assert (F0 : -0.0755 <= F x0).
  { destruct (Rle_lt_dec (-0.0755) (F x0)) as [L|L]; auto. exfalso.
    pose proof (last_low p d n H Hn F HF x0) as Lo.
    assert (0 <= INR n - 1) by (assert (INR 1 <= INR n) by (apply le_INR; lia); change (INR 1) with 1 in *; lra).
    assert (T1 : (x0 + F x0) / sqrt 2 * sqrt 2 = x0 + F x0) by (field; lra).
    assert (T2 : (F x0 - x0) / sqrt 2 * sqrt 2 = F x0 - x0) by (field; lra).
    assert (Sx : fst (-0.2, -0.06) < snd (-0.2, -0.06)) by (cbn [fst snd]; lra).
    assert (W1 : in_window (-0.2, -0.06) 10 ((x0 + F x0) / sqrt 2)) by (unfold in_window; rewrite test_spacing; cbn [fst snd]; split; nra).
    assert (W2 : in_window (-0.2, -0.06) 10 ((F x0 - x0) / sqrt 2)) by (unfold in_window; rewrite test_spacing; cbn [fst snd]; split; nra).
    pose proof (stack_length p d n) as SL.
    assert (Ln : nth_error (stack p d n) (length (stack p d n) - 1) = Some (moved (mult (n - 1) d) p)) by (rewrite SL; apply nth_stack; lia).
    assert (HF' : is_tct (moved (mult (n - 1) d) p) lut (Some (length (stack p d n))) F) by (rewrite SL; exact HF).
    destruct (point_drawn (stack p d n) lut (-0.2, -0.06) (-0.2, -0.06) 10 10 x0 F (moved (mult (n - 1) d) p) Sx Sx ltac:(lia) ltac:(lia)
      ltac:(rewrite SL; lia) Ln HF' I0 W1 W2) as (a & A1 & A2 & Dr).
    exact (scan_not_drawn label (stack p d n) (-0.2) (-0.06) (-0.2) (-0.06) 10 10 rot lut Sigmoid None dd a
      (covered_config p d n H Hn label Lab) ltac:(lra) ltac:(lra) ltac:(lia) ltac:(lia) E A1 A2 Dr). }
  intros x. pose proof (last_slope p d n H Hn F HF x0 x) as S.
  assert (Rabs (x0 - x) <= Rabs x0 + Rabs x) by (unfold Rminus; rewrite <- (Rabs_Ropp x); apply Rabs_triang).
  lra.
Qed.

(** ** the loop that adds TCTs *)
Definition test_ok (n : nat) : Prop := exists m, test_measurement label (stack p d n) = Ok m.
Lemma test_split n : (1 <= n < 256)%nat ->
  (exists dd, test_ideal n = Ok dd /\ test_ok n) \/ (test_measurement label (stack p d n) = Err IndexError /\ (n < 91)%nat).
Proof.
  intros Hn. pose proof (test_outcome n Hn) as T. destruct (test_ideal n) as [dd|e] eqn:E.
  - left. exists dd. auto.
  - right. rewrite T, (test_ideal_error n e Hn E). split; auto.
    destruct (le_lt_dec 91 n) as [C|C]; auto. destruct (test_enough n ltac:(lia)) as (dd & E'). congruence.
Qed.
Lemma add_tcts_spec k : forall n, (1 <= n <= 91)%nat ->
  (exists m, add_tcts label k (stack p d n) d = Ok (stack p d m) /\ (n <= m <= 91)%nat /\
     (exists dd, test_ideal m = Ok dd) /\ test_ok m /\
     forall j, (n <= j < m)%nat -> test_measurement label (stack p d j) = Err IndexError) \/
  (add_tcts label k (stack p d n) d = Err OutOfFuel /\ (k + n < 92)%nat).
Proof.
  induction k as [|k IH]; intros n Hn; cbn [add_tcts]; [right; split; [reflexivity|lia]|].
  destruct (test_split n ltac:(lia)) as [(dd & E & m & T)|[T L]]; rewrite T.
  - left. exists n. split; [reflexivity|]. split; [lia|]. split; [eauto|]. split; [exists m; auto|]. lia.
  - rewrite add_stack by lia. cbn [bind].
    destruct (IH (S n) ltac:(lia)) as [(m & E & B & D & O & Pr)|[E B]].
    + left. exists m. split; [exact E|]. split; [lia|]. split; [auto|]. split; [auto|]. intros j Hj.
      destruct (Nat.eq_dec j n) as [->|N]; auto. apply Pr. lia.
    + right. split; [exact E|lia].
Qed.
End Test.

(** ** the sampled object *)
Lemma firstn_seq_low a n k : (k <= n)%nat -> firstn k (seq a n) = seq a k.
Proof.
  revert a k. induction n as [|n IH]; intros a [|k] L; try reflexivity; [lia|]. cbn. f_equal. apply IH. lia.
Qed.
Lemma div_le_of a b c : 0 < c -> a <= b * c -> a / c <= b.
Proof. intros P L. apply Rmult_le_reg_r with c; [auto|]. unfold Rdiv. rewrite Rmult_assoc, Rinv_l by lra. lra. Qed.
Section Result.
Context {G : Type}.
Variable r : rng G.
Variable fuel : nat.
Hypothesis U : uniform_ok r.
Variable label : arr2 nat -> arr2 nat.
Hypothesis Lab : forall m, is_labelling m (label m).

Lemma sample_csd_inv g x g1 : sample_ideal_csd r fuel label g = (Ok x, g1) ->
  exists p d n, sampled_tct p d /\ x = sampled_csd (stack p d n) /\ (1 <= n <= 91)%nat /\
    (exists dd, test_ideal p d label n = Ok dd) /\ test_ok p d label n /\
    forall j, (1 <= j < n)%nat -> test_measurement label (stack p d j) = Err IndexError.
Proof.
  unfold sample_ideal_csd. intros E.
  apply bind_ok in E. destruct E as ([p d] & g2 & E1 & E). apply bind_ok in E. destruct E as (tcts & g3 & E2 & E).
  pose proof (first_tct_inv r fuel U _ _ _ _ E1) as H.
  apply ret_inv in E. destruct E as [E _].
  exists p, d. unfold lift in E2. rewrite <- (stack_one p d) in E2.
  destruct (add_tcts_spec p d H label Lab fuel 1 ltac:(lia)) as [(n & A & B & D & O & Pr)|[A B]].
  - exists n. assert (tcts = stack p d n) by congruence. subst tcts. auto 10.
  - exfalso. rewrite A in E2. discriminate.
Qed.
Lemma sample_csd_err g e g1 : sample_ideal_csd r fuel label g = (Err e, g1) -> e = OutOfFuel.
Proof.
  unfold sample_ideal_csd. intros E.
  apply bind_err in E. destruct E as [E|([p d] & g2 & E1 & E)]; [exact (first_tct_err r fuel _ _ _ E)|].
  pose proof (first_tct_inv r fuel U _ _ _ _ E1) as H.
  apply bind_err in E. destruct E as [E|(tcts & g3 & E2 & E)]; [|discriminate].
  unfold lift in E. rewrite <- (stack_one p d) in E.
  destruct (add_tcts_spec p d H label Lab fuel 1 ltac:(lia)) as [(n & A & _)|[A B]]; rewrite A in E; congruence.
Qed.
Lemma sample_csd_ends g p d g1 : (91 <= fuel)%nat -> sample_first_tct r fuel g = (Ok (p, d), g1) ->
  exists x, sample_ideal_csd r fuel label g = (Ok x, g1).
Proof.
  intros Hf E1. pose proof (first_tct_inv r fuel U _ _ _ _ E1) as H.
  unfold sample_ideal_csd. rewrite (bind_go _ _ _ _ _ E1). unfold mbind, lift. rewrite <- (stack_one p d).
  destruct (add_tcts_spec p d H label Lab fuel 1 ltac:(lia)) as [(n & A & _)|[A B]]; [|lia].
  rewrite A. eexists. reflexivity.
Qed.

Lemma sampled_shape g x g1 : sample_ideal_csd r fuel label g = (Ok x, g1) ->
  exists p d, sampled_tct p d /\ sampled_attributes x /\ (1 <= length (g_tcts x) <= 91)%nat /\ translates p d (g_tcts x).
Proof.
  intros E. destruct (sample_csd_inv _ _ _ E) as (p & d & n & H & -> & B & _). exists p, d.
  split; [exact H|]. split; [repeat split|]. cbn [g_tcts sampled_csd]. rewrite stack_length. split; [lia|apply stack_translates].
Qed.
Lemma sampled_minimal g x g1 : sample_ideal_csd r fuel label g = (Ok x, g1) ->
  (exists m, test_measurement label (g_tcts x) = Ok m) /\
  forall k, (1 <= k < length (g_tcts x))%nat -> test_measurement label (firstn k (g_tcts x)) = Err IndexError.
Proof.
  intros E. destruct (sample_csd_inv _ _ _ E) as (p & d & n & H & -> & B & _ & T & Pr). cbn [g_tcts sampled_csd].
  split; [exact T|]. rewrite stack_length. intros k Hk. rewrite <- (Pr k Hk). f_equal.
  unfold stack. rewrite firstn_map. f_equal. apply firstn_seq_low. lia.
Qed.
Lemma sampled_ordered g x g1 : sample_ideal_csd r fuel label g = (Ok x, g1) ->
  config_ok label x /\ Forall (bounded_tct 0.55 0.000005 (g_lut x)) (g_tcts x) /\ stacked 0.0014 (g_tcts x).
Proof.
  intros E. destruct (sample_csd_inv _ _ _ E) as (p & d & n & H & -> & B & _). cbn [g_tcts g_lut sampled_csd].
  split; [apply (covered_config p d n H ltac:(lia) label Lab)|]. split; [apply stack_bounded; auto|apply stack_stacked; auto].
Qed.
Lemma sampled_last g x g1 : sample_ideal_csd r fuel label g = (Ok x, g1) ->
  exists p d n F, sampled_tct p d /\ (1 <= n <= 91)%nat /\ x = sampled_csd (stack p d n) /\
    is_tct (moved (mult (n - 1) d) p) (Some 1000%nat) (Some n) F /\ forall y, -0.0764 - 0.55 * Rabs y <= F y.
Proof.
  intros E. destruct (sample_csd_inv _ _ _ E) as (p & d & n & H & -> & B & (dd & T) & _).
  destruct (last_of p d H n ltac:(lia)) as (F & HF). exists p, d, n, F. split; [auto|]. split; [auto|]. split; [auto|]. split; [exact HF|].
  exact (test_passed p d H label Lab n dd F ltac:(lia) T HF).
Qed.
Lemma sampled_covers g x g1 v : sample_ideal_csd r fuel label g = (Ok x, g1) -> in_range v ->
  exists n, (n < length (g_tcts x))%nat /\ electrons (g_tcts x) (g_lut x) (g_rotation x) v n.
Proof.
  intros E V. destruct (sampled_last _ _ _ E) as (p & d & n & F & H & B & -> & HF & Lo). cbn [g_tcts g_lut g_rotation sampled_csd].
  pose proof (stack_bounded p d H n) as SB. pose proof (stack_stacked p d H n) as SS. pose proof (stack_length p d n) as SL.
  assert (Be : strictly_below (stack p d n) (Some 1000%nat) (- (PI / 4)) v n).
  { exists (moved (mult (n - 1) d) p), (F (fst (tct_view (- (PI / 4)) v))).
    split; [lia|]. split; [apply nth_stack; lia|]. split; [apply HF|]. rewrite view_quarter. cbn [fst snd].
    set (x := (fst v - snd v) / sqrt 2). set (y := (fst v + snd v) / sqrt 2). pose proof sqrt2_bounds as Q.
    assert (Ex : sqrt 2 * x = fst v - snd v) by (unfold x; field; lra). assert (Ey : sqrt 2 * y = fst v + snd v) by (unfold y; field; lra).
    specialize (Lo x). destruct V as [V1 V2].
    assert (G1 : y + x <= -0.0848) by (assert (sqrt 2 * (y + x) = 2 * fst v) by lra; nra).
    assert (G2 : y - x <= -0.0848) by (assert (sqrt 2 * (y - x) = 2 * snd v) by lra; nra).
    revert Lo. unfold Rabs. destruct (Rcase_abs x); lra. }
  destruct (electrons_or_above (stack p d n) (Some 1000%nat) 0.55 0.000005 0.0014 ltac:(lra) SB SS ltac:(lra) (- (PI / 4)) v) as [(k & K)|A].
  - exists k. split; auto.
    apply (electrons_passed (stack p d n) (Some 1000%nat) 0.55 0.000005 0.0014 ltac:(lra) SB SS ltac:(lra)) in K. apply K.
  - exfalso. apply (not_both (stack p d n) (Some 1000%nat) (- (PI / 4)) v n); auto. apply A. rewrite SL. lia.
Qed.
Lemma sampled_scans g x g1 a1 b1 a2 b2 nx ny : sample_ideal_csd r fuel label g = (Ok x, g1) ->
  in_range (a1, a2) -> in_range (b1, b2) -> a1 <> b1 -> a2 <> b2 -> (2 <= nx)%nat -> (2 <= ny)%nat ->
  Rabs (b1 - a1) <= 0.0119 * INR (nx - 1) -> Rabs (b2 - a2) <= 0.0119 * INR (ny - 1) ->
  exists occ lead, ideal_csd_geometric label (g_tcts x) [a1; b1] [a2; b2] (ResArray [Z.of_nat nx; Z.of_nat ny])
    (g_rotation x) (g_lut x) (g_cdf x) (g_gamma x) = Ok (Csd2 occ lead).
Proof.
  intros E [A1 A2] [B1 B2] N1 N2 Hx Hy P1 P2. cbn [fst snd] in *.
  destruct (sampled_last _ _ _ E) as (p & d & n & F & H & B & -> & HF & Lo). cbn [g_tcts g_lut g_rotation g_cdf g_gamma sampled_csd].
  pose proof sqrt2_bounds as Q.
  assert (Srt : forall a b k, a <> b -> (2 <= k)%nat -> -0.2 <= a <= -0.06 -> -0.2 <= b <= -0.06 -> Rabs (b - a) <= 0.0119 * INR (k - 1) ->
    -0.2 <= fst (np_sort (a, b)) /\ snd (np_sort (a, b)) <= -0.06 /\ spacing (np_sort (a, b)) k <= 0.0119).
  { intros a b k N K Ha Hb P. assert (0 < INR (k - 1)) by (apply lt_0_INR; lia).
    unfold spacing. destruct (Rle_lt_dec a b) as [L|L].
    - rewrite np_sort_asc by (simpl; lra). cbn [fst snd]. rewrite Rabs_pos_eq in P by lra. split; [lra|]. split; [lra|].
      apply div_le_of; lra.
    - rewrite np_sort_desc by (simpl; lra). unfold swap. cbn [fst snd]. rewrite Rabs_left in P by lra. split; [lra|]. split; [lra|].
      apply div_le_of; lra. }
  destruct (Srt a1 b1 nx N1 Hx A1 B1 P1) as (X1 & X2 & X3). destruct (Srt a2 b2 ny N2 Hy A2 B2 P2) as (Y1 & Y2 & Y3).
  destruct (high_scan_ok p d n H ltac:(lia) label Lab F HF a1 b1 a2 b2 nx ny (-0.0764) N1 N2 Hx Hy) as (dd & D); try lra; try nra.
  - intros y _. specialize (Lo y). pose proof (Rabs_pos y). lra.
  - destruct (csd_2d label (stack p d n) a1 b1 a2 b2 nx ny (- (PI / 4)) (Some 1000%nat) Sigmoid None _ 
      (proj1 (covered_config p d n H ltac:(lia) label Lab)) (proj1 (proj2 (covered_config p d n H ltac:(lia) label Lab)))
      ltac:(discriminate) (gamma_of_ok Sigmoid None ltac:(discriminate)) N1 N2 Hx Hy Lab) as (lead & _ & _ & _ & _ & [(occ & E' & _)|[E' _]]).
    + eauto.
    + congruence.
Qed.
End Result.
