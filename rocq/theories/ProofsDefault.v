(** Proofs about the default configuration. *)
From Verif Require Import RPrelude Arr ModelSupport ModelTct ModelCsd ModelSensor ModelSimulation ModelInstance ModelConfig ModelDefault
  SpecTct SpecCsd SpecOrder SpecSensor SpecInstance
  ProofsTct ProofsRegions ProofsMask ProofsDriver ProofsFine ProofsScan ProofsInstance ProofsOrder ProofsCover.
Local Open Scope R_scope.

(** The corner is determined by linear equations, so that its position can be bounded by [lra]. *)
Lemma corner_exists p : slope_right p < slope_left p -> exists c, corner p c.
Proof.
  intros H. set (x := (end_y p - slope_right p * end_x p - start_y p + slope_left p * start_x p) / (slope_left p - slope_right p)).
  exists (x, start_y p + slope_left p * (x - start_x p)). unfold corner. cbn [fst snd].
  assert (E : x * (slope_left p - slope_right p) = end_y p - slope_right p * end_x p - start_y p + slope_left p * start_x p) by (unfold x; field; lra).
  lra.
Qed.
Lemma tct_bounded L eps n p : slope_right p < slope_left p -> (2 <= n)%nat ->
  Rabs (slope_left p) <= L -> Rabs (slope_right p) <= L -> 0 < len_left p + len_right p ->
  (forall c, corner p c -> start_x p <= fst c <= end_x p /\ 2 * (fst c - start_x p) <= len_left p /\ 2 * (end_x p - fst c) <= len_right p) ->
  L * ((end_x p - start_x p) / INR (n - 1)) <= eps -> bounded_tct L eps (Some n) p.
Proof.
  intros Hs Hn L1 L2 Hl Hc He. split; [|split; [exact Hs|split; [auto|split; [auto|]]]].
  - split; [lra|]. split; [auto|]. destruct (corner_exists p Hs) as (c & C). exists c. split; [auto|]. apply Hc; auto.
  - destruct n as [|n]; [lia|]. auto.
Qed.
Lemma placed delta n p q : slope_right p < slope_left p -> slope_right q < slope_left q -> flatter p q ->
  (forall cp cq, corner p cp -> corner q cq -> forall k, k = 0 \/ k = INR (n - 1) ->
     let dx := fst cq + k * (len_left q + len_right q) + len_right q - (fst cp + k * (len_left p + len_right p)) in
     let dy := snd cq + k * (len_left q * slope_left q + len_right q * slope_right q) + len_right q * slope_right q
               - (snd cp + k * (len_left p * slope_left p + len_right p * slope_right p)) in
     slope_left p * dx + delta <= dy /\ slope_right p * dx + delta <= dy) ->
  placed_above delta n p q.
Proof.
  intros H1 H2 F H. destruct (corner_exists p H1) as (cp & Cp). destruct (corner_exists q H2) as (cq & Cq).
  split; [auto|]. split; (eexists; split; [exists cp, cq; split; [exact Cp|split; [exact Cq|reflexivity]]|]);
    unfold rises, peak_point; cbn [fst snd]; apply H; auto.
Qed.

Ltac numbers := cbn [len_left len_right slope_left slope_right start_x start_y end_x end_y fst snd] in *.
Lemma default_bounded : Forall (bounded_tct 0.43 0.0000025 (Some 1000%nat)) default_tcts.
Proof.
  unfold default_tcts. repeat (apply Forall_cons; [|]); [..|apply Forall_nil];
    apply tct_bounded; numbers; try lia; try (rewrite Rabs_pos_eq; lra); try (rewrite Rabs_left; lra); try lra.
  all: try (change (1000 - 1)%nat with 999%nat; rewrite INR_IZR_INZ; simpl IZR; lra).
  all: intros [cx cy] [C1 C2]; numbers; lra.
Qed.
Lemma default_stacked : stacked 0.0016 default_tcts.
Proof.
  intros n p q Hn E1 E2. assert (Hn' : (n < 14)%nat) by (change 14%nat with (length default_tcts); apply nth_error_Some; congruence).
  unfold default_tcts in *.
  destruct n as [|[|[|[|[|[|[|[|[|[|[|[|[|[|n]]]]]]]]]]]]]]; try (exfalso; lia).

  all: cbn [nth_error Nat.sub] in E1, E2; injection E1 as <-; injection E2 as <-.
  all: apply placed; [numbers; lra|numbers; lra|split; numbers; lra|].
  all: intros [cx cy] [ex ey] [C1 C2] [C3 C4] k K; cbn [Nat.sub] in K; rewrite INR_IZR_INZ in K; simpl IZR in K; numbers; destruct K as [-> | ->]; split; lra.
Qed.

Section Default.
Variable label : arr2 nat -> arr2 nat.
Hypothesis Lab : forall m, is_labelling m (label m).
Let lut := Some 1000%nat.

Lemma default_config : config_ok label default_csd.
Proof.
  apply (stacked_config label 0.43 0.0000025 lut 0.0016 default_tcts Sigmoid None); try lra; try discriminate; auto.
  - exact default_bounded.
  - exact default_stacked.
  - cbn [default_tcts length]. lia.
  - simpl. lra.
Qed.

Definition last_default : tct_params :=
  mk_tct 0.01075474 0.01549732 0.01795249 (-0.01608112) (-0.21225816) (-0.09116864) (-0.20653105) (-0.09108656).
Lemma last_default_nth : nth_error default_tcts (14 - 1) = Some last_default. Proof. reflexivity. Qed.
Lemma last_default_tct : exists F, is_tct last_default lut (Some 14%nat) F /\
  forall x, -0.091565 - 0.018 * Rabs (x + 0.0285) <= F x <= -0.091558 + 0.018 * Rabs (x + 0.0285).
Proof.
  destruct (stack_exists default_tcts lut 0.43 0.0000025 default_bounded 14 last_default ltac:(lia) last_default_nth) as (F & HF).
  exists F. split; [exact HF|].
  assert (B : bounded_tct 0.43 0.0000025 lut last_default).
  { pose proof default_bounded as B. rewrite Forall_forall in B. apply B. eapply nth_error_In. exact last_default_nth. }
  destruct (bounded_explicit 0.43 0.0000025 lut last_default 14 F ltac:(lra) B ltac:(lia) HF) as (f & Hf & C).
  pose proof B as (A & Pk & _). destruct (corner_exists last_default Pk) as (c & Hc).
  destruct (peak_anchor last_default c 14 f A Pk Hc ltac:(lia) Hf 7 ltac:(lia)) as [K _].
  pose proof (one_slopes last_default 14 f A Pk ltac:(lia) Hf) as Sl.
  destruct c as [cx cy]. destruct Hc as [C1 C2]. unfold last_default in K, Sl, C1, C2. numbers.
  rewrite (INR_IZR_INZ 7) in K. simpl IZR in K.
  match type of K with f ?t = ?u => assert (Et : t = -0.02849374) by lra; assert (Eu : -0.091562 <= u <= -0.091561) by lra; rewrite Et in K; rewrite <- K in Eu end.
  intros x. specialize (C x). apply Rabs_le_inv in C.
  unfold Rabs. destruct (Rle_lt_dec (-0.02849374) x) as [P|P].
  - specialize (Sl (-0.02849374) x P). destruct (Rcase_abs (x + 0.0285)); lra.
  - specialize (Sl x (-0.02849374) ltac:(lra)). destruct (Rcase_abs (x + 0.0285)); lra.
Qed.

(** everything in the voltage limits, extended by up to 2 mV, lies below the last TCT *)
Lemma default_below F q1 q2 : (forall x, -0.091565 - 0.018 * Rabs (x + 0.0285) <= F x) ->
  q1 < -0.085 -> q2 < -0.045 -> (q1 + q2) / sqrt 2 < F ((q1 - q2) / sqrt 2).
Proof.
  intros HF Q1 Q2. pose proof sqrt2_bounds as Q. set (x := (q1 - q2) / sqrt 2). set (y := (q1 + q2) / sqrt 2).
  assert (Ex : sqrt 2 * x = q1 - q2) by (unfold x; field; lra). assert (Ey : sqrt 2 * y = q1 + q2) by (unfold y; field; lra).
  assert (Sp : sqrt 2 * sqrt 2 = 2) by (apply sqrt_sqrt; lra).
  assert (G1 : y + x < -0.1202) by (assert (sqrt 2 * (y + x) = 2 * q1) by lra; nra).
  assert (G2 : y - x < -0.0636) by (assert (sqrt 2 * (y - x) = 2 * q2) by lra; nra).
  specialize (HF x). revert HF. unfold Rabs. destruct (Rcase_abs (x + 0.0285)); lra.
Qed.

Lemma default_electrons v : fst v <= snd limits_g1 -> snd v <= snd limits_g2 ->
  exists n, (n <= 13)%nat /\ electrons default_tcts lut (- (PI / 4)) v n.
Proof.
  intros V1 V2. destruct last_default_tct as (F & HF & Bd). cbn [snd limits_g1 limits_g2] in V1, V2.
  assert (Be : strictly_below default_tcts lut (- (PI / 4)) v 14).
  { exists last_default, (F (fst (tct_view (- (PI / 4)) v))). split; [lia|]. split; [exact last_default_nth|]. split; [apply HF|].
    rewrite view_quarter. cbn [fst snd]. apply default_below; [intros x; apply Bd|lra|lra]. }
  destruct (electrons_or_above default_tcts lut 0.43 0.0000025 0.0016 ltac:(lra) default_bounded default_stacked ltac:(lra) (- (PI / 4)) v) as [(k & K)|A].
  - exists k. split; auto.
    apply (electrons_passed default_tcts lut 0.43 0.0000025 0.0016 ltac:(lra) default_bounded default_stacked ltac:(lra)) in K. destruct K as [K _].
    cbn [length default_tcts] in K. lia.
  - exfalso. apply (not_both default_tcts lut (- (PI / 4)) v 14); auto. apply A. cbn [length default_tcts]. lia.
Qed.

Lemma default_scan_ok a1 b1 a2 b2 nx ny : a1 <> b1 -> a2 <> b2 -> (2 <= nx)%nat -> (2 <= ny)%nat ->
  a1 <= snd limits_g1 -> b1 <= snd limits_g1 -> a2 <= snd limits_g2 -> b2 <= snd limits_g2 ->
  Rabs (b1 - a1) <= 0.004 * INR (nx - 1) -> Rabs (b2 - a2) <= 0.004 * INR (ny - 1) ->
  exists occ lead, ideal_csd_geometric label default_tcts [a1; b1] [a2; b2] (ResArray [Z.of_nat nx; Z.of_nat ny])
    (- (PI / 4)) lut Sigmoid None = Ok (Csd2 occ lead).
Proof.
  intros N1 N2 Hx Hy A1 B1 A2 B2 P1 P2. destruct last_default_tct as (F & HF & Bd). cbn [snd limits_g1 limits_g2] in *.
  assert (Srt : forall a b k m, a <> b -> (2 <= k)%nat -> a <= m -> b <= m -> Rabs (b - a) <= 0.004 * INR (k - 1) ->
    snd (np_sort (a, b)) + spacing (np_sort (a, b)) k / 2 <= m + 0.002).
  { intros a b k m N K Ha Hb P. assert (Pk : 0 < INR (k - 1)) by (apply lt_0_INR; lia).
    assert (Dv : forall d, d <= 0.004 * INR (k - 1) -> d / INR (k - 1) <= 0.004).
    { intros d Hd. apply Rmult_le_reg_r with (INR (k - 1)); [auto|]. unfold Rdiv. rewrite Rmult_assoc, Rinv_l by lra. lra. }
    unfold spacing. destruct (Rle_lt_dec a b) as [L|L].
    - rewrite np_sort_asc by (simpl; lra). cbn [fst snd]. rewrite Rabs_pos_eq in P by lra. specialize (Dv _ P). lra.
    - rewrite np_sort_desc by (simpl; lra). unfold swap. cbn [fst snd]. rewrite Rabs_left in P by lra. specialize (Dv (a - b) ltac:(lra)). lra. }
  pose proof (Srt a1 b1 nx _ N1 Hx A1 B1 P1) as X. pose proof (Srt a2 b2 ny _ N2 Hy A2 B2 P2) as Y.
  apply (scan_below_ok label default_tcts last_default F a1 b1 a2 b2 nx ny lut Sigmoid None default_config last_default_nth HF N1 N2 Hx Hy).
  intros q1 q2 W1 W2 _ _. apply default_below; [intros x; apply Bd|lra|lra].
Qed.

Lemma default_coarse_fails : ideal_csd_geometric label default_tcts [-0.2; -0.087] [-0.2; -0.047] (ResArray [Z.of_nat 25; Z.of_nat 25])
    (- (PI / 4)) lut Sigmoid None = Err IndexError.
Proof.
  destruct last_default_tct as (F & HF & Bd). pose proof sqrt2_bounds as Q.
  assert (Px : spacing (-0.2, -0.087) 25 = 0.113 / 24) by (unfold spacing; cbn [fst snd]; change (25 - 1)%nat with 24%nat; rewrite INR_IZR_INZ; simpl IZR; lra).
  assert (Py : spacing (-0.2, -0.047) 25 = 0.153 / 24) by (unfold spacing; cbn [fst snd]; change (25 - 1)%nat with 24%nat; rewrite INR_IZR_INZ; simpl IZR; lra).
  assert (V : -0.02886 <= fst (tct_view (- (PI / 4)) (-0.0878, -0.047)) <= -0.02884).
  { rewrite view_quarter. cbn [fst snd].
    assert (E : (-0.0878 - -0.047) / sqrt 2 * sqrt 2 = -0.0408) by (unfold Rdiv; rewrite Rmult_assoc, Rinv_l by lra; lra). nra. }
  destruct (sample_near (-0.2, -0.087) (-0.2, -0.047) 25 25 (- (PI / 4)) (-0.0878, -0.047)) as (x0 & I0 & D0); try (cbn [fst snd]; lra); try lia.
  assert (SD : sample_distance (-0.2, -0.087) (-0.2, -0.047) 25 25 (- (PI / 4)) / 2 <= 0.0005).
  { unfold sample_distance, rotated_extent. rewrite cos_neg, sin_neg, Rabs_Ropp, cos_PI4, sin_PI4, Px. cbn [fst snd].
    assert (C : 0 < 1 / sqrt 2) by (apply Rdiv_lt_0_compat; lra). rewrite !(Rabs_pos_eq (1 / sqrt 2)) by lra.
    assert (C2 : 1 / sqrt 2 <= 0.70712).
    { apply Rmult_le_reg_r with (sqrt 2); [lra|]. unfold Rdiv. rewrite Rmult_assoc, Rinv_l by lra. lra. }
    change ((25 + 25) * 4 - 1)%nat with 199%nat. rewrite INR_IZR_INZ. simpl IZR. lra. }
  assert (B0 : -0.02936 <= x0 <= -0.02834).
  { assert (D1 : Rabs (x0 - fst (tct_view (- (PI / 4)) (-0.0878, -0.047))) <= 0.0005) by lra. apply Rabs_le_inv in D1. lra. }
  assert (FB : -0.0916 <= F x0 <= -0.09154).
  { specialize (Bd x0). revert Bd. unfold Rabs. destruct (Rcase_abs (x0 + 0.0285)); lra. }
  assert (T1 : (x0 + F x0) / sqrt 2 * sqrt 2 = x0 + F x0) by (field; lra).
  assert (T2 : (F x0 - x0) / sqrt 2 * sqrt 2 = F x0 - x0) by (field; lra).
  apply (scan_last_fails label default_tcts last_default F x0 (-0.2) (-0.087) (-0.2) (-0.047) 25 25 lut Sigmoid None default_config last_default_nth HF);
    try lra; try lia; auto.
  - unfold in_window. rewrite Px. cbn [fst snd]. split; nra.
  - unfold in_window. rewrite Py. cbn [fst snd]. split; nra.
Qed.

(** ** measurements *)
Lemma default_measure_ok {W} s a1 b1 a2 b2 nx ny (w : W) : a1 <> b1 -> a2 <> b2 -> (2 <= nx)%nat -> (2 <= ny)%nat ->
  sweep_within (Some limits_g1) a1 b1 -> sweep_within (Some limits_g2) a2 b2 ->
  Rabs (b1 - a1) <= 0.004 * INR (nx - 1) -> Rabs (b2 - a2) <= 0.004 * INR (ny - 1) ->
  exists m, measure (plain_config label (Some limits_g1) (Some limits_g2) default_csd s)
    [a1; b1] [a2; b2] None None (ResArray [Z.of_nat nx; Z.of_nat ny]) w = (Ok m, w).
Proof.
  intros N1 N2 Hx Hy S1 S2 P1 P2.
  pose proof (measure_outcome label default_csd s (Some limits_g1) (Some limits_g2) a1 b1 a2 b2 (ResArray [Z.of_nat nx; Z.of_nat ny]) w default_config) as M.
  assert (Wf : well_formed_request [a1; b1] [a2; b2] (res_list (ResArray [Z.of_nat nx; Z.of_nat ny]))).
  { exists a1, b1, a2, b2. split; [reflexivity|]. split; [reflexivity|]. split; [simpl; lia|]. intros _.
    split; [auto|]. split; [auto|]. repeat constructor; lia. }
  specialize (M Wf ltac:(discriminate)). cbv zeta in M. specialize (M ltac:(repeat constructor; lia) S1 S2).
  cbn [sweep_within] in S1, S2. cbn [snd limits_g1 limits_g2] in *. unfold limits_g1, limits_g2 in S1, S2.
  destruct (default_scan_ok a1 b1 a2 b2 nx ny N1 N2 Hx Hy) as (occ & lead & E); cbn [snd limits_g1 limits_g2]; try lra.
  unfold ideal_of in M. cbn [g_tcts g_rotation g_lut g_cdf g_gamma default_csd] in M. fold lut in M. rewrite E in M. exact M.
Qed.
Lemma default_measure_coarse {W} s (w : W) :
  measure (plain_config label (Some limits_g1) (Some limits_g2) default_csd s)
    [fst limits_g1; snd limits_g1] [fst limits_g2; snd limits_g2] None None (ResArray [25; 25]%Z) w = (Err IndexError, w).
Proof.
  unfold limits_g1, limits_g2. cbn [fst snd].
  pose proof (measure_outcome label default_csd s (Some (-0.2, -0.087)) (Some (-0.2, -0.047)) (-0.2) (-0.087) (-0.2) (-0.047) (ResArray [25; 25]%Z) w default_config) as M.
  assert (Wf : well_formed_request [-0.2; -0.087] [-0.2; -0.047] (res_list (ResArray [25; 25]%Z))).
  { exists (-0.2), (-0.087), (-0.2), (-0.047). split; [reflexivity|]. split; [reflexivity|]. split; [simpl; lia|]. intros _.
    split; [lra|]. split; [lra|]. repeat constructor; lia. }
  specialize (M Wf ltac:(discriminate)). cbv zeta in M. specialize (M ltac:(repeat constructor; lia)).
  specialize (M ltac:(cbn [sweep_within]; lra) ltac:(cbn [sweep_within]; lra)).
  unfold ideal_of in M. cbn [g_tcts g_rotation g_lut g_cdf g_gamma default_csd] in M. fold lut in M.
  change (ResArray [25; 25]%Z) with (ResArray [Z.of_nat 25; Z.of_nat 25]) in M at 1. rewrite default_coarse_fails in M. exact M.
Qed.
End Default.
