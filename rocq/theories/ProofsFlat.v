(** Electron numbers of the unlabelled pixels of 2D scans of the default configuration. *)
From Verif Require Import RPrelude Arr ModelSupport ModelTct ModelCsd ModelSensor ModelSimulation ModelInstance ModelConfig ModelDefault
  SpecTct SpecCsd SpecOrder SpecInstance ProofsTct ProofsTctShape ProofsCsd ProofsOcc ProofsRegions ProofsMask ProofsDriver ProofsFine ProofsScan
  ProofsOrder ProofsLabel ProofsExchange ProofsExchange2 ProofsDefault ProofsRaise ProofsCover ProofsHelpers SpecFirst ProofsFirst.
Local Open Scope R_scope.

(** ** scans with pixels of at least 25 microvolts *)
Lemma fine_table xl yl nx ny : fst xl < snd xl -> fst yl < snd yl -> (2 <= nx)%nat -> (2 <= ny)%nat ->
  spacing xl nx <= 3 * spacing yl ny -> spacing yl ny <= 3 * spacing xl nx ->
  0.000025 <= spacing xl nx -> 0.000025 <= spacing yl ny ->
  fine_sampling xl yl nx ny (- (PI / 4)) 0.43 0.0000025.
Proof.
  intros Hx Hy Hnx Hny A1 A2 M1 M2.
  assert (W : forall d, 0.000025 <= d -> spacing xl nx <= 3 * d -> spacing yl ny <= 3 * d ->
    1 / sqrt 2 * (sample_distance xl yl nx ny (- (PI / 4)) / 2) < 0.242 * d).
  { intros d Hd G1 G2. unfold sample_distance, rotated_extent.
    rewrite cos_neg, sin_neg, Rabs_Ropp, cos_PI4, sin_PI4.
    rewrite (spacing_span xl nx Hnx), (spacing_span yl ny Hny).
    set (dx := spacing xl nx) in *. set (dy := spacing yl ny) in *.
    rewrite minus_INR, mult_INR, plus_INR by lia. change (INR 1) with 1. change (INR 4) with (1+1+1+1).
    assert (Nx : 2 <= INR nx) by (apply (le_INR 2 nx) in Hnx; simpl in Hnx; lra).
    assert (Ny : 2 <= INR ny) by (apply (le_INR 2 ny) in Hny; simpl in Hny; lra).
    set (a := INR nx) in *. set (b := INR ny) in *.
    assert (Q : sqrt 2 * sqrt 2 = 2) by (apply sqrt_sqrt; lra).
    assert (S2 : 0 < sqrt 2) by (apply sqrt_lt_R0; lra).
    assert (Hh : 0 < 1 / sqrt 2) by (apply Rdiv_lt_0_compat; lra).
    set (h := 1 / sqrt 2) in *.
    assert (Hq : h * h = 1/2). { unfold h. replace (1 / sqrt 2 * (1 / sqrt 2)) with (1 / (sqrt 2 * sqrt 2)) by (field; lra). rewrite Q. reflexivity. }
    rewrite (Rabs_pos_eq h) by lra.
    assert (H1 : h < 7072/10000) by nra.
    set (N := (a + b) * (1+1+1+1) - 1). assert (D : 0 < N) by (unfold N; lra).
    set (T := h * ((a - 1) * dx) + h * ((b - 1) * dy) + 2 * dx).
    replace (h * (T / N / 2)) with (h * T / 2 / N) by (field; lra).
    assert (HT : h * T = 1/2 * ((a - 1) * dx) + 1/2 * ((b - 1) * dy) + 2 * h * dx).
    { unfold T. replace (h * (h * ((a - 1) * dx) + h * ((b - 1) * dy) + 2 * dx)) with
        (h * h * ((a - 1) * dx) + h * h * ((b - 1) * dy) + 2 * h * dx) by ring. rewrite Hq. ring. }
    apply Rmult_lt_reg_r with N; [lra|]. unfold Rdiv at 1. rewrite Rmult_assoc, Rinv_l, Rmult_1_r by lra.
    rewrite HT. unfold N.
    assert ((a - 1) * dx <= (a - 1) * (3 * d)) by (apply Rmult_le_compat_l; lra).
    assert ((b - 1) * dy <= (b - 1) * (3 * d)) by (apply Rmult_le_compat_l; lra).
    assert (2 * h * dx <= 2 * (7072/10000) * (3 * d)).
    { apply Rle_trans with (2 * h * (3 * d)); [apply Rmult_le_compat_l; lra|]. apply Rmult_le_compat_r; lra. }
    assert (0 <= (a - 2) * d) by (apply Rmult_le_pos; lra). assert (0 <= (b - 2) * d) by (apply Rmult_le_pos; lra). lra. }
  pose proof sqrt2_bounds as Sq.
  unfold fine_sampling. rewrite cos_neg, sin_neg, Rabs_Ropp, cos_PI4, sin_PI4.
  assert (Hh : 0.707 < 1 / sqrt 2 < 0.7072).
  { unfold Rdiv. rewrite Rmult_1_l. split; (apply Rmult_lt_reg_r with (sqrt 2); [lra|]); rewrite Rinv_l by lra; lra. }
  set (h := 1 / sqrt 2) in *. rewrite (Rabs_pos_eq h) by lra.
  set (D := sample_distance xl yl nx ny (- (PI / 4)) / 2) in *.
  pose proof (W (spacing xl nx) M1 ltac:(lra) A2) as W1. pose proof (W (spacing yl ny) M2 A1 ltac:(lra)) as W2.
  clearbody h D. split; lra.
Qed.

Section Default.
Variable label : arr2 nat -> arr2 nat.
Hypothesis Lab : forall m, is_labelling m (label m).
Let lut := Some 1000%nat.

Lemma default_unlabelled a1 b1 a2 b2 nx ny occ lead : (2 <= nx)%nat -> (2 <= ny)%nat ->
  0.000025 <= Rabs (b1 - a1) / INR (nx - 1) -> 0.000025 <= Rabs (b2 - a2) / INR (ny - 1) ->
  Rabs (b1 - a1) / INR (nx - 1) <= 3 * (Rabs (b2 - a2) / INR (ny - 1)) ->
  Rabs (b2 - a2) / INR (ny - 1) <= 3 * (Rabs (b1 - a1) / INR (nx - 1)) ->
  ideal_csd_geometric label default_tcts [a1; b1] [a2; b2] (ResArray [Z.of_nat nx; Z.of_nat ny]) (- (PI / 4)) lut Sigmoid None = Ok (Csd2 occ lead) ->
  forall v o, scan_pixel (Csd2 occ lead) (a1, b1) (a2, b2) v o 0%nat ->
  exists n, electrons default_tcts lut (- (PI / 4)) v n /\ fst o + snd o = INR n.
Proof.
  intros Hx Hy M1 M2 A1 A2 H v o Px. pose proof (default_config label Lab) as C.
  assert (Sp : forall a b n, (2 <= n)%nat -> 0.000025 <= Rabs (b - a) / INR (n - 1) -> a <> b /\ spacing (np_sort (a, b)) n = Rabs (b - a) / INR (n - 1)).
  { intros a b n Hn M. assert (a <> b).
    { intros ->. replace (b - b) with 0 in M by ring. rewrite Rabs_R0 in M. unfold Rdiv in M. lra. }
    split; auto. unfold spacing, np_sort. cbn [fst snd]. destruct (Rle_dec a b).
    - rewrite Rleb_true by lra. rewrite Rabs_pos_eq by lra. reflexivity.
    - rewrite Rleb_false by lra. rewrite Rabs_left1 by lra. cbn [fst snd]. f_equal. ring. }
  destruct (Sp _ _ _ Hx M1) as [N1 E1]. destruct (Sp _ _ _ Hy M2) as [N2 E2].
  pose proof (sorted_lt (a1, b1) N1) as Sx. pose proof (sorted_lt (a2, b2) N2) as Sy.
  destruct (scan_2d_unlabelled label default_tcts a1 b1 a2 b2 (Z.of_nat nx) (Z.of_nat ny) (- (PI / 4)) lut Sigmoid None occ lead 0.43 0.0000025 C ltac:(lra) default_bounded) with (v := v) (o := o) as (n & E & Po); auto.
  - rewrite !Nat2Z.id. apply fine_table; auto; rewrite ?E1, ?E2; auto.
  - exists n. split; auto. pose proof (pixel_occ_bounds _ _ _ _ _ _ _ Po) as (_ & S1 & _). exact S1.
Qed.

(** ** flat windows *)
Let xm := 0.063.
Let sl := 0.38038481.
Let A := -0.17171497 - sl * (xm + 0.02674207).
Let gc := (xm + A) / sqrt 2.
Let gy := (A - xm) / sqrt 2.

Lemma first_line : exists F, is_tct first_default lut (Some 1%nat) F /\ forall x, -0.02674207 <= x -> F x = A - sl * (x - xm).
Proof.
  assert (B : bounded_tct 0.43 0.0000025 lut first_default) by exact (nth_bounded default_tcts lut 0.43 0.0000025 default_bounded 0 first_default eq_refl).
  destruct (bounded_good _ _ _ _ B) as [Ad Gm].
  destruct (stack_exists default_tcts lut 0.43 0.0000025 default_bounded 1 first_default ltac:(lia) eq_refl) as (F & HF).
  destruct (tct_total first_default lut None Ad Gm I) as (f & Hf).
  destruct (tct_outer first_default lut 1 f F Ad Gm ltac:(lia) Hf HF) as (_ & _ & O). exists F. split; auto.
  intros x X. rewrite O by (cbn [first_default end_x len_left len_right INR]; lra).
  cbn [first_default end_x end_y len_left len_right slope_left slope_right INR]. unfold A, sl, xm. lra.
Qed.

(** a point near the centre of the window *)
Lemma flat_electrons u t : Rabs u <= 0.0005 -> Rabs t <= 0.0000125 ->
  (u * (1 + sl) + t * (1 - sl) < 0 -> electrons default_tcts lut (- (PI / 4)) (gc + u, gy + t) 0) /\
  (0 <= u * (1 + sl) + t * (1 - sl) -> electrons default_tcts lut (- (PI / 4)) (gc + u, gy + t) 1).
Proof.
  intros Hu Ht. destruct first_line as (F & HF & EF). pose proof sqrt2_bounds as Sq.
  apply Rabs_le_inv in Hu, Ht.
  assert (Q : sqrt 2 * sqrt 2 = 2) by (apply sqrt_sqrt; lra).
  assert (Vx : fst (tct_view (- (PI / 4)) (gc + u, gy + t)) = xm + (u - t) / sqrt 2).
  { rewrite view_quarter. cbn [fst snd]. unfold gc, gy. field_simplify_eq; [|lra]. replace (sqrt 2 ^ 2) with 2 by (simpl; rewrite Rmult_1_r; symmetry; exact Q). ring. }
  assert (Vy : snd (tct_view (- (PI / 4)) (gc + u, gy + t)) = A + (u + t) / sqrt 2).
  { rewrite view_quarter. cbn [fst snd]. unfold gc, gy. field_simplify_eq; [|lra]. replace (sqrt 2 ^ 2) with 2 by (simpl; rewrite Rmult_1_r; symmetry; exact Q). ring. }
  assert (Ih : 0.707 < / sqrt 2 < 0.7072).
  { split; (apply Rmult_lt_reg_r with (sqrt 2); [lra|]); rewrite Rinv_l by lra; lra. }
  assert (Fx : F (xm + (u - t) / sqrt 2) = A - sl * (u - t) / sqrt 2).
  { rewrite EF; [field; lra|]. unfold Rdiv, xm. nra. }
  assert (T1 : tct_bezier_number first_default lut (Some 1%nat) (fst (tct_view (- (PI / 4)) (gc + u, gy + t))) = Ok (A - sl * (u - t) / sqrt 2)).
  { rewrite Vx. rewrite HF. rewrite Fx. reflexivity. }
  assert (D : A + (u + t) / sqrt 2 - (A - sl * (u - t) / sqrt 2) = (u * (1 + sl) + t * (1 - sl)) * / sqrt 2) by (field; lra).
  split; intros H.
  - split; [intros k Hk; lia|]. exists first_default, (A - sl * (u - t) / sqrt 2). split; [lia|]. split; [reflexivity|].
    split; [exact T1|]. rewrite Vy. assert ((u * (1 + sl) + t * (1 - sl)) * / sqrt 2 < 0) by nra. lra.
  - assert (0 <= (u * (1 + sl) + t * (1 - sl)) * / sqrt 2) by (apply Rmult_le_pos; lra).
    split.
    + intros k Hk. assert (k = 1)%nat by lia. subst k. exists first_default, (A - sl * (u - t) / sqrt 2). split; [lia|].
      split; [reflexivity|]. split; [exact T1|]. rewrite Vy. lra.
    + destruct (nth_error default_tcts 1) as [q|] eqn:Eq; [|discriminate].
      destruct (stack_exists default_tcts lut 0.43 0.0000025 default_bounded 2 q ltac:(lia) Eq) as (g & Hg).
      pose proof (stack_gap default_tcts lut 0.43 0.0000025 0.0016 ltac:(lra) default_bounded default_stacked 1 first_default q F g ltac:(lia) eq_refl Eq HF Hg
        (xm + (u - t) / sqrt 2)) as Gp.
      exists q, (g (xm + (u - t) / sqrt 2)). split; [lia|]. split; [exact Eq|]. rewrite Vx, Vy. split; [apply Hg|].
      rewrite Fx in Gp. assert ((u * (1 + sl) + t * (1 - sl)) * / sqrt 2 <= 0.0015).
      { assert (u * (1 + sl) + t * (1 - sl) <= 0.001) by (unfold sl; nra). nra. }
      lra.
Qed.

Section Window.
Variables (nx ny : nat).
Hypothesis Hx : (2 <= nx)%nat.
Hypothesis Hy : (2 <= ny)%nat.
Let N := INR ((nx + ny) * 4).
Let w := 0.001.
Let d := 0.2 * w / N.
Let xl := (gc - w / 2, gc + w / 2).
Let yl := (gy - d / 2, gy + d / 2).

Lemma N_ge : 16 <= N.
Proof. unfold N. replace 16 with (INR 16) by (rewrite INR_IZR_INZ; reflexivity). apply le_INR. lia. Qed.
Lemma d_bounds : 0 < d <= 0.0000125.
Proof.
  pose proof N_ge. unfold d, w. split; [apply Rdiv_lt_0_compat; lra|].
  apply Rmult_le_reg_r with N; [lra|]. unfold Rdiv. rewrite Rmult_assoc, Rinv_l by lra. lra.
Qed.

Lemma half_spacing (lims : R * R) n : fst lims < snd lims -> (2 <= n)%nat -> 0 < spacing lims n <= snd lims - fst lims.
Proof.
  intros H Hn. split; [apply spacing_pos; auto|]. unfold spacing.
  assert (1 <= INR (n - 1)) by (apply (le_INR 1); lia).
  apply Rmult_le_reg_r with (INR (n - 1)); [lra|]. unfold Rdiv. rewrite Rmult_assoc, Rinv_l by lra. nra.
Qed.

Lemma window_samples x : In x (mask_samples xl yl nx ny (- (PI / 4))) -> d < 0.97 * Rabs (x - xm) /\ Rabs (x - xm) < 0.0015.
Proof.
  intros Hin. apply In_nth_error in Hin. destruct Hin as [i Hi]. pose proof d_bounds as Db. pose proof N_ge as Ng.
  assert (Li : (i < 4 * (nx + ny))%nat).
  { assert (L : (i < length (mask_samples xl yl nx ny (- (PI / 4))))%nat) by (apply nth_error_Some; congruence).
    unfold mask_samples in L. rewrite length_linspace in L. lia. }
  rewrite samples_spec in Hi by (try exact Li; try exact Hx; cbn [xl yl fst snd]; unfold w; lra).
  injection Hi as Hi.
  pose proof (half_spacing xl nx ltac:(cbn [xl fst snd]; unfold w; lra) Hx) as Sp. cbn [xl fst snd] in Sp.
  set (sp := spacing xl nx) in *. unfold sample_distance in Hi. fold sp in Hi. unfold rotated_extent in Hi.
  rewrite cos_neg, sin_neg, Rabs_Ropp, cos_PI4, sin_PI4 in Hi. cbn [xl yl fst snd] in Hi. pose proof sqrt2_bounds as Sq.
  assert (Ih : 0.707 < 1 / sqrt 2 < 0.7072).
  { unfold Rdiv. rewrite Rmult_1_l. split; (apply Rmult_lt_reg_r with (sqrt 2); [lra|]); rewrite Rinv_l by lra; lra. }
  assert (Cen : 1 / sqrt 2 * ((gc - w / 2 + (gc + w / 2)) / 2) + - (1 / sqrt 2) * ((gy - d / 2 + (gy + d / 2)) / 2) = xm).
  { replace ((gc - w / 2 + (gc + w / 2)) / 2) with gc by field. replace ((gy - d / 2 + (gy + d / 2)) / 2) with gy by field.
    assert (Q : sqrt 2 * sqrt 2 = 2) by (apply sqrt_sqrt; lra). unfold gc, gy. field_simplify_eq; [|lra]. replace (sqrt 2 ^ 2) with 2 by (simpl; rewrite Rmult_1_r; symmetry; exact Q). ring. }
  rewrite Cen in Hi. clear Cen. set (h := 1 / sqrt 2) in *. rewrite (Rabs_pos_eq h) in Hi by lra.
  replace (gc + w / 2 - (gc - w / 2)) with w in Hi by field. replace (gy + d / 2 - (gy - d / 2)) with d in Hi by field.
  set (E := h * w + h * d + 2 * sp) in *.
  rewrite minus_INR in Hi by lia. fold N in Hi. change (INR 1) with 1 in Hi.
  assert (Ex : x - xm = (INR i - (N - 1) / 2) * (E / (N - 1))) by (rewrite <- Hi; unfold E; field; lra).
  assert (Eh : 0.707 * w / N < E / (N - 1)).
  { assert (0.707 * w < E) by (unfold E, w in *; nra).
    apply Rmult_lt_reg_r with (N * (N - 1)); [nra|]. replace (0.707 * w / N * (N * (N - 1))) with (0.707 * w * (N - 1)) by (field; lra).
    replace (E / (N - 1) * (N * (N - 1))) with (E * N) by (field; lra). nra. }
  assert (Half : 1 / 2 <= Rabs (INR i - (N - 1) / 2)).
  { unfold N. destruct (Nat.lt_ge_cases i ((nx + ny) * 2)) as [L|G].
    - rewrite Rabs_left1; replace ((nx + ny) * 4)%nat with (2 * ((nx + ny) * 2))%nat by lia; rewrite mult_INR; apply le_INR in L; rewrite S_INR in L; simpl (INR 2); lra.
    - rewrite Rabs_pos_eq; replace ((nx + ny) * 4)%nat with (2 * ((nx + ny) * 2))%nat by lia; rewrite mult_INR; apply le_INR in G; simpl (INR 2); lra. }
  assert (Hi' : Rabs (INR i - (N - 1) / 2) <= (N - 1) / 2).
  { assert (INR i <= N - 1). { unfold N. replace ((nx + ny) * 4)%nat with (S ((nx + ny) * 4 - 1)) by lia. rewrite S_INR.
      assert (INR i <= INR ((nx + ny) * 4 - 1)) by (apply le_INR; lia). lra. }
    pose proof (pos_INR i). apply Rabs_le. lra. }
  rewrite Ex, Rabs_mult. assert (Pe : 0 < E / (N - 1)). { apply Rdiv_lt_0_compat; [unfold E, w in *; nra|lra]. }
  rewrite (Rabs_pos_eq (E / (N - 1))) by lra. split.
  - assert (Dn : d = 0.2 * (w / N)) by (unfold d; field; lra). assert (0 < w / N) by (apply Rdiv_lt_0_compat; unfold w; lra).
    replace (0.707 * w / N) with (0.707 * (w / N)) in Eh by (field; lra). nra.
  - apply Rle_lt_trans with ((N - 1) / 2 * (E / (N - 1))); [apply Rmult_le_compat_r; lra|].
    replace ((N - 1) / 2 * (E / (N - 1))) with (E / 2) by (field; lra). unfold E, w in *. nra.
Qed.

Lemma window_empty a k : ~ drawn default_tcts lut (- (PI / 4)) xl yl nx ny a k.
Proof.
  intros (x & p & y & Hin & Hk & Ep & Ey & H). cbv zeta in H. destruct H as (Wx & Wy & _).
  destruct (window_samples x Hin) as [S1 S2]. pose proof d_bounds as Db. destruct first_line as (F & HF & EF).
  pose proof sqrt2_bounds as Sq.
  assert (V : rotate_point (- (PI / 4)) (x, y) = ((x + y) / sqrt 2, (y - x) / sqrt 2)).
  { unfold rotate_point. cbn [fst snd]. rewrite cos_neg, sin_neg, cos_PI4, sin_PI4. f_equal; field; lra. }
  rewrite V in Wx, Wy. cbn [fst snd] in Wx, Wy. unfold in_window in Wx, Wy.
  pose proof (half_spacing xl nx ltac:(cbn [xl fst snd]; unfold w; lra) Hx) as Spx.
  pose proof (half_spacing yl ny ltac:(cbn [yl fst snd]; lra) Hy) as Spy. cbn [xl yl fst snd] in *.
  set (spx := spacing xl nx) in *. set (spy := spacing yl ny) in *.
  assert (Wx' : (x + y) / sqrt 2 < gc + w) by lra.
  assert (Wy' : gy - d < (y - x) / sqrt 2 < gy + d) by lra.
  assert (X1 : x + y < xm + A + w * sqrt 2).
  { apply Rmult_lt_compat_r with (r := sqrt 2) in Wx'; [|lra]. unfold gc in Wx'.
    replace ((x + y) / sqrt 2 * sqrt 2) with (x + y) in Wx' by (field; lra).
    replace (((xm + A) / sqrt 2 + w) * sqrt 2) with (xm + A + w * sqrt 2) in Wx' by (field; lra). exact Wx'. }
  assert (Y1 : A - xm - d * sqrt 2 < y - x < A - xm + d * sqrt 2).
  { unfold gy in Wy'. destruct Wy' as [W1 W2].
    apply Rmult_lt_compat_r with (r := sqrt 2) in W1; [|lra]. apply Rmult_lt_compat_r with (r := sqrt 2) in W2; [|lra].
    replace ((y - x) / sqrt 2 * sqrt 2) with (y - x) in W1, W2 by (field; lra).
    replace (((A - xm) / sqrt 2 - d) * sqrt 2) with (A - xm - d * sqrt 2) in W1 by (field; lra).
    replace (((A - xm) / sqrt 2 + d) * sqrt 2) with (A - xm + d * sqrt 2) in W2 by (field; lra). lra. }
  assert (Fx : F x = A - sl * (x - xm)).
  { apply EF. apply Rabs_def2 in S2. unfold xm in S2. lra. }
  destruct (Nat.eq_dec k 1) as [->|K].
  - cbn [nth_error Nat.sub default_tcts] in Ep. injection Ep as <-. fold first_default in Ey. rewrite HF in Ey. injection Ey as Ey.
    rewrite Fx in Ey. subst y.
    assert (d < 0.97 * (x - xm) \/ d < 0.97 * - (x - xm)).
    { destruct (Rle_dec 0 (x - xm)); [left; rewrite Rabs_pos_eq in S1 by lra; exact S1|right; rewrite Rabs_left1 in S1 by lra; exact S1]. }
    assert (d * sqrt 2 < 1.41422 * d) by nra. unfold sl in *. destruct H; lra.
  - destruct (stack_exists default_tcts lut 0.43 0.0000025 default_bounded k p Hk Ep) as (g & Hg).
    pose proof (stack_between default_tcts lut 0.43 0.0000025 0.0016 ltac:(lra) default_bounded default_stacked 1 k first_default p F g ltac:(lia) eq_refl Ep HF Hg x) as Gp.
    rewrite Hg in Ey. injection Ey as Ey. rewrite Fx in Gp.
    assert (1 <= INR (k - 1)) by (apply (le_INR 1); lia).
    assert (0.001595 <= INR (k - 1) * (0.0016 - 2 * 0.0000025)) by nra.
    assert (d * sqrt 2 < 1.41422 * d) by nra. assert (w * sqrt 2 < 0.00141422) by (unfold w; lra). unfold sl in *. lra.
Qed.

Lemma walk_left m i j : (forall a, in_image m a -> value_at m a = 0%nat) -> in_image m (i, j) -> connected m (i, j) (0%nat, 0%nat).
Proof.
  intros Z. assert (U : forall a, in_image m a -> unlabelled m a) by (intros a Ha; split; auto).
  assert (Down : forall i', in_image m (i', 0%nat) -> connected m (i', 0%nat) (0%nat, 0%nat) /\ True).
  { induction i' as [|i' IH]; intros Hi; [split; auto; constructor; auto|]. split; auto.
    assert (Hi' : in_image m (i', 0%nat)) by (destruct Hi as [A1 A2]; split; cbn [fst snd] in *; lia).
    apply (connected_trans m _ (i', 0%nat)); [|apply IH; auto].
    apply (conn_step m _ (S i', 0%nat)); [constructor; auto| |auto]. right. cbn [fst snd]. auto. }
  induction j as [|j IH]; intros Hi; [apply Down; auto|].
  assert (Hi' : in_image m (i, j)) by (destruct Hi as [A1 A2]; split; cbn [fst snd] in *; lia).
  apply (connected_trans m _ (i, j)); [|apply IH; auto].
  apply (conn_step m _ (i, S j)); [constructor; auto| |auto]. left. cbn [fst snd]. auto.
Qed.

Lemma window_pixels lims n i : fst lims < snd lims -> (2 <= n)%nat -> (i < n)%nat ->
  fst lims <= pixel_voltage lims n i <= snd lims /\ (pixel_voltage lims n i <= fst lims -> i = 0%nat).
Proof.
  intros H Hn Hi. pose proof (half_spacing lims n H Hn) as [Sp _]. unfold pixel_voltage. fold (spacing lims n).
  assert (E : snd lims = fst lims + INR (n - 1) * spacing lims n).
  { unfold spacing. field. apply not_0_INR. lia. }
  assert (INR i <= INR (n - 1)) by (apply le_INR; lia). pose proof (pos_INR i). split; [split; nra|].
  intros L. destruct i as [|i]; auto. exfalso. rewrite S_INR in L. pose proof (pos_INR i). nra.
Qed.
Lemma pixel_last lims n : (2 <= n)%nat -> pixel_voltage lims n (n - 1) = snd lims.
Proof. intros Hn. unfold pixel_voltage. field. apply not_0_INR. lia. Qed.
Lemma pixel_first lims n : pixel_voltage lims n 0 = fst lims.
Proof. unfold pixel_voltage. cbn [INR]. ring. Qed.

Lemma flat_window : exists a1 b1 a2 b2 occ lead occ' lead',
  fst limits_g1 < a1 < b1 /\ b1 < snd limits_g1 /\ fst limits_g2 < a2 < b2 /\ b2 < snd limits_g2 /\
  ideal_csd_geometric label default_tcts [a1; b1] [a2; b2] (ResArray [Z.of_nat nx; Z.of_nat ny]) (- (PI / 4)) lut Sigmoid None
    = Ok (Csd2 occ lead) /\
  (forall v o lab, scan_pixel (Csd2 occ lead) (a1, b1) (a2, b2) v o lab -> lab = 0%nat /\ fst o + snd o = 0) /\
  (forall v2, a2 <= v2 <= b2 -> electrons default_tcts lut (- (PI / 4)) (a1, v2) 0 /\ electrons default_tcts lut (- (PI / 4)) (b1, v2) 1) /\
  ideal_csd_geometric label default_tcts [a1; b1] [a2; a2] (ResInt (Z.of_nat nx)) (- (PI / 4)) lut Sigmoid None
    = Ok (Csd1 occ' lead') /\
  (exists o o' lab lab', scan_pixel (Csd1 occ' lead') (a1, b1) (a2, a2) (a1, a2) o lab /\ fst o + snd o = 0 /\
     scan_pixel (Csd1 occ' lead') (a1, b1) (a2, a2) (b1, a2) o' lab' /\ fst o' + snd o' = 1).
Proof.
  pose proof (default_config label Lab) as C. pose proof C as (P & Hl & K & _ & _).
  cbn [g_tcts g_lut g_cdf g_gamma default_csd] in P, Hl, K. change (g_lut default_csd) with lut in P.
  pose proof d_bounds as Db. pose proof sqrt2_bounds as Sq.
  assert (Hxl : fst xl < snd xl) by (cbn [xl fst snd]; unfold w; lra). assert (Hyl : fst yl < snd yl) by (cbn [yl fst snd]; lra).
  assert (Sx : np_sort xl = xl) by (unfold np_sort; rewrite Rleb_true by lra; reflexivity).
  assert (Sy : np_sort yl = yl) by (unfold np_sort; rewrite Rleb_true by lra; reflexivity).
  assert (El : forall v2, fst yl <= v2 <= snd yl -> electrons default_tcts lut (- (PI / 4)) (fst xl, v2) 0 /\ electrons default_tcts lut (- (PI / 4)) (snd xl, v2) 1).
  { intros v2 Hv. cbn [xl yl fst snd] in *.
    assert (Ht : Rabs (v2 - gy) <= 0.0000125) by (apply Rabs_le; lra).
    destruct (flat_electrons (- (w / 2)) (v2 - gy)) as [E0 _]; auto; [rewrite Rabs_Ropp, Rabs_pos_eq; unfold w; lra|].
    destruct (flat_electrons (w / 2) (v2 - gy)) as [_ E1]; auto; [rewrite Rabs_pos_eq; unfold w; lra|].
    replace (gy + (v2 - gy)) with v2 in E0, E1 by ring. apply Rabs_le_inv in Ht.
    split; [apply E0|apply E1]; unfold w, sl; lra. }
  assert (Win : forall v, fst xl <= fst v <= snd xl -> fst yl <= snd v <= snd yl -> exists n, electrons default_tcts lut (- (PI / 4)) v n).
  { intros [v1 v2] H1 H2. cbn [xl yl fst snd] in *.
    destruct (flat_electrons (v1 - gc) (v2 - gy)) as [E0 E1]; [apply Rabs_le; unfold w in *; lra|apply Rabs_le; lra|].
    replace (gc + (v1 - gc)) with v1 in E0, E1 by ring. replace (gy + (v2 - gy)) with v2 in E0, E1 by ring.
    destruct (Rlt_dec ((v1 - gc) * (1 + sl) + (v2 - gy) * (1 - sl)) 0); eexists; [apply E0; auto|apply E1; lra]. }
  assert (Hgc : -0.1011 < gc < -0.1009).
  { unfold gc, A, xm, sl. split; (apply Rmult_lt_reg_r with (sqrt 2); [lra|]); unfold Rdiv; rewrite Rmult_assoc, Rinv_l by lra; lra. }
  assert (Hgy : -0.1902 < gy < -0.19).
  { unfold gy, A, xm, sl. split; (apply Rmult_lt_reg_r with (sqrt 2); [lra|]); unfold Rdiv; rewrite Rmult_assoc, Rinv_l by lra; lra. }
  destruct (csd_2d label default_tcts (fst xl) (snd xl) (fst yl) (snd yl) nx ny (- (PI / 4)) lut Sigmoid None _ P Hl K eq_refl
    ltac:(lra) ltac:(lra) Hx Hy Lab) as (lead & Rl & Cl & _ & SL & Res).
  rewrite <- !surjective_pairing in SL, Res.
  assert (Z : forall a, in_image lead a -> value_at lead a = 0%nat).
  { intros a Ha. destruct (SL a Ha) as [[E _]|[E _]]; auto. exfalso. rewrite Sx, Sy in E. exact (window_empty _ _ E). }
  destruct Res as [(occ & E & Ro & Co & _)|(_ & a & Ha & [L|[_ (b & Cb & Ab)]])].
  2:{ rewrite (Z a Ha) in L. simpl in L. lia. }
  2:{ exfalso. destruct (connected_unlabelled _ _ _ Cb) as [_ [[B1 B2] _]]. rewrite Rl in B1. rewrite Cl in B2.
      destruct (Win (pixel_voltage xl nx (snd b), pixel_voltage yl ny (fst b)) (proj1 (window_pixels xl nx (snd b) Hxl Hx B2)) (proj1 (window_pixels yl ny (fst b) Hyl Hy B1))) as (n & En).
      exact (electrons_not_above_all _ _ _ _ _ En Ab). }
  destruct (csd_1d label default_tcts (fst xl) (snd xl) (fst yl) (fst yl) (ResInt (Z.of_nat nx)) nx (- (PI / 4)) lut Sigmoid None _ P K eq_refl eq_refl)
    as (occ' & lead' & E' & Lo & Ll & _ & _ & Q').
  exists (fst xl), (snd xl), (fst yl), (snd yl), occ, lead, occ', lead'.
  split; [cbn [xl limits_g1 fst snd]; unfold w; lra|]. split; [cbn [xl limits_g1 fst snd]; unfold w; lra|].
  split; [cbn [yl limits_g2 fst snd]; lra|]. split; [cbn [yl limits_g2 fst snd]; lra|].
  split; [exact E|]. split; [|split; [exact El|split; [exact E'|]]].
  - rewrite <- !surjective_pairing. intros v o lab (i & j & Hi & Hj & -> & -> & _). rewrite Ro in Hi. rewrite Co in Hj.
    assert (Ia : in_image lead (i, j)) by (split; cbn [fst snd]; lia).
    pose proof (Z (i, j) Ia) as Zv. split; [exact Zv|].
    destruct (scan_first label default_tcts _ _ _ _ _ _ _ _ _ _ occ lead C E (i, j) (conj Ia Zv)) as (b & n & [Cb Fb] & En & Tot & _).
    cbn [fst snd] in Tot. rewrite Tot. rewrite <- !surjective_pairing in Fb, En.
    specialize (Fb (0%nat, 0%nat) (walk_left lead i j Z Ia)). unfold pixel_point in Fb, En. rewrite Rl, Cl in Fb, En. cbn [fst snd] in Fb.
    destruct (connected_unlabelled _ _ _ Cb) as [_ [[B1 B2] _]]. rewrite Rl in B1. rewrite Cl in B2.
    pose proof (window_pixels xl nx (snd b) Hxl Hx B2) as [Wx _]. pose proof (window_pixels yl ny (fst b) Hyl Hy B1) as [Wy _].
    unfold not_after in Fb. cbn [fst snd] in Fb. rewrite !pixel_first in Fb.
    assert (Eb : pixel_voltage xl nx (snd b) = fst xl) by (destruct Fb as [Fb|[_ Fb]]; lra). rewrite Eb in En.
    rewrite (electrons_unique _ _ _ _ _ _ En (proj1 (El _ Wy))). reflexivity.
  - rewrite <- !surjective_pairing.
    assert (Pc : forall i, pixel_voltage (fst yl, fst yl) nx i = fst yl) by (intros i; unfold pixel_voltage; cbn [fst snd]; unfold Rdiv; ring).
    assert (N0 : forall i, (i < nx)%nat -> exists o lab m, nth_error occ' i = Some o /\ nth_error lead' i = Some lab /\
      (electrons default_tcts lut (- (PI / 4)) (pixel_voltage xl nx i, fst yl) m \/ (above_all default_tcts lut (- (PI / 4)) (pixel_voltage xl nx i, fst yl) /\ m = 0%nat)) /\ fst o + snd o = INR m).
    { intros i Hi. destruct (nth_error occ' i) as [o|] eqn:Eo; [|apply nth_error_None in Eo; lia].
      destruct (nth_error lead' i) as [lab|] eqn:Ela; [|apply nth_error_None in Ela; lia].
      destruct (Q' i o Eo) as (m & A1 & Po). rewrite <- !surjective_pairing in A1, Po. rewrite Pc in A1. exists o, lab, m. repeat split; auto.
      pose proof (pixel_occ_bounds _ _ _ _ _ _ _ Po) as (_ & S1 & _). exact S1. }
    destruct (N0 0%nat ltac:(lia)) as (o & lab & m & Eo & Ea & Em & Et). destruct (N0 (nx - 1)%nat ltac:(lia)) as (o' & lab' & m' & Eo' & Ea' & Em' & Et').
    rewrite pixel_first in Em. rewrite pixel_last in Em' by exact Hx.
    destruct (El (fst yl) ltac:(lra)) as [D0 D1].
    assert (m = 0%nat) by (destruct Em as [X|[X _]]; [exact (electrons_unique _ _ _ _ _ _ X D0)|exfalso; exact (electrons_not_above_all _ _ _ _ _ D0 X)]).
    assert (m' = 1%nat) by (destruct Em' as [X|[X _]]; [exact (electrons_unique _ _ _ _ _ _ X D1)|exfalso; exact (electrons_not_above_all _ _ _ _ _ D1 X)]).
    subst m m'. cbn [INR] in Et, Et'. exists o, o', lab, lab'.
    split; [exists 0%nat; rewrite Lo, Pc, pixel_first; auto|]. split; [exact Et|].
    split; [exists (nx - 1)%nat; rewrite Lo, Pc, pixel_last by exact Hx; auto|exact Et'].
Qed.
End Window.
End Default.
