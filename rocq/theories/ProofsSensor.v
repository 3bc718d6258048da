(** Lemmas about ModelSensor.v: potentials, peaks, responses, barriers, deformations. *)
From Coq Require Import Permutation.
From Verif Require Import RPrelude Arr ModelSupport ModelTct ModelCsd ModelDistortions ModelSensor
  SpecSupport SpecSensor ProofsSupport.
Local Open Scope R_scope.

(** ** Potentials *)
Lemma grid_volt_at l n i : (i < n)%nat -> grid l n i = volt_at l n i.
Proof.
  intros H. unfold grid, volt_at. destruct (Nat.eqb_spec n 1) as [->|Hn].
  - assert (i = 0)%nat as -> by lia. simpl. lra.
  - unfold Rdiv. ring.
Qed.

Lemma generic_pixel_1d s a l1 l2 : (0 < len1 a)%nat ->
  exists im, generic_potential s (Occ1 a) l1 l2 = Ok (Img1 im) /\ len1 im = len1 a /\
  forall i, (i < len1 a)%nat ->
    cell1 im i = affine (gs_offset s) (gs_gate s) (gs_dot s)
                        (volt_at l1 (len1 a) i, volt_at l2 (len1 a) i) (cell1 a i).
Proof.
  intros H. eexists. split; [|split].
  - unfold generic_potential. destruct (Nat.eqb_spec (len1 a) 0); [lia|]. reflexivity.
  - reflexivity.
  - intros i Hi. simpl. unfold affine, dot2, volts1. simpl. rewrite !grid_volt_at by auto. ring.
Qed.
Lemma generic_pixel_2d s a l1 l2 : (0 < rows a)%nat -> (0 < cols a)%nat ->
  exists im, generic_potential s (Occ2 a) l1 l2 = Ok (Img2 im) /\ rows im = rows a /\ cols im = cols a /\
  forall i j, (i < rows a)%nat -> (j < cols a)%nat ->
    cell im i j = affine (gs_offset s) (gs_gate s) (gs_dot s)
                         (volt_at l1 (cols a) j, volt_at l2 (rows a) i) (cell a i j).
Proof.
  intros H H'. eexists. split; [|split; [|split]].
  - unfold generic_potential. destruct (Nat.eqb_spec (rows a) 0); [lia|].
    destruct (Nat.eqb_spec (cols a) 0); [lia|]. reflexivity.
  - reflexivity.
  - reflexivity.
  - intros i j Hi Hj. simpl. unfold affine, dot2, volts2. simpl. rewrite !grid_volt_at by auto. ring.
Qed.

Lemma volt_at_const v n i : volt_at (v, v) n i = v.
Proof. unfold volt_at. destruct (n =? 1)%nat; simpl; [reflexivity|ring]. Qed.

Lemma generic_cuts s a l1 l2 im : generic_potential s (Occ2 a) l1 l2 = Ok (Img2 im) ->
  (forall i, (i < rows a)%nat -> exists c,
     generic_potential s (Occ1 (mk_arr1 (cols a) (fun j => cell a i j))) l1 (volt_at l2 (rows a) i, volt_at l2 (rows a) i)
       = Ok (Img1 c) /\ eq1 c (mk_arr1 (cols a) (fun j => cell im i j))) /\
  (forall j, (j < cols a)%nat -> exists c,
     generic_potential s (Occ1 (mk_arr1 (rows a) (fun i => cell a i j))) (volt_at l1 (cols a) j, volt_at l1 (cols a) j) l2
       = Ok (Img1 c) /\ eq1 c (mk_arr1 (rows a) (fun i => cell im i j))) /\
  (rows a = cols a -> exists c,
     generic_potential s (Occ1 (mk_arr1 (rows a) (fun i => cell a i i))) l1 l2
       = Ok (Img1 c) /\ eq1 c (mk_arr1 (rows a) (fun i => cell im i i))).
Proof.
  intros H.
  assert (0 < rows a /\ 0 < cols a)%nat as [Hr Hc].
  { unfold generic_potential, raise_if in H. destruct (Nat.eqb_spec (rows a) 0); simpl in H; [discriminate|].
    destruct (Nat.eqb_spec (cols a) 0); simpl in H; [discriminate|]. lia. }
  destruct (generic_pixel_2d s a l1 l2 Hr Hc) as (im' & E & _ & _ & P). rewrite E in H. inversion H. subst im'.
  split; [|split].
  - intros i Hi. destruct (generic_pixel_1d s (mk_arr1 (cols a) (fun j => cell a i j)) l1
      (volt_at l2 (rows a) i, volt_at l2 (rows a) i)) as (c & Ec & L & Pc); [simpl; lia|].
    exists c. split; [exact Ec|]. split; [exact L|]. intros j Hj. rewrite L in Hj. simpl in *.
    rewrite Pc, P by auto. rewrite volt_at_const. reflexivity.
  - intros j Hj. destruct (generic_pixel_1d s (mk_arr1 (rows a) (fun i => cell a i j))
      (volt_at l1 (cols a) j, volt_at l1 (cols a) j) l2) as (c & Ec & L & Pc); [simpl; lia|].
    exists c. split; [exact Ec|]. split; [exact L|]. intros i Hi. rewrite L in Hi. simpl in *.
    rewrite Pc, P by auto. rewrite volt_at_const. reflexivity.
  - intros Hs. destruct (generic_pixel_1d s (mk_arr1 (rows a) (fun i => cell a i i)) l1 l2)
      as (c & Ec & L & Pc); [simpl; lia|].
    exists c. split; [exact Ec|]. split; [exact L|]. intros i Hi. rewrite L in Hi. simpl in *.
    rewrite Pc, P by lia. rewrite Hs. reflexivity.
Qed.

Lemma affine_electron off g d v o k : affine off g d v (plus_one k o) = affine off g d v o + pick k d.
Proof. unfold affine, plus_one, pick. destruct k; simpl; ring. Qed.

(** sensor-scan sensor *)
Lemma pixel_potential_spec s o v w : pot_spec s o v w (pixel_potential s o v w).
Proof. unfold pot_spec, pixel_potential, affine_scan, affine, dot2. simpl. repeat split; ring. Qed.
Lemma is_sweep_spec v : is_sweep v = true <-> swept v.
Proof.
  unfold swept. destruct v; simpl; split; try discriminate; try (intros (a' & b' & H); discriminate).
  - intros _. eauto.
  - reflexivity.
Qed.
Lemma both_swept_b v1 v2 w1 w2 :
  (is_sweep v1 || is_sweep v2) && (is_sweep w1 || is_sweep w2) = true <-> both_swept v1 v2 w1 w2.
Proof. unfold both_swept. rewrite andb_true_iff, !orb_true_iff, !is_sweep_spec. tauto. Qed.
Lemma scan_pixel_1d s a v1 v2 w1 w2 : (0 < len1 a)%nat -> ~ both_swept v1 v2 w1 w2 ->
  exists p h, scan_potential s (Occ1 a) v1 v2 w1 w2 = Ok (Pot1 p, h) /\ len1 p = len1 a /\
  forall i, (i < len1 a)%nat ->
    pot_spec s (cell1 a i) (volt_at (limits_of v1) (len1 a) i, volt_at (limits_of v2) (len1 a) i)
             (volt_at (limits_of w1) (len1 a) i, volt_at (limits_of w2) (len1 a) i) (cell1 p i).
Proof.
  intros H Hb. rewrite <- both_swept_b in Hb. apply not_true_is_false in Hb.
  eexists. eexists. split; [|split].
  - unfold scan_potential. rewrite Hb. destruct (Nat.eqb_spec (len1 a) 0); [lia|]. reflexivity.
  - reflexivity.
  - intros i Hi. simpl. unfold volts1. rewrite !grid_volt_at by auto. apply pixel_potential_spec.
Qed.
Lemma scan_pixel_2d s a v1 v2 w1 w2 : (0 < rows a)%nat -> (0 < cols a)%nat -> ~ both_swept v1 v2 w1 w2 ->
  exists p h, scan_potential s (Occ2 a) v1 v2 w1 w2 = Ok (Pot2 p, h) /\ rows p = rows a /\ cols p = cols a /\
  forall i j, (i < rows a)%nat -> (j < cols a)%nat ->
    pot_spec s (cell a i j) (volt_at (limits_of v1) (cols a) j, volt_at (limits_of v2) (rows a) i)
             (volt_at (limits_of w1) (cols a) j, volt_at (limits_of w2) (rows a) i) (cell p i j).
Proof.
  intros H H' Hb. rewrite <- both_swept_b in Hb. apply not_true_is_false in Hb.
  eexists. eexists. split; [|split; [|split]].
  - unfold scan_potential. rewrite Hb. destruct (Nat.eqb_spec (rows a) 0); [lia|].
    destruct (Nat.eqb_spec (cols a) 0); [lia|]. reflexivity.
  - reflexivity.
  - reflexivity.
  - intros i j Hi Hj. simpl. unfold volts2. rewrite !grid_volt_at by auto. apply pixel_potential_spec.
Qed.
Lemma scan_rejected s occ v1 v2 w1 w2 : both_swept v1 v2 w1 w2 \/ occ = OccOther ->
  scan_potential s occ v1 v2 w1 w2 = Err ValueError.
Proof.
  intros [H| ->]; [|reflexivity]. apply both_swept_b in H. unfold scan_potential. rewrite H.
  destruct occ; reflexivity.
Qed.

(** ** Reset of the offset *)
Lemma reset_hits s csd target l1 l2 a : csd l1 l2 = Ok (Occ1 a) -> (0 < len1 a)%nat ->
  exists s', reset_offset s csd target l1 l2 = Ok s' /\
    gs_peaks s' = gs_peaks s /\ gs_dot s' = gs_dot s /\ gs_gate s' = gs_gate s /\
    affine (gs_offset s') (gs_gate s') (gs_dot s') (fst l1, fst l2) (cell1 a 0) = target /\
    reset_offset s' csd target l1 l2 = Ok s'.
Proof.
  intros H Hn.
  assert (V : forall l, volt_at l (len1 a) 0 = fst l).
  { intros l. unfold volt_at. destruct (len1 a =? 1)%nat; simpl; [reflexivity|]. unfold Rdiv. ring. }
  assert (Q : forall s, exists p0, reset_offset s csd target l1 l2 =
     Ok (mk_generic (gs_peaks s) (gs_dot s) (gs_gate s) (target - (p0 - gs_offset s))) /\
     p0 = affine (gs_offset s) (gs_gate s) (gs_dot s) (fst l1, fst l2) (cell1 a 0)).
  { intros t. unfold reset_offset. rewrite H. cbn [bind].
    destruct (generic_pixel_1d t a l1 l2 Hn) as (im & E & L & P). rewrite E. cbn [bind].
    rewrite get1_ok by lia. cbn [bind]. eexists. split; [reflexivity|]. rewrite P by lia. rewrite !V. reflexivity. }
  destruct (Q s) as (p0 & E & P0). eexists. split; [exact E|]. repeat (split; [reflexivity|]).
  assert (T : affine (target - (p0 - gs_offset s)) (gs_gate s) (gs_dot s) (fst l1, fst l2) (cell1 a 0) = target).
  { rewrite P0. unfold affine. ring. }
  split; [exact T|]. destruct (Q (mk_generic (gs_peaks s) (gs_dot s) (gs_gate s) (target - (p0 - gs_offset s)))) as (p1 & E1 & P1).
  rewrite E1. cbn [gs_peaks gs_dot gs_gate gs_offset] in *. rewrite P1, T. do 2 f_equal. ring.
Qed.
Lemma reset_scan_fails s csd l1 l2 a : csd l1 l2 = Ok (Occ1 a) -> len1 a = 2%nat ->
  reset_offset_scan s csd l1 l2 = Err ValueError.
Proof.
  intros H Hn. unfold reset_offset_scan. rewrite H. cbn [bind]. unfold scan_potential. cbn [is_sweep orb andb raise_if].
  rewrite Hn. cbn -[grid]. reflexivity.
Qed.

(** ** Peaks *)
Lemma gauss_shape m sigma h off p : 0 < h -> sensor_peak_gaussian m sigma h off = Ok p ->
  mu0 p = m /\ bell (sensor_function p) m off h.
Proof.
  intros Hh H. unfold sensor_peak_gaussian, raise_if in H. destruct (Rleb_spec sigma 0) as [|Hs]; [discriminate|].
  assert (0 < sigma) as Hs' by lra.
  inversion H; subst p. split; [reflexivity|]. unfold sensor_function. simpl mu0. simpl peak_fun.
  unfold sensor_response_gauss.
  assert (E0 : forall x, ((x - m) / sigma) ^ 2 = (Rabs (x - m) / sigma) ^ 2).
  { intros x. unfold Rdiv. rewrite !Rpow_mult_distr. rewrite <- (pow2_abs (x - m)). reflexivity. }
  assert (M : forall x y, Rabs (x - m) < Rabs (y - m) -> ((x - m) / sigma) ^ 2 < ((y - m) / sigma) ^ 2).
  { intros x y L. rewrite (E0 x), (E0 y).
    assert (Rabs (x - m) / sigma < Rabs (y - m) / sigma) by (apply Rmult_lt_compat_r; [apply Rinv_0_lt_compat|]; auto).
    assert (0 <= Rabs (x - m) / sigma) by (apply Rmult_le_pos; [apply Rabs_pos|left; apply Rinv_0_lt_compat; auto]).
    nra. }
  assert (Z : ((m - m) / sigma) ^ 2 = 0) by (unfold Rdiv; ring).
  assert (D : forall x y, Rabs (x - m) < Rabs (y - m) ->
     off + h * exp (- ((y - m) / sigma) ^ 2) < off + h * exp (- ((x - m) / sigma) ^ 2)).
  { intros x y L. apply Rplus_lt_compat_l, Rmult_lt_compat_l; [auto|]. apply exp_increasing. specialize (M x y L). lra. }
  assert (T : off + h * exp (- ((m - m) / sigma) ^ 2) = off + h).
  { rewrite Z, Ropp_0, exp_0. ring. }
  repeat split.
  - intros d. replace ((m + d - m) / sigma) with (- ((m - d - m) / sigma)) by (unfold Rdiv; ring).
    replace ((- ((m - d - m) / sigma)) ^ 2) with (((m - d - m) / sigma) ^ 2) by ring. reflexivity.
  - exact D.
  - exact T.
  - intros x. destruct (Req_dec x m) as [->|N]; [right; exact T|]. left. rewrite <- T. apply D.
    rewrite (Rminus_diag_eq m m eq_refl), Rabs_R0. apply Rabs_pos_lt. lra.
  - intros x E. destruct (Req_dec x m) as [|N]; [auto|]. exfalso.
    assert (off + h * exp (- ((x - m) / sigma) ^ 2) < off + h * exp (- ((m - m) / sigma) ^ 2)).
    { apply D. rewrite (Rminus_diag_eq m m eq_refl), Rabs_R0. apply Rabs_pos_lt. lra. } lra.
  - intros x. assert (0 < exp (- ((x - m) / sigma) ^ 2)) by apply exp_pos. nra.
Qed.
Lemma gauss_reject m sigma h off : sigma <= 0 -> sensor_peak_gaussian m sigma h off = Err ValueError.
Proof. intros H. unfold sensor_peak_gaussian. rewrite Rleb_true by auto. reflexivity. Qed.
Lemma gauss_accept m sigma h off : 0 < sigma -> exists p, sensor_peak_gaussian m sigma h off = Ok p.
Proof. intros H. unfold sensor_peak_gaussian. rewrite Rleb_false by auto. eexists. reflexivity. Qed.

Lemma lorentz_shape m gamma h off p : 0 < h -> sensor_peak_lorentzian m gamma h off = Ok p ->
  mu0 p = m /\ bell (sensor_function p) m off h.
Proof.
  intros Hh H. unfold sensor_peak_lorentzian, raise_if in H. destruct (Rleb_spec gamma 0) as [|Hs]; [discriminate|].
  assert (0 < gamma) as Hg by lra.
  inversion H; subst p. split; [reflexivity|]. unfold sensor_function. simpl mu0. simpl peak_fun.
  unfold sensor_response_lorentz.
  assert (G : 0 < gamma ^ 2) by nra.
  assert (P : forall x, 0 < gamma ^ 2 + (x - m) ^ 2) by (intros x; pose proof (pow2_ge_0 (x - m)); lra).
  assert (N : 0 < h * gamma ^ 2) by nra.
  assert (D : forall x y, Rabs (x - m) < Rabs (y - m) ->
     off + h * gamma ^ 2 / (gamma ^ 2 + (y - m) ^ 2) < off + h * gamma ^ 2 / (gamma ^ 2 + (x - m) ^ 2)).
  { intros x y L. apply Rplus_lt_compat_l, Rmult_lt_compat_l; [auto|].
    apply Rinv_lt_contravar; [apply Rmult_lt_0_compat; apply P|].
    rewrite <- (pow2_abs (x - m)), <- (pow2_abs (y - m)). pose proof (Rabs_pos (x - m)). nra. }
  assert (T : off + h * gamma ^ 2 / (gamma ^ 2 + (m - m) ^ 2) = off + h).
  { field_simplify; [|nra]. replace (gamma ^ 2 + 0) with (gamma ^ 2) by ring. field. nra. }
  repeat split.
  - intros d. replace ((m + d - m) ^ 2) with ((m - d - m) ^ 2) by ring. reflexivity.
  - exact D.
  - exact T.
  - intros x. destruct (Req_dec x m) as [->|Nx]; [right; exact T|]. left. rewrite <- T. apply D.
    rewrite (Rminus_diag_eq m m eq_refl), Rabs_R0. apply Rabs_pos_lt. lra.
  - intros x E. destruct (Req_dec x m) as [|Nx]; [auto|]. exfalso.
    assert (off + h * gamma ^ 2 / (gamma ^ 2 + (x - m) ^ 2) < off + h * gamma ^ 2 / (gamma ^ 2 + (m - m) ^ 2)).
    { apply D. rewrite (Rminus_diag_eq m m eq_refl), Rabs_R0. apply Rabs_pos_lt. lra. } lra.
  - intros x. assert (0 < h * gamma ^ 2 / (gamma ^ 2 + (x - m) ^ 2)) by (apply Rdiv_lt_0_compat; auto). lra.
Qed.
Lemma lorentz_reject m gamma h off : gamma <= 0 -> sensor_peak_lorentzian m gamma h off = Err ValueError.
Proof. intros H. unfold sensor_peak_lorentzian. rewrite Rleb_true by auto. reflexivity. Qed.
Lemma lorentz_accept m gamma h off : 0 < gamma -> exists p, sensor_peak_lorentzian m gamma h off = Ok p.
Proof. intros H. unfold sensor_peak_lorentzian. rewrite Rleb_false by auto. eexists. reflexivity. Qed.

(** ** Generic response *)
Lemma Rsum_perm l l' : Permutation l l' -> Rsum l = Rsum l'.
Proof. induction 1; simpl; lra. Qed.
Lemma sum_peaks_total ps mu : sum_peaks ps mu = peak_total ps mu.
Proof. unfold sum_peaks, peak_total, sensor_function. induction ps; simpl; [reflexivity|]. rewrite IHps. reflexivity. Qed.
Lemma generic_response_perm ps ps' d g o mu : Permutation ps ps' ->
  same_response (generic_response (mk_generic (Some ps) d g o) mu) (generic_response (mk_generic (Some ps') d g o) mu).
Proof.
  intros H. assert (E : forall x, sum_peaks ps x = sum_peaks ps' x).
  { intros x. unfold sum_peaks. apply Rsum_perm, Permutation_map, H. }
  unfold generic_response. simpl gs_peaks. destruct ps as [|p t].
  - apply Permutation_nil in H. subst. reflexivity.
  - destruct ps' as [|p' t']; [apply Permutation_sym, Permutation_nil in H; discriminate|].
    destruct mu as [a|a]; simpl map_image.
    + split; [reflexivity|]. intros i Hi. apply E.
    + split; [reflexivity|]. split; [reflexivity|]. intros i j Hi Hj. apply E.
Qed.
Lemma generic_response_sum ps d g o mu : ps <> [] ->
  same_response (generic_response (mk_generic (Some ps) d g o) mu)
    (RImage match mu with Img1 a => Img1 (mk_arr1 (len1 a) (fun i => peak_total ps (cell1 a i)))
                        | Img2 a => Img2 (mk_arr2 (rows a) (cols a) (fun i j => peak_total ps (cell a i j))) end).
Proof.
  intros H. unfold generic_response. simpl gs_peaks. destruct ps as [|p t]; [congruence|].
  destruct mu as [a|a]; simpl map_image.
  + split; [reflexivity|]. intros i Hi. apply sum_peaks_total.
  + split; [reflexivity|]. split; [reflexivity|]. intros i j Hi Hj. apply sum_peaks_total.
Qed.

(** ** Series combination *)
Lemma series_spec s b1 b2 : 0 <= s -> 0 <= b1 -> 0 <= b2 ->
  is_series (series s b1 b2) s b1 b2.
Proof.
  intros Hs H1 H2. unfold series. split.
  - intros H. destruct (Reqb_spec (b1 * b2 + s * b1 + s * b2) 0) as [|N]; [reflexivity|].
    assert (s * b1 * b2 = 0) as -> by (destruct H as [-> |[-> | ->]]; ring). unfold Rdiv. ring.
  - intros Ps P1 P2. rewrite Reqb_false by (assert (0 < b1 * b2) by nra; nra). field. 
    assert (0 < b1 * b2) by nra. assert (0 < s * b1) by nra. assert (0 < s * b2) by nra.
    repeat split; try lra. 
Qed.
Lemma series_den_pos s b1 b2 : 0 <= s -> 0 <= b1 -> 0 <= b2 ->
  0 <= b1 * b2 + s * b1 + s * b2.
Proof. intros. assert (0 <= b1 * b2) by nra. nra. Qed.
Lemma series_le_s s b1 b2 : 0 <= s -> 0 <= b1 -> 0 <= b2 -> series s b1 b2 <= s.
Proof.
  intros Hs H1 H2. unfold series. destruct (Reqb_spec (b1 * b2 + s * b1 + s * b2) 0) as [|N]; [auto|].
  pose proof (series_den_pos s b1 b2 Hs H1 H2).
  assert (0 <= s * b1) by nra. assert (0 <= s * b2) by nra.
  apply (Rmult_le_reg_r (b1 * b2 + s * b1 + s * b2)); [lra|]. unfold Rdiv. rewrite Rmult_assoc, Rinv_l by auto. nra.
Qed.
Lemma series_comm12 s b1 b2 : series s b1 b2 = series b1 s b2.
Proof. unfold series. replace (b1 * b2 + s * b1 + s * b2) with (s * b2 + b1 * s + b1 * b2) by ring.
  replace (s * b1 * b2) with (b1 * s * b2) by ring. reflexivity. Qed.
Lemma series_comm23 s b1 b2 : series s b1 b2 = series s b2 b1.
Proof. unfold series. replace (b1 * b2 + s * b1 + s * b2) with (b2 * b1 + s * b2 + s * b1) by ring.
  replace (s * b1 * b2) with (s * b2 * b1) by ring. reflexivity. Qed.
Lemma series_nonneg s b1 b2 : 0 <= s -> 0 <= b1 -> 0 <= b2 -> 0 <= series s b1 b2.
Proof.
  intros Hs H1 H2. unfold series. destruct (Reqb_spec (b1 * b2 + s * b1 + s * b2) 0) as [|N]; [lra|].
  pose proof (series_den_pos s b1 b2 Hs H1 H2).
  apply Rmult_le_pos; [|left; apply Rinv_0_lt_compat; lra]. assert (0 <= s * b1) by nra. nra.
Qed.
Lemma series_mono_s s s' b1 b2 : 0 <= s <= s' -> 0 <= b1 -> 0 <= b2 -> series s b1 b2 <= series s' b1 b2.
Proof.
  intros Hs H1 H2.
  destruct (Rle_lt_or_eq_dec 0 b1 H1) as [P1|E1].
  2: { pose proof (series_spec s' b1 b2 ltac:(lra) H1 H2) as [Z _]. pose proof (series_spec s b1 b2 ltac:(lra) H1 H2) as [Z' _].
       rewrite Z, Z' by (rewrite E1; auto). lra. }
  destruct (Rle_lt_or_eq_dec 0 b2 H2) as [P2|E2].
  2: { pose proof (series_spec s' b1 b2 ltac:(lra) H1 H2) as [Z _]. pose proof (series_spec s b1 b2 ltac:(lra) H1 H2) as [Z' _].
       rewrite Z, Z' by (rewrite E2; auto). lra. }
  destruct (Rle_lt_or_eq_dec 0 s ltac:(lra)) as [P3|E3].
  2: { pose proof (series_spec s b1 b2 ltac:(lra) H1 H2) as [Z' _].
       rewrite Z' by (rewrite E3; auto). apply series_nonneg; lra. }
  assert (0 < b1 * b2) by nra. assert (0 < s * b1) by nra. assert (0 < s * b2) by nra.
  assert (0 < s' * b1) by nra. assert (0 < s' * b2) by nra.
  unfold series. rewrite !Reqb_false by lra.
  assert (D : s' * b1 * b2 / (b1 * b2 + s' * b1 + s' * b2) - s * b1 * b2 / (b1 * b2 + s * b1 + s * b2)
    = (s' - s) * (b1 * b2) ^ 2 / ((b1 * b2 + s' * b1 + s' * b2) * (b1 * b2 + s * b1 + s * b2))) by (field; lra).
  assert (0 <= (s' - s) * (b1 * b2) ^ 2 / ((b1 * b2 + s' * b1 + s' * b2) * (b1 * b2 + s * b1 + s * b2))).
  { apply Rmult_le_pos; [apply Rmult_le_pos; [lra|apply pow2_ge_0]|].
    left. apply Rinv_0_lt_compat, Rmult_lt_0_compat; lra. }
  lra.
Qed.
Lemma series_laws s b1 b2 : 0 <= s -> 0 <= b1 -> 0 <= b2 ->
  0 <= series s b1 b2 <= Rmin s (Rmin b1 b2) /\ is_series (series s b1 b2) s b1 b2 /\
  (forall s', s <= s' -> series s b1 b2 <= series s' b1 b2) /\
  (forall b1', b1 <= b1' -> series s b1 b2 <= series s b1' b2) /\
  (forall b2', b2 <= b2' -> series s b1 b2 <= series s b1 b2').
Proof.
  intros Hs H1 H2. split; [|split; [|split; [|split]]].
  - split; [apply series_nonneg; auto|]. apply Rmin_glb; [apply series_le_s; auto|]. apply Rmin_glb.
    + rewrite series_comm12. apply series_le_s; auto.
    + rewrite series_comm23, series_comm12. apply series_le_s; auto.
  - apply series_spec; auto.
  - intros s' L. apply series_mono_s; lra.
  - intros b L. rewrite (series_comm12 s b1), (series_comm12 s b). apply series_mono_s; lra.
  - intros b L. rewrite (series_comm23 s b1 b2), (series_comm23 s b1 b).
    rewrite (series_comm12 s b2), (series_comm12 s b). apply series_mono_s; lra.
Qed.

(** ** Barriers and rise *)
Lemma rmin_abs A K pct : Rabs (K - A) * pct + Rmin A K = Rmin A K + pct * Rabs (K - A).
Proof. ring. Qed.
Lemma percentage_value p pct : glf_admissible p -> denominator_offset p = 1 -> 0 < pct < 1 ->
  percentage_reached p (glf_percentage p pct) pct.
Proof.
  intros Ha HC Hp. unfold percentage_reached, glf_percentage.
  rewrite (proj2 (glf_round_trip_C1 p Ha HC)).
  - ring.
  - destruct Ha as (_ & _ & _ & _ & N). unfold strictly_between, Rmin.
    destruct (Rle_dec (asymptote_left p) (asymptote_right p)) as [L|L].
    + left. rewrite Rabs_pos_eq by lra. nra.
    + right. rewrite Rabs_left by lra. nra.
Qed.
Lemma barrier_exact p pinch full b : glf_admissible p -> denominator_offset p = 1 ->
  0 < pinch < 1 -> 0 < full < 1 -> barrier_glf p pinch full = Ok b ->
  percentage_reached p (pinch_off b) pinch /\ percentage_reached p (fully_conductive b) full /\
  (forall x, get_value b x = glf p x) /\
  (0 < growth_rate p -> asymptote_left p < asymptote_right p ->
     (forall x, pinch_off b < x <-> glf p (pinch_off b) < get_value b x) /\
     (forall x, fully_conductive b < x <-> glf p (fully_conductive b) < get_value b x) /\
     (pinch < full -> pinch_off b < fully_conductive b)).
Proof.
  intros Ha HC Hp Hf H. unfold barrier_glf, raise_if in H. destruct (Rleb (asymmetry p) 0); [discriminate|].
  inversion H; subst b; clear H. simpl.
  split; [apply percentage_value; auto|]. split; [apply percentage_value; auto|]. split; [reflexivity|].
  intros HB HK. pose proof (glf_growth p Ha HB HK) as (M & _ & _).
  assert (Q : forall c x, c < x <-> glf p c < glf p x).
  { intros c x. split; [apply M|]. intros L. destruct (Rtotal_order c x) as [T|[T|T]]; [auto| |].
    - subst. lra.
    - apply M in T. lra. }
  split; [intros; apply Q|]. split; [intros; apply Q|]. intros L. apply Q.
  pose proof (percentage_value p pinch Ha HC Hp) as E1. pose proof (percentage_value p full Ha HC Hf) as E2.
  unfold percentage_reached in *. rewrite E1, E2. apply Rplus_lt_compat_l, Rmult_lt_compat_r; [|auto].
  apply Rabs_pos_lt. lra.
Qed.
Lemma barrier_reject p pinch full : asymmetry p <= 0 -> barrier_glf p pinch full = Err ValueError.
Proof. intros H. unfold barrier_glf. rewrite Rleb_true by auto. reflexivity. Qed.

Lemma with_offset_adm p o : glf_admissible p -> glf_admissible (with_offset p o).
Proof. intros H. exact H. Qed.
Lemma glf_shift p o o' x : glf (with_offset p o) x = glf (with_offset p o') (x - o + o').
Proof. unfold glf. simpl. replace (x - o + o' - o') with (x - o) by ring. reflexivity. Qed.
(** the percentage is reached at offset - mu0 *)
Lemma rise_reached r off : glf_admissible (rise_glf r) -> denominator_offset (rise_glf r) = 1 ->
  0 < rise_percentage r < 1 ->
  rise_function r (off - rise_mu0 r) off
  = asymptote_left (rise_glf r) + rise_percentage r * (asymptote_right (rise_glf r) - asymptote_left (rise_glf r)).
Proof.
  intros Ha HC Hp. unfold rise_function. set (p := rise_glf r) in *.
  rewrite (glf_shift p _ (rise_mu0 r)).
  replace (off - rise_mu0 r - (- rise_fully_conductive r + off) + rise_mu0 r) with (rise_fully_conductive r) by ring.
  unfold rise_fully_conductive. fold p.
  rewrite (proj2 (glf_round_trip_C1 (with_offset p (rise_mu0 r)) Ha HC)).
  - ring.
  - destruct Ha as (_ & _ & _ & _ & N). unfold strictly_between. simpl.
    destruct (Rlt_le_dec (asymptote_left p) (asymptote_right p)); [left|right]; nra.
Qed.
Lemma glf_injective p x y : glf_admissible p -> glf p x = glf p y -> x = y.
Proof. intros Ha E. rewrite <- (proj1 (glf_round_trip p Ha) x), E. apply (proj1 (glf_round_trip p Ha)). Qed.
Lemma rise_not_reached r off : glf_admissible (rise_glf r) -> denominator_offset (rise_glf r) = 1 ->
  0 < rise_percentage r < 1 -> rise_mu0 r <> 0 ->
  rise_function r off off
  <> asymptote_left (rise_glf r) + rise_percentage r * (asymptote_right (rise_glf r) - asymptote_left (rise_glf r)).
Proof.
  intros Ha HC Hp Hm E. rewrite <- (rise_reached r off Ha HC Hp) in E. unfold rise_function in E.
  apply glf_injective in E; [|apply Ha]. lra.
Qed.

Lemma calc_point_solves s h pot1 pot2 occ :
  first_occ (h_occ h) = Ok occ -> barrier_det s <> 0 ->
  (snd (row1 (ss_sensor s)) = 0 \/ 1 / 4503599627370496 <= Rabs (snd (row1 (ss_sensor s)))) ->
  (fst occ = snd occ \/ snd (row1 (ss_dot s)) = 0) ->
  exists pt, calc_point s h pot1 pot2 true = Ok pt /\
    forall q, pot_spec s occ (fst (h_g1 h), fst (h_g2 h)) pt q -> at_barrier1 q = pot1 /\ at_barrier2 q = pot2.
Proof.
  intros Ho Hd He Hb. unfold barrier_det in Hd. unfold calc_point. rewrite Ho. cbn [bind].
  set (a10 := fst (row1 (ss_sensor s))) in *. set (a11 := snd (row1 (ss_sensor s))) in *.
  set (a20 := fst (row2 (ss_sensor s))) in *. set (a21 := snd (row2 (ss_sensor s))) in *.
  assert (Eo : snd (row1 (ss_dot s)) * fst occ = snd (row1 (ss_dot s)) * snd occ).
  { destruct Hb as [E|E]; rewrite E; ring. }
  destruct (Rltb_spec (Rabs a11) (1 / 4503599627370496)) as [L|L].
  - assert (Z : a11 = 0) by (destruct He; [auto|lra]). rewrite Z in Hd.
    assert (a10 <> 0 /\ a21 <> 0) as [N1 N2] by (split; intros E; apply Hd; rewrite E; ring).
    eexists. split; [reflexivity|]. intros q (_ & Q1 & Q2). rewrite Q1, Q2. unfold affine_scan, affine, dot2.
    cbn [fst snd]. fold a10 a11 a20 a21. rewrite Eo, Z. split; field; auto.
  - assert (Z : a11 <> 0) by (intros Z; rewrite Z, Rabs_R0 in L; lra).
    assert (D : a20 * a11 - a10 * a21 <> 0) by lra.
    eexists. split; [reflexivity|]. intros q (_ & Q1 & Q2). rewrite Q1, Q2. unfold affine_scan, affine, dot2.
    cbn [fst snd]. fold a10 a11 a20 a21. rewrite Eo. split; field; auto.
Qed.
(** ... and is off by alpha_dot[1,1] * (n2 - n1) in general. *)
Lemma calc_point_error s h pot1 pot2 occ :
  first_occ (h_occ h) = Ok occ -> barrier_det s <> 0 ->
  (snd (row1 (ss_sensor s)) = 0 \/ 1 / 4503599627370496 <= Rabs (snd (row1 (ss_sensor s)))) ->
  exists pt, calc_point s h pot1 pot2 true = Ok pt /\
    forall q, pot_spec s occ (fst (h_g1 h), fst (h_g2 h)) pt q ->
      at_barrier1 q = pot1 + snd (row1 (ss_dot s)) * (snd occ - fst occ) /\ at_barrier2 q = pot2.
Proof.
  intros Ho Hd He. unfold barrier_det in Hd. unfold calc_point. rewrite Ho. cbn [bind].
  set (a10 := fst (row1 (ss_sensor s))) in *. set (a11 := snd (row1 (ss_sensor s))) in *.
  set (a20 := fst (row2 (ss_sensor s))) in *. set (a21 := snd (row2 (ss_sensor s))) in *.
  destruct (Rltb_spec (Rabs a11) (1 / 4503599627370496)) as [L|L].
  - assert (Z : a11 = 0) by (destruct He; [auto|lra]). rewrite Z in Hd.
    assert (a10 <> 0 /\ a21 <> 0) as [N1 N2] by (split; intros E; apply Hd; rewrite E; ring).
    eexists. split; [reflexivity|]. intros q (_ & Q1 & Q2). rewrite Q1, Q2. unfold affine_scan, affine, dot2.
    cbn [fst snd]. fold a10 a11 a20 a21. rewrite Z. split; field; auto.
  - assert (Z : a11 <> 0) by (intros Z; rewrite Z, Rabs_R0 in L; lra).
    assert (D : a20 * a11 - a10 * a21 <> 0) by lra.
    eexists. split; [reflexivity|]. intros q (_ & Q1 & Q2). rewrite Q1, Q2. unfold affine_scan, affine, dot2.
    cbn [fst snd]. fold a10 a11 a20 a21. split; field; auto.
Qed.
(** With swept plunger gates the sensor voltages are counted twice and the plunger voltages not at all. *)
Lemma calc_point_csd_error s h pot1 pot2 occ :
  first_occ (h_occ h) = Ok occ -> barrier_det s <> 0 ->
  (snd (row1 (ss_sensor s)) = 0 \/ 1 / 4503599627370496 <= Rabs (snd (row1 (ss_sensor s)))) ->
  exists pt, calc_point s h pot1 pot2 false = Ok pt /\
    forall v q, pot_spec s occ v pt q ->
      at_barrier1 q = pot1 + snd (row1 (ss_dot s)) * (snd occ - fst occ)
        + (fst (row1 (ss_gate s)) * fst v + snd (row1 (ss_gate s)) * snd v)
        - (fst (row1 (ss_sensor s)) + snd (row1 (ss_sensor s))) * fst (h_s1 h) /\
      at_barrier2 q = pot2
        + (fst (row2 (ss_gate s)) * fst v + snd (row2 (ss_gate s)) * snd v)
        - (fst (row2 (ss_sensor s)) + snd (row2 (ss_sensor s))) * fst (h_s1 h).
Proof.
  intros Ho Hd He. unfold barrier_det in Hd. unfold calc_point. rewrite Ho. cbn [bind].
  set (a10 := fst (row1 (ss_sensor s))) in *. set (a11 := snd (row1 (ss_sensor s))) in *.
  set (a20 := fst (row2 (ss_sensor s))) in *. set (a21 := snd (row2 (ss_sensor s))) in *.
  destruct (Rltb_spec (Rabs a11) (1 / 4503599627370496)) as [L|L].
  - assert (Z : a11 = 0) by (destruct He; [auto|lra]). rewrite Z in Hd.
    assert (a10 <> 0 /\ a21 <> 0) as [N1 N2] by (split; intros E; apply Hd; rewrite E; ring).
    eexists. split; [reflexivity|]. intros v q (_ & Q1 & Q2). rewrite Q1, Q2. unfold affine_scan, affine, dot2.
    cbn [fst snd]. fold a10 a11 a20 a21. rewrite Z. split; field; auto.
  - assert (Z : a11 <> 0) by (intros Z; rewrite Z, Rabs_R0 in L; lra).
    assert (D : a20 * a11 - a10 * a21 <> 0) by lra.
    eexists. split; [reflexivity|]. intros v q (_ & Q1 & Q2). rewrite Q1, Q2. unfold affine_scan, affine, dot2.
    cbn [fst snd]. fold a10 a11 a20 a21. split; field; auto.
Qed.

(** ** Deformations *)
Lemma Rsign_pos x : 0 < x -> Rsign x = 1.
Proof. intros. unfold Rsign. rewrite Rltb_true by auto. reflexivity. Qed.
Lemma Rsign_neg x : x < 0 -> Rsign x = -1.
Proof. intros. unfold Rsign. rewrite Rltb_false by lra. rewrite Rltb_true by auto. reflexivity. Qed.
Lemma cos_asin' x : -1 <= x <= 1 -> cos (asin x) = sqrt (1 - x ^ 2).
Proof. intros H. rewrite cos_asin by auto. unfold Rsqr. f_equal. ring. Qed.
Lemma clip_id x : -1 <= x <= 1 -> clip (-1) 1 x = x.
Proof. intros H. unfold clip. rewrite Rmax_right, Rmin_right; auto; try lra. Qed.

(** closed form of the circular deformation, in volts *)
Lemma circle_closed a radius d m : 0 < norm2 a -> radius <> 0 ->
  let rv := Rabs (radius / norm2 a) in
  circle_calc_mu a radius d m =
  if Rleb (Rabs d) rv then m - (rv - sqrt (rv ^ 2 - d ^ 2)) * Rsign radius else m - rv.
Proof.
  intros Ha Hr rv. assert (Hv : 0 < rv).
  { apply Rabs_pos_lt. unfold Rdiv. apply Rmult_integral_contrapositive. split; [auto|]. apply Rinv_neq_0_compat. lra. }
  unfold circle_calc_mu. fold rv. destruct (Rleb_spec (Rabs d) rv) as [L|L].
  - assert (0 <= Rabs d / rv <= 1).
    { split; [apply Rmult_le_pos; [apply Rabs_pos|left; apply Rinv_0_lt_compat; auto]|].
      apply (Rmult_le_reg_r rv); [auto|]. unfold Rdiv. rewrite Rmult_assoc, Rinv_l by lra. lra. }
    rewrite clip_id by lra. rewrite cos_asin' by lra. do 2 f_equal. f_equal.
    rewrite <- (sqrt_pow2 rv) at 2 by lra. rewrite <- sqrt_mult_alt.
    + f_equal. unfold Rdiv. rewrite Rpow_mult_distr, pow2_abs. field. lra.
    + assert (0 <= (Rabs d / rv) ^ 2 <= 1) by nra. lra.
  - f_equal. destruct (Rlt_le_dec (radius / norm2 a) 0) as [N|N].
    + rewrite Rsign_neg by auto. unfold rv. rewrite Rabs_left by auto. ring.
    + assert (radius / norm2 a <> 0) by (intros E; unfold rv in Hv; rewrite E, Rabs_R0 in Hv; lra).
      rewrite Rsign_pos by lra. unfold rv. rewrite Rabs_pos_eq by auto. ring.
Qed.
Lemma circle_zero a radius m : 0 < norm2 a -> radius <> 0 -> circle_calc_mu a radius 0 m = m.
Proof.
  intros Ha Hr. rewrite circle_closed by auto. cbv zeta. rewrite Rabs_R0. rewrite Rleb_true by apply Rabs_pos.
  replace (Rabs (radius / norm2 a) ^ 2 - 0 ^ 2) with (Rabs (radius / norm2 a) ^ 2) by ring.
  rewrite sqrt_pow2 by apply Rabs_pos. ring.
Qed.
Lemma circle_even a radius d m : circle_calc_mu a radius (- d) m = circle_calc_mu a radius d m.
Proof. unfold circle_calc_mu. rewrite Rabs_Ropp. reflexivity. Qed.
Lemma linear_laws a angle d d' m :
  linear_calc_mu a angle 0 m = m /\
  linear_calc_mu a angle (- d) m - m = - (linear_calc_mu a angle d m - m) /\
  linear_calc_mu a angle d m - linear_calc_mu a angle d' m = norm2 a / tan angle * (d - d').
Proof. unfold linear_calc_mu, Rdiv. repeat split; ring. Qed.
Lemma linear_continuous a angle m : continuous_everywhere (fun d => linear_calc_mu a angle d m).
Proof. intros x. unfold linear_calc_mu. reg. Qed.
Lemma circle_sup a radius d m : 0 < norm2 a -> 0 < radius ->
  circle_calc_mu a radius d m = m - (radius / norm2 a - sqrt (Rmax 0 ((radius / norm2 a) ^ 2 - d ^ 2))).
Proof.
  intros Ha Hr. rewrite circle_closed by lra. cbv zeta.
  assert (Hv : 0 < radius / norm2 a) by (apply Rdiv_lt_0_compat; auto). rewrite (Rabs_pos_eq (radius / norm2 a)) by lra.
  set (r := radius / norm2 a) in *. destruct (Rleb_spec (Rabs d) r) as [L|L].
  - rewrite Rsign_pos by auto. assert (d ^ 2 <= r ^ 2) by (rewrite <- (pow2_abs d); pose proof (Rabs_pos d); nra).
    rewrite Rmax_right by lra. ring.
  - assert (r ^ 2 < d ^ 2) by (rewrite <- (pow2_abs d); nra). rewrite Rmax_left by lra. rewrite sqrt_0. ring.
Qed.
Lemma continuity_pt_ext f g x : (forall y, f y = g y) -> continuity_pt f x -> continuity_pt g x.
Proof.
  intros E C eps He. destruct (C eps He) as (d & Hd & Q). exists d. split; [exact Hd|].
  intros y Hy. rewrite <- (E x), <- (E y). apply Q, Hy.
Qed.
Lemma Rmax0_abs x : Rmax 0 x = (x + Rabs x) / 2.
Proof. unfold Rmax. destruct (Rle_dec 0 x); [rewrite Rabs_pos_eq by auto|rewrite Rabs_left by lra]; lra. Qed.
Lemma circle_continuous a radius m : 0 < norm2 a -> 0 < radius ->
  continuous_everywhere (fun d => circle_calc_mu a radius d m).
Proof.
  intros Ha Hr x.
  apply (continuity_pt_ext (fun d => m - (radius / norm2 a - sqrt (((radius / norm2 a) ^ 2 - d ^ 2 + Rabs ((radius / norm2 a) ^ 2 - d ^ 2)) / 2)))).
  { intros d. rewrite circle_sup by auto. rewrite Rmax0_abs. reflexivity. }
  apply continuity_pt_minus; [apply continuity_pt_const; intros ? ?; reflexivity|].
  apply continuity_pt_minus; [apply continuity_pt_const; intros ? ?; reflexivity|].
  apply (continuity_pt_comp (fun d => ((radius / norm2 a) ^ 2 - d ^ 2 + Rabs ((radius / norm2 a) ^ 2 - d ^ 2)) / 2) sqrt).
  - assert (C : continuity_pt (fun d => (radius / norm2 a) ^ 2 - d ^ 2) x) by reg.
    apply (continuity_pt_mult (fun d => (radius / norm2 a) ^ 2 - d ^ 2 + Rabs ((radius / norm2 a) ^ 2 - d ^ 2)) (fun _ => / 2)).
    + apply continuity_pt_plus; [exact C|].
      apply (continuity_pt_comp (fun d => (radius / norm2 a) ^ 2 - d ^ 2) Rabs); [exact C|apply Rcontinuity_abs].
    + apply continuity_pt_const. intros ? ?. reflexivity.
  - apply continuity_pt_sqrt. rewrite <- Rmax0_abs. apply Rmax_l.
Qed.
(** a negative radius: the peak jumps by twice the radius where the circle ends *)
Lemma circle_jump a radius m : 0 < norm2 a -> radius < 0 ->
  let rv := - radius / norm2 a in
  circle_calc_mu a radius rv m = m + rv /\
  (forall d, rv < d -> circle_calc_mu a radius d m = m - rv) /\
  ~ continuity_pt (fun d => circle_calc_mu a radius d m) rv.
Proof.
  intros Ha Hr rv. assert (Hv : 0 < rv) by (apply Rdiv_lt_0_compat; lra).
  assert (E : Rabs (radius / norm2 a) = rv).
  { assert (radius / norm2 a = - rv) as -> by (unfold rv; field; lra). rewrite Rabs_Ropp. apply Rabs_pos_eq. lra. }
  assert (A : circle_calc_mu a radius rv m = m + rv).
  { rewrite circle_closed by lra. cbv zeta. rewrite E. rewrite (Rabs_pos_eq rv) by lra. rewrite Rleb_true by lra.
    rewrite Rsign_neg by auto. replace (rv ^ 2 - rv ^ 2) with 0 by ring. rewrite sqrt_0. ring. }
  assert (B : forall d, rv < d -> circle_calc_mu a radius d m = m - rv).
  { intros d L. rewrite circle_closed by lra. cbv zeta. rewrite E. rewrite (Rabs_pos_eq d) by lra.
    rewrite Rleb_false by auto. reflexivity. }
  split; [exact A|]. split; [exact B|]. intros C.
  destruct (C rv Hv) as (del & Pd & Q). specialize (Q (rv + del / 2)).
  unfold R_dist, D_x, no_cond in Q. simpl in Q. unfold R_dist in Q. rewrite A, B in Q by lra.
  assert (Rabs (m - rv - (m + rv)) < rv).
  { apply Q. split; [split; [exact I|lra]|]. replace (rv + del / 2 - rv) with (del / 2) by ring. rewrite Rabs_pos_eq; lra. }
  replace (m - rv - (m + rv)) with (- (2 * rv)) in H by ring. rewrite Rabs_Ropp, Rabs_pos_eq in H; lra.
Qed.
