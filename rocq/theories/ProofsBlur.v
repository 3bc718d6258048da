(** Proofs about blurred lines. *)
From Coq Require FinFun.
From Coquelicot Require Import Coquelicot.
From Verif Require Import RPrelude Arr ModelJumps ModelDistortions SpecDistortions SpecBlur ProofsJumps ProofsDistortions.
Local Open Scope R_scope.

Lemma offsets_In r d : In d (offsets r) <-> (- Z.of_nat r <= d <= Z.of_nat r)%Z.
Proof.
  unfold offsets. rewrite in_map_iff. split.
  - intros (k & <- & Hk). apply in_seq in Hk. lia.
  - intros H. exists (Z.to_nat (d + Z.of_nat r)). split; [lia|]. apply in_seq. lia.
Qed.
Lemma offsets_NoDup r : NoDup (offsets r).
Proof. apply Coq.Logic.FinFun.Injective_map_NoDup; [intros x y H; lia|apply seq_NoDup]. Qed.
Lemma window_offsets r f : window_sum r f = Rsum (map f (offsets r)).
Proof. unfold window_sum, offsets. rewrite map_map. reflexivity. Qed.

Lemma sum_single (l : list Z) (w : Z -> R) x : NoDup l ->
  Rsum (map (fun d => if (d =? x)%Z then w d else 0) l) = if in_dec Z.eq_dec x l then w x else 0.
Proof.
  induction 1 as [|a l N ND IH]; simpl; [reflexivity|]. rewrite IH. destruct (Z.eqb_spec a x) as [->|E].
  - destruct (Z.eq_dec x x); [|congruence]. destruct (in_dec Z.eq_dec x l); [contradiction|]. lra.
  - destruct (Z.eq_dec a x); [congruence|]. destruct (in_dec Z.eq_dec x l); lra.
Qed.

Lemma even_reflect n line e j : (0 < n)%nat -> even_extension n line e -> e j = line (reflect_index n j).
Proof.
  intros Hn (E1 & E2 & E3).
  assert (P : forall q m, e (m + 2 * Z.of_nat n * q)%Z = e m).
  { assert (P0 : forall k m, e (m + 2 * Z.of_nat n * Z.of_nat k)%Z = e m).
    { induction k as [|k IH]; intros m; [f_equal; lia|]. rewrite <- (IH m). rewrite <- (E3 (m + 2 * Z.of_nat n * Z.of_nat k)%Z). f_equal. lia. }
    intros q m. destruct (Z_le_gt_dec 0 q).
    - rewrite <- (P0 (Z.to_nat q) m). f_equal. lia.
    - rewrite <- (P0 (Z.to_nat (- q)) (m + 2 * Z.of_nat n * q)%Z). f_equal. lia. }
  unfold reflect_index. pose proof (Z.mod_pos_bound j (2 * Z.of_nat n) ltac:(lia)) as B.
  pose proof (Z.div_mod j (2 * Z.of_nat n) ltac:(lia)) as D. set (m := (j mod (2 * Z.of_nat n))%Z) in *. set (q := (j / (2 * Z.of_nat n))%Z) in *.
  rewrite D, Z.add_comm, P. destruct (Z.ltb_spec m (Z.of_nat n)).
  - rewrite <- E1 by lia. f_equal. lia.
  - rewrite <- E1 by lia. rewrite <- E2. rewrite <- (E3 (-1 - m)%Z). f_equal. lia.
Qed.

Section Line.
Variable kernel : R -> Z -> R.
Variable radius : R -> nat.
Variable sigma : R.
Hypothesis kernel_pos : forall d, 0 < kernel sigma d.
Hypothesis kernel_falls : forall d e, (Z.abs d <= Z.abs e)%Z -> kernel sigma e <= kernel sigma d.
Notation w := (normalised (kernel sigma) (radius sigma)).
Notation r := (radius sigma).
Notation filtered := (filter_line kernel radius sigma).

Lemma kernel_even d : kernel sigma (- d)%Z = kernel sigma d.
Proof. apply Rle_antisym; apply kernel_falls; lia. Qed.
Lemma sum_pos : 0 < Rsum (map (kernel sigma) (offsets r)).
Proof. apply Rsum_pos; auto using offsets_nonempty. Qed.
Lemma w_falls d e : (Z.abs d <= Z.abs e)%Z -> w e <= w d.
Proof. intros H. unfold normalised, Rdiv. apply Rmult_le_compat_r; [apply Rlt_le, Rinv_0_lt_compat, sum_pos|auto]. Qed.

(** Sum of the weights up to x, and the weight at x (none beyond the radius) *)
Definition upto (x : Z) : R := Rsum (map (fun d => if (d <=? x)%Z then w d else 0) (offsets r)).
Definition at_ (x : Z) : R := if in_dec Z.eq_dec x (offsets r) then w x else 0.
Lemma upto_step x : upto x = upto (x - 1) + at_ x.
Proof.
  unfold at_. rewrite <- (sum_single (offsets r) w x (offsets_NoDup r)). unfold upto. rewrite <- Rsum_plus. apply Rsum_ext. intros d _.
  destruct (Z.leb_spec d x), (Z.leb_spec d (x - 1)), (Z.eqb_spec d x); lia || lra.
Qed.
Lemma at_nonneg x : 0 <= at_ x.
Proof. unfold at_. destruct in_dec; [apply Rlt_le, weights_pos; auto|lra]. Qed.
Lemma at_out x : (Z.of_nat r < Z.abs x)%Z -> at_ x = 0.
Proof. intros H. unfold at_. destruct in_dec as [I|]; [|reflexivity]. apply offsets_In in I. lia. Qed.
Lemma at_in x : (Z.abs x <= Z.of_nat r)%Z -> at_ x = w x.
Proof. intros H. unfold at_. destruct in_dec as [|N]; [reflexivity|]. elim N. apply offsets_In. lia. Qed.
Lemma at_falls x y : (Z.abs x <= Z.abs y)%Z -> at_ y <= at_ x.
Proof.
  intros H. destruct (Z_lt_le_dec (Z.of_nat r) (Z.abs y)) as [L|L]; [rewrite (at_out y L); apply at_nonneg|].
  rewrite !at_in by lia. apply w_falls; auto.
Qed.
Lemma upto_all x : (Z.of_nat r <= x)%Z -> upto x = 1.
Proof.
  intros H. unfold upto. erewrite Rsum_ext; [apply weights_sum; auto|]. intros d I. apply offsets_In in I. destruct (Z.leb_spec d x); lra || lia.
Qed.
Lemma upto_none x : (x < - Z.of_nat r)%Z -> upto x = 0.
Proof.
  intros H. unfold upto. rewrite (Rsum_ext _ (fun _ => 0 * 0)); [rewrite Rsum_mult; lra|]. intros d I. apply offsets_In in I. destruct (Z.leb_spec d x); lra || lia.
Qed.
Lemma upto_mirror x : upto (- x - 1) = 1 - upto x.
Proof.
  unfold upto at 1. rewrite <- Rsum_offsets_opp.
  enough (Rsum (map (fun d => if (- d <=? - x - 1)%Z then w (- d)%Z else 0) (offsets r)) + upto x = 1) by lra.
  unfold upto. rewrite <- Rsum_plus. erewrite Rsum_ext; [apply (weights_sum kernel radius sigma); auto|]. intros d _. cbv beta.
  replace (w (- d)%Z) with (w d) by (unfold normalised; rewrite kernel_even; reflexivity).
  destruct (Z.leb_spec (- d) (- x - 1)), (Z.leb_spec d x); lia || lra.
Qed.

Lemma filtered_step n m i : (r <= n)%nat -> (m + 1 < n)%nat -> (i < n)%nat ->
  filtered n (step_line m) i = 1 - (upto (Z.of_nat i + Z.of_nat m + 1) - upto (Z.of_nat i - Z.of_nat m - 1) + upto (Z.of_nat i - 2 * Z.of_nat n + 1 + Z.of_nat m)).
Proof.
  intros Hr Hm Hi.
  enough (filtered n (step_line m) i + (upto (Z.of_nat i + Z.of_nat m + 1) + -1 * upto (Z.of_nat i - Z.of_nat m - 1) + upto (Z.of_nat i - 2 * Z.of_nat n + 1 + Z.of_nat m)) = 1) by lra.
  unfold filter_line, convolve_line, upto. rewrite <- Rsum_mult, <- !Rsum_plus.
  erewrite Rsum_ext; [apply (weights_sum kernel radius sigma); auto|]. intros d I. apply offsets_In in I. cbv beta.
  assert (E : reflect_index n (Z.of_nat i - d) =
    if (Z.of_nat i - d <? 0)%Z then Z.to_nat (-1 - (Z.of_nat i - d)) else if (Z.of_nat i - d <? Z.of_nat n)%Z then Z.to_nat (Z.of_nat i - d) else Z.to_nat (2 * Z.of_nat n - 1 - (Z.of_nat i - d))).
  { unfold reflect_index. destruct (Z.ltb_spec (Z.of_nat i - d) 0).
    - replace ((Z.of_nat i - d) mod (2 * Z.of_nat n))%Z with (Z.of_nat i - d + 2 * Z.of_nat n)%Z by (apply (Z.mod_unique _ _ (-1)); lia).
      destruct (Z.ltb_spec (Z.of_nat i - d + 2 * Z.of_nat n) (Z.of_nat n)); lia.
    - rewrite Z.mod_small by lia. destruct (Z.of_nat i - d <? Z.of_nat n)%Z; reflexivity. }
  rewrite E. unfold step_line.
  destruct (Z.ltb_spec (Z.of_nat i - d) 0); [|destruct (Z.ltb_spec (Z.of_nat i - d) (Z.of_nat n))];
  match goal with |- context [(m <? ?k)%nat] => destruct (Nat.ltb_spec m k) end;
  destruct (Z.leb_spec d (Z.of_nat i + Z.of_nat m + 1)), (Z.leb_spec d (Z.of_nat i - Z.of_nat m - 1)), (Z.leb_spec d (Z.of_nat i - 2 * Z.of_nat n + 1 + Z.of_nat m)); lia || lra.
Qed.

Lemma filtered_step_diff n m i : (r <= n)%nat -> (m + 1 < n)%nat -> (i + 1 < n)%nat ->
  filtered n (step_line m) (i + 1) - filtered n (step_line m) i =
  at_ (Z.of_nat i - Z.of_nat m) - at_ (Z.of_nat i + Z.of_nat m + 2) - at_ (Z.of_nat i - 2 * Z.of_nat n + 2 + Z.of_nat m).
Proof.
  intros. rewrite !filtered_step by lia.
  replace (Z.of_nat (i + 1) + Z.of_nat m + 1)%Z with (Z.of_nat i + Z.of_nat m + 2)%Z by lia.
  replace (Z.of_nat (i + 1) - Z.of_nat m - 1)%Z with (Z.of_nat i - Z.of_nat m)%Z by lia.
  replace (Z.of_nat (i + 1) - 2 * Z.of_nat n + 1 + Z.of_nat m)%Z with (Z.of_nat i - 2 * Z.of_nat n + 2 + Z.of_nat m)%Z by lia.
  rewrite (upto_step (Z.of_nat i + Z.of_nat m + 2)), (upto_step (Z.of_nat i - Z.of_nat m)), (upto_step (Z.of_nat i - 2 * Z.of_nat n + 2 + Z.of_nat m)).
  replace (Z.of_nat i + Z.of_nat m + 2 - 1)%Z with (Z.of_nat i + Z.of_nat m + 1)%Z by lia.
  replace (Z.of_nat i - 2 * Z.of_nat n + 2 + Z.of_nat m - 1)%Z with (Z.of_nat i - 2 * Z.of_nat n + 1 + Z.of_nat m)%Z by lia. lra.
Qed.

Lemma filtered_step_rises n m i : (r < n)%nat -> (m + 1 < n)%nat -> (i + 1 < n)%nat ->
  filtered n (step_line m) i <= filtered n (step_line m) (i + 1).
Proof.
  intros Hr Hm Hi. pose proof (filtered_step_diff n m i ltac:(lia) Hm Hi) as E.
  destruct (Z_lt_le_dec (Z.of_nat r) (Z.of_nat i + Z.of_nat m + 2)) as [L|L].
  - rewrite (at_out (Z.of_nat i + Z.of_nat m + 2)) in E by lia.
    pose proof (at_falls (Z.of_nat i - Z.of_nat m) (Z.of_nat i - 2 * Z.of_nat n + 2 + Z.of_nat m) ltac:(lia)). lra.
  - rewrite (at_out (Z.of_nat i - 2 * Z.of_nat n + 2 + Z.of_nat m)) in E by lia.
    pose proof (at_falls (Z.of_nat i - Z.of_nat m) (Z.of_nat i + Z.of_nat m + 2) ltac:(lia)). lra.
Qed.

Lemma line_steps n line k : (k < n)%nat ->
  line k = line 0%nat + Rsum (map (fun m => (line (S m) - line m) * step_line m k) (seq 0 (n - 1))).
Proof.
  intros Hk. assert (H : forall t, Rsum (map (fun m => (line (S m) - line m) * step_line m k) (seq 0 t)) = line (Nat.min k t) - line 0%nat).
  { induction t as [|t IH]; [rewrite Nat.min_0_r; simpl; lra|]. rewrite seq_S, map_app, Rsum_app, IH. rewrite Nat.add_0_l. cbn [map Rsum]. unfold step_line.
    destruct (Nat.ltb_spec t k).
    - rewrite !Nat.min_r by lia. lra.
    - rewrite !Nat.min_l by lia. lra. }
  rewrite H. rewrite Nat.min_l by lia. lra.
Qed.

Lemma filtered_scale n f c i : filtered n (fun k => c * f k) i = c * filtered n f i.
Proof. unfold filter_line, convolve_line. rewrite <- Rsum_mult. apply Rsum_ext. intros; lra. Qed.
Lemma filtered_sum n (c : nat -> R) (f : nat -> nat -> R) l i : (0 < n)%nat ->
  filtered n (fun k => Rsum (map (fun m => c m * f m k) l)) i = Rsum (map (fun m => c m * filtered n (f m) i) l).
Proof.
  intros Hn. induction l as [|a l IH]; simpl.
  - apply filter_const; auto.
  - rewrite filter_plus, filtered_scale, IH. reflexivity.
Qed.

Lemma filtered_rising n line : (r < n)%nat -> rising n line -> rising n (filtered n line).
Proof.
  intros Hr Hl. assert (D : forall i, (i < n)%nat ->
    filtered n line i = line 0%nat + Rsum (map (fun m => (line (S m) - line m) * filtered n (step_line m) i) (seq 0 (n - 1)))).
  { intros i Hi. rewrite (filter_ext kernel radius sigma n line (fun k => line 0%nat + Rsum (map (fun m => (line (S m) - line m) * step_line m k) (seq 0 (n - 1)))) i);
      [|lia|intros; apply line_steps; auto].
    rewrite filter_plus. rewrite (filter_const kernel radius sigma kernel_pos n _ (line 0%nat)) by (auto; lia). f_equal.
    apply (filtered_sum n (fun m => line (S m) - line m) step_line). lia. }
  assert (S1 : forall i, (i + 1 < n)%nat -> filtered n line i <= filtered n line (i + 1)).
  { intros i Hi. rewrite !D by lia. apply Rplus_le_compat_l, Rsum_le. intros m Hm. apply in_seq in Hm.
    apply Rmult_le_compat_l; [pose proof (Hl m (S m) ltac:(lia)); lra|]. apply filtered_step_rises; lia. }
  intros i j [Hij Hj]. induction j as [|j IH]; [replace i with 0%nat by lia; lra|].
  destruct (Nat.eq_dec i (S j)) as [->|N]; [lra|]. pose proof (IH ltac:(lia) ltac:(lia)). pose proof (S1 j ltac:(lia)) as Q.
  rewrite Nat.add_1_r in Q. lra.
Qed.
Lemma filtered_falling n line : (r < n)%nat -> falling n line -> falling n (filtered n line).
Proof.
  intros Hr Hl i j H. pose proof (filtered_rising n (fun k => -1 * line k) Hr) as Q.
  assert (rising n (fun k => -1 * line k)) as Q1 by (intros a b Hab; pose proof (Hl a b Hab); cbv beta; lra).
  specialize (Q Q1 i j H). rewrite !filtered_scale in Q. lra.
Qed.

(** A transition at least [radius] pixels from both ends stays where it is. *)
Lemma filtered_inner n m i : (r <= m + 1)%nat -> (r + m + 1 <= n)%nat -> (m + 1 < n)%nat -> (i < n)%nat ->
  filtered n (step_line m) i = upto (Z.of_nat i - Z.of_nat m - 1).
Proof.
  intros H1 H2 H3 Hi. rewrite filtered_step by lia. rewrite upto_all by lia. rewrite (upto_none (Z.of_nat i - 2 * Z.of_nat n + 1 + Z.of_nat m)) by lia. lra.
Qed.
End Line.

Lemma fermi_fermi sigma d : 0 < sigma -> fermi_kernel sigma d = 2 / sigma * fermi_weight sigma (IZR d).
Proof.
  intros H. unfold fermi_kernel, fermi_dirac_derivative, fermi_weight, cosh'. rewrite Rminus_0_r.
  pose proof (exp_pos (IZR d / sigma)). pose proof (exp_pos (- (IZR d / sigma))). field. split; [lra|]. lra.
Qed.
Lemma gauss_gauss sigma d : 0 < sigma -> gaussian_kernel sigma d = gauss_weight sigma (IZR d).
Proof. intros H. unfold gaussian_kernel, gauss_weight. f_equal. field. lra. Qed.

Lemma exp_sum_mono a b : 0 <= a <= b -> exp a + exp (- a) <= exp b + exp (- b).
Proof.
  intros H. rewrite !exp_Ropp. pose proof (exp_pos a) as Pa. pose proof (exp_pos b) as Pb.
  assert (1 <= exp a) by (rewrite <- exp_0; destruct (Req_dec a 0) as [->|]; [lra|apply Rlt_le, exp_increasing; lra]).
  assert (exp a <= exp b) by (destruct (Req_dec a b) as [->|]; [lra|apply Rlt_le, exp_increasing; lra]).
  set (x := exp a) in *. set (y := exp b) in *. clearbody x y.
  assert (E : y + / y - (x + / x) = (y - x) * (x * y - 1) / (x * y)) by (field; lra).
  assert (0 <= (y - x) * (x * y - 1) / (x * y)); [|lra]. apply Rmult_le_pos; [apply Rmult_le_pos; nra|]. apply Rlt_le, Rinv_0_lt_compat. nra.
Qed.
Lemma fermi_falls sigma d e : 0 < sigma -> (Z.abs d <= Z.abs e)%Z -> fermi_kernel sigma e <= fermi_kernel sigma d.
Proof.
  intros Hs H. assert (A : forall d, fermi_kernel sigma d = fermi_kernel sigma (Z.abs d)).
  { intros x. destruct (Z.abs_spec x) as [[_ ->]|[_ ->]]; [reflexivity|]. symmetry. apply fermi_kernel_even. }
  rewrite (A d), (A e), !fermi_fermi by auto. apply Rmult_le_compat_l; [apply Rlt_le, Rdiv_lt_0_compat; lra|].
  unfold fermi_weight. set (x := IZR (Z.abs d)). set (y := IZR (Z.abs e)).
  assert (Hx : 0 <= x <= y) by (split; [apply (IZR_le 0); lia|apply IZR_le; lia]).
  assert (Hxy : 0 <= x / sigma <= y / sigma).
  { assert (0 < / sigma) by (apply Rinv_0_lt_compat; auto). unfold Rdiv. split; nra. }
  pose proof (exp_sum_mono _ _ Hxy). pose proof (exp_pos (x / sigma)). pose proof (exp_pos (- (x / sigma))).
  apply Rinv_le_contravar; [nra|]. apply pow_incr. lra.
Qed.
Lemma gauss_falls sigma d e : 0 < sigma -> (Z.abs d <= Z.abs e)%Z -> gaussian_kernel sigma e <= gaussian_kernel sigma d.
Proof.
  intros Hs H. unfold gaussian_kernel.
  assert (Q : (IZR d) ^ 2 <= (IZR e) ^ 2).
  { rewrite <- (pow2_abs (IZR d)), <- (pow2_abs (IZR e)), <- !abs_IZR. apply pow_incr. split; [apply (IZR_le 0); lia|apply IZR_le; auto]. }
  assert (P : 0 < / sigma ^ 2) by (apply Rinv_0_lt_compat; nra).
  assert (L : - (1 / 2) / sigma ^ 2 * (IZR e) ^ 2 <= - (1 / 2) / sigma ^ 2 * (IZR d) ^ 2) by (unfold Rdiv; nra).
  destruct L as [L|L]; [apply Rlt_le, exp_increasing, L|rewrite L; lra].
Qed.

Lemma fermi_derivative x x0 sigma : 0 < sigma -> is_derive (fun y => fermi_dirac sigma (y - x0)) x (fermi_dirac_derivative x x0 sigma).
Proof.
  intros H. unfold fermi_dirac. auto_derive.
  - pose proof (exp_pos (- (2 * (x + - x0) / sigma))). unfold Rdiv in *. replace (x - x0) with (x + - x0) by ring. lra.
  - unfold fermi_dirac_derivative, cosh'. replace (x + - x0) with (x - x0) by ring.
    replace (- (2 * (x - x0) * / sigma)) with (- ((x - x0) / sigma) + - ((x - x0) / sigma)) by (field; lra). rewrite exp_plus.
    rewrite !exp_Ropp. set (z := exp ((x - x0) / sigma)). pose proof (exp_pos ((x - x0) / sigma)) as Pz. fold z in Pz. field. repeat split; nra.
Qed.

Definition both (kernel : R -> Z -> R) : Prop := kernel = fermi_kernel \/ kernel = gaussian_kernel.
Lemma both_pos kernel sigma : both kernel -> 0 < sigma -> forall d, 0 < kernel sigma d.
Proof. intros [-> | ->] H d; [apply fermi_kernel_pos; auto|apply gaussian_kernel_pos]. Qed.
Lemma both_falls kernel sigma : both kernel -> 0 < sigma -> forall d e, (Z.abs d <= Z.abs e)%Z -> kernel sigma e <= kernel sigma d.
Proof. intros [-> | ->] H d e; [apply fermi_falls; auto|apply gauss_falls; auto]. Qed.

Lemma shown_filtered kernel radius s sigma c row i : (row < line_count s)%nat -> (i < line_length s)%nat ->
  shown c (scan_line (blur_scan kernel radius sigma s) row i) = filter_line kernel radius sigma (line_length s) (fun k => shown c (scan_line s row k)) i.
Proof.
  intros Hr Hi. assert (E : fst (scan_line (blur_scan kernel radius sigma s) row i) = filter_line kernel radius sigma (line_length s) (fun k => fst (scan_line s row k)) i /\
    snd (scan_line (blur_scan kernel radius sigma s) row i) = filter_line kernel radius sigma (line_length s) (fun k => snd (scan_line s row k)) i)
    by (destruct s; simpl; auto).
  destruct E as [E1 E2]. destruct c as [|[|c]]; simpl; auto. rewrite E1, E2. symmetry. apply filter_plus.
Qed.

Section Class.
Context {G : Type}.
Variable sample_sigma : G -> R * G.
Variable kernel : R -> Z -> R.
Variable radius : R -> nat.
Hypothesis K : both kernel.
Variables (freeze : bool) (st : option R) (g : G) (s : scan R) (lim1 lim2 : limits) (s' : scan R) (st' : option R) (g' : G).
Hypothesis H : blur_noise_function sample_sigma kernel radius freeze st g s lim1 lim2 = Ok (s', st', g').
Hypothesis Ne : (0 < line_length s)%nat /\ (0 < line_count s)%nat.

Lemma blur_exact : exists sg, st' = Some sg /\
  (sg <= 0 /\ s' = s \/ exists k, 0 < sg /\ 0 < k /\ blur_px_per_volt (scan_shape s) lim1 lim2 = Ok k /\ s' = blur_scan kernel radius (sg * k) s).
Proof.
  revert H. unfold blur_noise_function. destruct Ne as [Hn Hr].
  destruct (if freeze then match st with Some x => Ok (x, g) | None => Err TypeError end else Ok (sample_sigma g)) as [[sigma g1]|]; simpl; [|discriminate].
  destruct (Rltb_spec 0 sigma) as [P|P].
  - destruct (blur_px_per_volt (scan_shape s) lim1 lim2) as [k|] eqn:Ek; simpl; [|discriminate]. intros [= <- <- <-].
    exists sigma. split; auto. right. exists k. repeat split; auto. eapply blur_factor_pos; [|exact Ek]. destruct s; simpl in *; auto.
  - intros [= <- <- <-]. exists sigma. split; auto. left. split; auto. lra.
Qed.

Definition short_kernel : Prop := forall sg k, st' = Some sg -> 0 < sg -> blur_px_per_volt (scan_shape s) lim1 lim2 = Ok k -> (radius (sg * k)%R < line_length s)%nat.

Lemma blur_keeps_order : short_kernel -> forall row c, (row < line_count s)%nat ->
  (rising (line_length s) (fun i => shown c (scan_line s row i)) -> rising (line_length s) (fun i => shown c (scan_line s' row i))) /\
  (falling (line_length s) (fun i => shown c (scan_line s row i)) -> falling (line_length s) (fun i => shown c (scan_line s' row i))).
Proof.
  intros Sh row c Hrow. destruct blur_exact as (sg & Es & [[L ->]|(k & P & Pk & Ek & ->)]); [auto|].
  specialize (Sh sg k Es P Ek). assert (Ps : 0 < sg * k) by nra.
  split; intros Q i j Hij; rewrite !(shown_filtered kernel radius s) by (auto; lia);
  [apply (filtered_rising kernel radius (sg * k)); auto|apply (filtered_falling kernel radius (sg * k)); auto];
  try (apply both_pos; auto); try (apply both_falls; auto).
Qed.

Lemma blur_in_place m a b row c : (row < line_count s)%nat -> (m + 1 < line_length s)%nat ->
  (forall k, (k < line_length s)%nat -> shown c (scan_line s row k) = if (k <=? m)%nat then a else b) ->
  (forall sg k, st' = Some sg -> 0 < sg -> blur_px_per_volt (scan_shape s) lim1 lim2 = Ok k ->
    (radius (sg * k)%R <= m + 1 /\ radius (sg * k)%R + m + 1 <= line_length s)%nat) ->
  forall j, (j <= m)%nat -> (m + 1 + j < line_length s)%nat ->
  shown c (scan_line s' row (m - j)) + shown c (scan_line s' row (m + 1 + j)) = a + b /\
  (forall sg k, st' = Some sg -> 0 < sg -> blur_px_per_volt (scan_shape s) lim1 lim2 = Ok k -> (radius (sg * k)%R <= j)%nat ->
     shown c (scan_line s' row (m - j)) = a /\ shown c (scan_line s' row (m + 1 + j)) = b).
Proof.
  intros Hrow Hm Hl Hs j Hj Hj'. destruct blur_exact as (sg & Es & [[L ->]|(k & P & Pk & Ek & ->)]).
  - rewrite !Hl by lia. rewrite (proj2 (Nat.leb_le (m - j) m)) by lia. rewrite (proj2 (Nat.leb_gt (m + 1 + j) m)) by lia. split; auto.
  - destruct (Hs sg k Es P Ek) as [H1 H2]. assert (Ps : 0 < sg * k) by nra. pose proof (both_pos kernel _ K Ps) as KP. pose proof (both_falls kernel _ K Ps) as KF.
    assert (F : forall i, (i < line_length s)%nat -> shown c (scan_line (blur_scan kernel radius (sg * k) s) row i) = a + (b - a) * upto kernel radius (sg * k) (Z.of_nat i - Z.of_nat m - 1)).
    { intros i Hi. rewrite shown_filtered by auto. rewrite <- (filtered_inner kernel radius (sg * k) KP (line_length s) m i) by (auto; lia).
      rewrite <- (filtered_scale kernel radius (sg * k)). rewrite <- (filter_const kernel radius (sg * k) KP (line_length s) (fun _ => a) a i) at 1 by (auto; lia).
      rewrite <- filter_plus. apply filter_ext; [lia|]. intros x Hx. rewrite Hl by auto. unfold step_line.
      destruct (Nat.leb_spec x m), (Nat.ltb_spec m x); lia || lra. }
    rewrite !F by lia. split.
    + replace (Z.of_nat (m - j) - Z.of_nat m - 1)%Z with (- (Z.of_nat j) - 1)%Z by lia. rewrite upto_mirror by auto.
      replace (Z.of_nat (m + 1 + j) - Z.of_nat m - 1)%Z with (Z.of_nat j) by lia. ring.
    + intros sg2 k2 E2 P2 Ek2 Hr2. assert (sg2 = sg) by congruence. assert (k2 = k) by congruence. subst.
      rewrite (upto_none kernel radius (sg * k)) by lia. rewrite upto_all by (auto; lia). split; ring.
Qed.
End Class.

Lemma window_scale r c f g : (forall d, f d = c * g d) -> window_sum r f = c * window_sum r g.
Proof. intros E. unfold window_sum. rewrite <- Rsum_mult. apply Rsum_ext. intros; auto. Qed.
Lemma filtered_window kernel radius sigma n line e i weight c : (0 < n)%nat -> even_extension n line e ->
  c <> 0 -> 0 < window_sum (radius sigma) weight -> (forall d, kernel sigma d = c * weight d) ->
  filter_line kernel radius sigma n line i = window_sum (radius sigma) (fun d => weight d * e (Z.of_nat i - d)%Z) / window_sum (radius sigma) weight.
Proof.
  intros Hn E Hc Hw Ek. unfold filter_line, convolve_line. rewrite window_offsets in *.
  rewrite (Rsum_ext _ (fun d => (weight d * e (Z.of_nat i - d)%Z) * / Rsum (map weight (offsets (radius sigma))))).
  - rewrite Rsum_multr. rewrite window_offsets. reflexivity.
  - intros d _. rewrite (even_reflect n line e _ Hn E). unfold normalised.
    rewrite (Rsum_ext (kernel sigma) (fun d => c * weight d)) by (intros; auto). rewrite Rsum_mult, Ek. field. split; lra || auto.
Qed.

Lemma blur_weights {G} (sample_sigma : G -> R * G) (kernel : R -> Z -> R) radius freeze st g s lim1 lim2 s' st' g' weight :
  (kernel = fermi_kernel /\ weight = fermi_weight \/ kernel = gaussian_kernel /\ weight = gauss_weight) ->
  blur_noise_function sample_sigma kernel radius freeze st g s lim1 lim2 = Ok (s', st', g') ->
  (0 < line_length s)%nat /\ (0 < line_count s)%nat ->
  exists sg, st' = Some sg /\ (0 < sg -> exists k, blur_px_per_volt (scan_shape s) lim1 lim2 = Ok k /\ 0 < k /\
    forall row c e i, (row < line_count s)%nat -> (i < line_length s)%nat ->
    even_extension (line_length s) (fun j => shown c (scan_line s row j)) e ->
    let r := radius (sg * k) in let w d := weight (sg * k) (IZR d) in
    shown c (scan_line s' row i) = window_sum r (fun d => w d * e (Z.of_nat i - d)%Z) / window_sum r w).
Proof.
  intros HK H Ne. assert (K : both kernel) by (destruct HK as [[-> _]|[-> _]]; [left|right]; reflexivity).
  destruct (blur_exact sample_sigma kernel radius freeze st g s lim1 lim2 s' st' g' H Ne) as (sg & Es & Q).
  exists sg. split; auto. intros Ps. destruct Q as [[L _]|(k & _ & Pk & Ek & ->)]; [lra|].
  exists k. split; auto. split; auto. intros row c e i Hr Hi E. cbv zeta. rewrite shown_filtered by auto.
  assert (P : 0 < sg * k) by nra. pose proof (both_pos kernel _ K P) as KP.
  destruct HK as [[-> ->]|[-> ->]].
  - apply (filtered_window fermi_kernel radius (sg * k) _ _ e i _ (2 / (sg * k))); auto; try lia.
    + assert (0 < 2 / (sg * k)) by (apply Rdiv_lt_0_compat; lra). lra.
    + rewrite window_offsets. apply Rsum_pos; [apply offsets_nonempty|]. intros d _. unfold fermi_weight. apply Rinv_0_lt_compat.
      pose proof (exp_pos (IZR d / (sg * k))). pose proof (exp_pos (- (IZR d / (sg * k)))). nra.
    + intros d. apply fermi_fermi; auto.
  - apply (filtered_window gaussian_kernel radius (sg * k) _ _ e i _ 1); auto; try lia; try lra.
    + rewrite window_offsets. apply Rsum_pos; [apply offsets_nonempty|]. intros d _. apply exp_pos.
    + intros d. rewrite Rmult_1_l. apply gauss_gauss; auto.
Qed.

(** The kernel of radius 64 on a line of 64 pixels *)
Lemma long_ratio kernel : both kernel -> kernel 16 62%Z < 2 * kernel 16 64%Z.
Proof.
  assert (E1 : exp (1/8) * exp (1/8) < 2).
  { rewrite <- exp_plus. replace (1/8 + 1/8) with (1/4) by lra.
    assert (exp (1/4) * exp (1/4) * (exp (1/4) * exp (1/4)) <= 3).
    { rewrite <- !exp_plus. replace (1/4 + 1/4 + (1/4 + 1/4)) with 1 by lra. apply exp_le_3. }
    pose proof (exp_pos (1/4)). destruct (Rlt_dec (exp (1/4)) 2); [auto|]. set (x := exp (1/4)) in *. clearbody x.
    assert (4 <= x * x) by nra. nra. }
  intros [-> | ->].
  - rewrite !fermi_fermi by lra. enough (fermi_weight 16 62 < 2 * fermi_weight 16 64) by lra.
    unfold fermi_weight. set (a := exp (62/16) + exp (- (62/16))). set (b := exp (64/16) + exp (- (64/16))).
    assert (Pa : 0 < a) by (unfold a; pose proof (exp_pos (62/16)); pose proof (exp_pos (- (62/16))); lra).
    assert (Pb : 0 < b) by (unfold b; pose proof (exp_pos (64/16)); pose proof (exp_pos (- (64/16))); lra).
    assert (Q : b <= exp (1/8) * a).
    { unfold a, b. rewrite Rmult_plus_distr_l, <- !exp_plus. replace (1/8 + 62/16) with (64/16) by lra.
      assert (exp (- (64/16)) < exp (1/8 + - (62/16))) by (apply exp_increasing; lra). lra. }
    assert (b ^ 2 < 2 * a ^ 2).
    { pose proof (exp_pos (1/8)). assert (b * b <= (exp (1/8) * a) * (exp (1/8) * a)) by (apply Rmult_le_compat; lra).
      assert (exp (1/8) * exp (1/8) * (a * a) < 2 * (a * a)) by (apply Rmult_lt_compat_r; nra). nra. }
    apply (Rmult_lt_reg_r (a ^ 2 * b ^ 2)); [apply Rmult_lt_0_compat; apply pow_lt; auto|].
    replace (/ a ^ 2 * (a ^ 2 * b ^ 2)) with (b ^ 2) by (field; lra). replace (2 * / b ^ 2 * (a ^ 2 * b ^ 2)) with (2 * a ^ 2) by (field; lra). auto.
  - unfold gaussian_kernel. replace (- (1 / 2) / 16 ^ 2 * 62 ^ 2) with (63/128 + - (1 / 2) / 16 ^ 2 * 64 ^ 2) by lra. rewrite exp_plus.
    apply Rmult_lt_compat_r; [apply exp_pos|].
    assert (exp (63/128) < exp (1/2)) by (apply exp_increasing; lra).
    assert (exp (1/2) * exp (1/2) <= 3) by (rewrite <- exp_plus; replace (1/2 + 1/2) with 1 by lra; apply exp_le_3).
    pose proof (exp_pos (1/2)). nra.
Qed.

Lemma long_kernel kernel radius : both kernel -> radius 16 = 64%nat ->
  let s := Scan1 (mk_arr1 64 (fun k => (step_line 0 k, 0))) None in
  exists s', blur_noise_function (fun g : unit => (1/4, g)) kernel radius false None tt s (0, 1) (0, 0) = Ok (s', Some (1/4), tt) /\
    rising 64 (fun k => fst (scan_line s 0 k)) /\ fst (scan_line s' 0 63) < fst (scan_line s' 0 62).
Proof.
  intros K Hr s. exists (blur_scan kernel radius 16 s). split; [|split].
  - unfold blur_noise_function. cbn [bind]. rewrite Rltb_true by lra. unfold s, scan_shape, blur_px_per_volt, fixed_gate, div_range, volt_range. cbn [len1 fst snd].
    rewrite (Reqb_false 0 1), (Reqb_true 0 0), Rmax_right, Rmin_left by lra. rewrite Reqb_false by lra. cbn [bind].
    replace (1 / 4 * (INR 64 / (1 - 0))) with 16 by (rewrite INR_IZR_INZ; simpl IZR; lra). reflexivity.
  - intros i j Hij. unfold s. simpl. unfold step_line. destruct (Nat.ltb_spec 0 i), (Nat.ltb_spec 0 j); lia || lra.
  - assert (KP := both_pos kernel 16 K ltac:(lra)).
    change (filter_line kernel radius 16 64 (step_line 0) (62 + 1) < filter_line kernel radius 16 64 (step_line 0) 62).
    pose proof (filtered_step_diff kernel radius 16 KP 64 0 62 ltac:(lia) ltac:(lia) ltac:(lia)) as D.
    set (z62 := Z.of_nat 62) in *.
    replace (z62 - Z.of_nat 0)%Z with 62%Z in D by (unfold z62; lia). replace (z62 + Z.of_nat 0 + 2)%Z with 64%Z in D by (unfold z62; lia).
    replace (z62 - 2 * Z.of_nat 64 + 2 + Z.of_nat 0)%Z with (- (64))%Z in D by (unfold z62; lia).
    rewrite !at_in in D by (rewrite Hr; lia). unfold normalised in D. rewrite (kernel_even kernel 16 (both_falls kernel 16 K ltac:(lra)) 64) in D.
    pose proof (long_ratio kernel K). pose proof (sum_pos kernel radius 16 KP) as SP.
    set (T := Rsum (map (kernel 16) (offsets (radius 16)))) in *. clearbody T.
    assert (0 < / T) by (apply Rinv_0_lt_compat; auto). unfold Rdiv in D. nra.
Qed.
