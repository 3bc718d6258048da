(** Proofs about the sensor peaks of the default configuration GaAs_v1. *)
From Verif Require Import RPrelude Arr ModelSupport ModelTct ModelCsd ModelDistortions ModelSensor ModelSimulation ModelInstance ModelConfig ModelDefault
  SpecSupport SpecTct SpecCsd SpecSensor SpecInstance SpecNoise ProofsInstance ProofsNoise ProofsDefault ProofsDefaultNoise.
Local Open Scope R_scope.

(** ** Lorentzians *)
Lemma div_le a b c : 0 < b -> a <= c * b -> a / b <= c.
Proof.
  intros B H. apply Rmult_le_reg_r with b; [exact B|]. replace (a / b * b) with a by (field; lra). exact H.
Qed.
Definition bump (p : lorentz) (mu : R) : R := lz_height p * lz_gamma p ^ 2 / (lz_gamma p ^ 2 + (mu - lz_mu0 p) ^ 2).
Lemma bump_pos p mu : 0 < lz_gamma p -> 0 < lz_height p -> 0 < bump p mu.
Proof.
  intros G H. unfold bump. pose proof (pow_lt _ 2 G). pose proof (pow2_ge_0 (mu - lz_mu0 p)).
  apply Rdiv_lt_0_compat; [apply Rmult_lt_0_compat; assumption|lra].
Qed.
Lemma bump_top p mu : 0 < lz_gamma p -> 0 < lz_height p -> bump p mu <= lz_height p.
Proof.
  intros G H. unfold bump. pose proof (pow_lt _ 2 G) as G2. pose proof (pow2_ge_0 (mu - lz_mu0 p)) as D.
  apply div_le; [lra|]. pose proof (Rmult_le_pos _ _ (Rlt_le _ _ H) D). lra.
Qed.
(** At least [d] away from the centre. *)
Lemma bump_far p mu d b : 0 < lz_gamma p -> 0 < lz_height p -> 0 <= d -> (d <= mu - lz_mu0 p \/ mu - lz_mu0 p <= - d) ->
  lz_height p * lz_gamma p ^ 2 <= b * (lz_gamma p ^ 2 + d ^ 2) -> 0 <= b -> bump p mu <= b.
Proof.
  intros G H Hd Far B Hb. unfold bump. pose proof (pow_lt _ 2 G) as G2. pose proof (pow2_ge_0 (mu - lz_mu0 p)) as D.
  apply div_le; [lra|]. eapply Rle_trans; [exact B|]. apply Rmult_le_compat_l; [exact Hb|].
  assert (Q : d ^ 2 <= (mu - lz_mu0 p) ^ 2).
  { destruct Far as [F|F]; [apply pow_incr; lra|]. replace ((mu - lz_mu0 p) ^ 2) with ((- (mu - lz_mu0 p)) ^ 2) by ring. apply pow_incr; lra. }
  lra.
Qed.
Lemma bump_centre p : 0 < lz_gamma p -> bump p (lz_mu0 p) = lz_height p.
Proof. intros G. unfold bump. pose proof (pow_lt _ 2 G). field. replace (lz_mu0 p - lz_mu0 p) with 0 by ring. lra. Qed.

(** The response of the default sensor to a potential. *)
Definition base : R := 5 * (-0.253275).
Lemma response_bumps mu : Rsum (map (fun p => sensor_function p mu) (map lorentz_peak default_peaks)) = base + Rsum (map (fun p => bump p mu) default_peaks).
Proof.
  cbn [map default_peaks Rsum lorentz_peak sensor_function peak_fun ModelSensor.mu0]. unfold sensor_function, lorentz_peak. cbn [peak_fun ModelSensor.mu0 lz_mu0 lz_gamma lz_height lz_offset].
  unfold sensor_response_lorentz, bump, base. cbn [lz_mu0 lz_gamma lz_height lz_offset]. lra.
Qed.
Lemma bumps_low mu : 0 < Rsum (map (fun p => bump p mu) default_peaks).
Proof.
  unfold default_peaks. cbn [map Rsum].
  repeat match goal with |- context [bump ?p mu] => let H := fresh in assert (H : 0 < bump p mu) by (apply bump_pos; cbn; lra); revert H; generalize (bump p mu); intros end.
  lra.
Qed.
Lemma bumps_high mu : Rsum (map (fun p => bump p mu) default_peaks) < 0.05.
Proof.
  unfold default_peaks. cbn [map Rsum].
  assert (T : forall p, 0 < lz_gamma p -> 0 < lz_height p -> bump p mu <= lz_height p) by (intros; apply bump_top; assumption).
  assert (F : forall p b, 0 < lz_gamma p -> 0 < lz_height p -> 0 <= b -> lz_height p * lz_gamma p ^ 2 <= b * (lz_gamma p ^ 2 + 0.0025 ^ 2) ->
    (0.0025 <= mu - lz_mu0 p \/ mu - lz_mu0 p <= - 0.0025) -> bump p mu <= b).
  { intros p b G H Hb B Far. apply (bump_far p mu 0.0025 b); auto; lra. }
  set (p1 := mk_lorentz (-0.12096) 0.00095 0.026245 (-0.253275)). set (p2 := mk_lorentz (-0.11596) 0.001 0.027245 (-0.253275)).
  set (p3 := mk_lorentz (-0.11096) 0.00105 0.028245 (-0.253275)). set (p4 := mk_lorentz (-0.10596) 0.0011 0.029245 (-0.253275)).
  set (p5 := mk_lorentz (-0.10096) 0.00115 0.030245 (-0.253275)).
  pose proof (T p1 ltac:(cbn; lra) ltac:(cbn; lra)) as T1. pose proof (T p2 ltac:(cbn; lra) ltac:(cbn; lra)) as T2.
  pose proof (T p3 ltac:(cbn; lra) ltac:(cbn; lra)) as T3. pose proof (T p4 ltac:(cbn; lra) ltac:(cbn; lra)) as T4.
  pose proof (T p5 ltac:(cbn; lra) ltac:(cbn; lra)) as T5.
  pose proof (F p1 0.0036 ltac:(cbn; lra) ltac:(cbn; lra) ltac:(lra) ltac:(cbn; lra)) as F1.
  pose proof (F p2 0.0040 ltac:(cbn; lra) ltac:(cbn; lra) ltac:(lra) ltac:(cbn; lra)) as F2.
  pose proof (F p3 0.0045 ltac:(cbn; lra) ltac:(cbn; lra) ltac:(lra) ltac:(cbn; lra)) as F3.
  pose proof (F p4 0.0050 ltac:(cbn; lra) ltac:(cbn; lra) ltac:(lra) ltac:(cbn; lra)) as F4.
  pose proof (F p5 0.0055 ltac:(cbn; lra) ltac:(cbn; lra) ltac:(lra) ltac:(cbn; lra)) as F5.
  clear T F. cbn [p1 p2 p3 p4 p5 lz_mu0 lz_gamma lz_height] in *.
  destruct (Rle_lt_dec mu (-0.11846)) as [H|H1]; [specialize (F2 ltac:(lra)); specialize (F3 ltac:(lra)); specialize (F4 ltac:(lra)); specialize (F5 ltac:(lra)); lra|].
  destruct (Rle_lt_dec mu (-0.11346)) as [H|H2]; [specialize (F1 ltac:(lra)); specialize (F3 ltac:(lra)); specialize (F4 ltac:(lra)); specialize (F5 ltac:(lra)); lra|].
  destruct (Rle_lt_dec mu (-0.10846)) as [H|H3]; [specialize (F1 ltac:(lra)); specialize (F2 ltac:(lra)); specialize (F4 ltac:(lra)); specialize (F5 ltac:(lra)); lra|].
  destruct (Rle_lt_dec mu (-0.10346)) as [H|H4]; [specialize (F1 ltac:(lra)); specialize (F2 ltac:(lra)); specialize (F3 ltac:(lra)); specialize (F5 ltac:(lra)); lra|].
  specialize (F1 ltac:(lra)); specialize (F2 ltac:(lra)); specialize (F3 ltac:(lra)); specialize (F4 ltac:(lra)); lra.
Qed.

(** ** Peaks and valleys *)
Lemma peaks_made : Forall (fun p => new_lorentz (lz_mu0 p) (lz_gamma p) (lz_height p) (lz_offset p) = Ok p) default_peaks.
Proof.
  unfold default_peaks, new_lorentz, raise_if.
  repeat constructor; cbn [lz_mu0 lz_gamma lz_height lz_offset];
  match goal with |- context [Rleb ?a ?b] => assert (H : Rleb a b = false) by (apply Rleb_false; lra); rewrite H end; reflexivity.
Qed.
Lemma peak_high p : In p default_peaks -> 0.026 < Rsum (map (fun q => bump q (lz_mu0 p)) default_peaks).
Proof.
  assert (S : forall l mu, Forall (fun q => 0 < lz_gamma q /\ 0 < lz_height q) l -> 0 <= Rsum (map (fun q => bump q mu) l) /\ forall q, In q l -> bump q mu <= Rsum (map (fun q => bump q mu) l)).
  { induction 1 as [|q l [G H] _ [IH1 IH2]]; cbn; [split; [lra|contradiction]|]. pose proof (bump_pos q mu G H). split; [lra|].
    intros q' [<-|Hq]; [lra|]. specialize (IH2 q' Hq). lra. }
  assert (D : Forall (fun q => 0 < lz_gamma q /\ 0 < lz_height q) default_peaks) by (unfold default_peaks; repeat constructor; cbn; lra).
  intros Hp. destruct (S default_peaks (lz_mu0 p) D) as [_ Q]. specialize (Q p Hp). rewrite bump_centre in Q by (eapply Forall_forall in D; [apply D|exact Hp]).
  unfold default_peaks in Hp. cbn [In] in Hp. decompose [or] Hp; try contradiction; subst p; cbn [lz_height] in Q; lra.
Qed.
Lemma valley_low i p q : nth_error default_peaks i = Some p -> nth_error default_peaks (S i) = Some q ->
  Rsum (map (fun r => bump r ((lz_mu0 p + lz_mu0 q) / 2)) default_peaks) < 0.011.
Proof.
  intros Hp Hq.
  assert (F : forall r mu d b, 0 < lz_gamma r -> 0 < lz_height r -> 0 <= d -> (d <= mu - lz_mu0 r \/ mu - lz_mu0 r <= - d) ->
    lz_height r * lz_gamma r ^ 2 <= b * (lz_gamma r ^ 2 + d ^ 2) -> 0 <= b -> bump r mu <= b) by exact bump_far.
  destruct i as [|[|[|[|[|i]]]]]; cbn in Hp, Hq; try discriminate; injection Hp as <-; injection Hq as <-; cbn [lz_mu0 default_peaks map Rsum].
  - pose proof (F (mk_lorentz (-0.12096) 0.00095 0.026245 (-0.253275)) ((-0.12096 + -0.11596) / 2) 0.0025 0.003312 ltac:(cbn; lra) ltac:(cbn; lra) ltac:(lra) ltac:(cbn; lra) ltac:(cbn; lra) ltac:(lra)) as F0.
    pose proof (F (mk_lorentz (-0.11596) 0.001 0.027245 (-0.253275)) ((-0.12096 + -0.11596) / 2) 0.0025 0.003758 ltac:(cbn; lra) ltac:(cbn; lra) ltac:(lra) ltac:(cbn; lra) ltac:(cbn; lra) ltac:(lra)) as F1.
    pose proof (F (mk_lorentz (-0.11096) 0.00105 0.028245 (-0.253275)) ((-0.12096 + -0.11596) / 2) 0.0075 0.000543 ltac:(cbn; lra) ltac:(cbn; lra) ltac:(lra) ltac:(cbn; lra) ltac:(cbn; lra) ltac:(lra)) as F2.
    pose proof (F (mk_lorentz (-0.10596) 0.0011 0.029245 (-0.253275)) ((-0.12096 + -0.11596) / 2) 0.0125 0.000225 ltac:(cbn; lra) ltac:(cbn; lra) ltac:(lra) ltac:(cbn; lra) ltac:(cbn; lra) ltac:(lra)) as F3.
    pose proof (F (mk_lorentz (-0.10096) 0.00115 0.030245 (-0.253275)) ((-0.12096 + -0.11596) / 2) 0.0175 0.000131 ltac:(cbn; lra) ltac:(cbn; lra) ltac:(lra) ltac:(cbn; lra) ltac:(cbn; lra) ltac:(lra)) as F4.
    lra.
  - pose proof (F (mk_lorentz (-0.12096) 0.00095 0.026245 (-0.253275)) ((-0.11596 + -0.11096) / 2) 0.0075 0.000415 ltac:(cbn; lra) ltac:(cbn; lra) ltac:(lra) ltac:(cbn; lra) ltac:(cbn; lra) ltac:(lra)) as F0.
    pose proof (F (mk_lorentz (-0.11596) 0.001 0.027245 (-0.253275)) ((-0.11596 + -0.11096) / 2) 0.0025 0.003758 ltac:(cbn; lra) ltac:(cbn; lra) ltac:(lra) ltac:(cbn; lra) ltac:(cbn; lra) ltac:(lra)) as F1.
    pose proof (F (mk_lorentz (-0.11096) 0.00105 0.028245 (-0.253275)) ((-0.11596 + -0.11096) / 2) 0.0025 0.004236 ltac:(cbn; lra) ltac:(cbn; lra) ltac:(lra) ltac:(cbn; lra) ltac:(cbn; lra) ltac:(lra)) as F2.
    pose proof (F (mk_lorentz (-0.10596) 0.0011 0.029245 (-0.253275)) ((-0.11596 + -0.11096) / 2) 0.0075 0.000616 ltac:(cbn; lra) ltac:(cbn; lra) ltac:(lra) ltac:(cbn; lra) ltac:(cbn; lra) ltac:(lra)) as F3.
    pose proof (F (mk_lorentz (-0.10096) 0.00115 0.030245 (-0.253275)) ((-0.11596 + -0.11096) / 2) 0.0125 0.000254 ltac:(cbn; lra) ltac:(cbn; lra) ltac:(lra) ltac:(cbn; lra) ltac:(cbn; lra) ltac:(lra)) as F4.
    lra.
  - pose proof (F (mk_lorentz (-0.12096) 0.00095 0.026245 (-0.253275)) ((-0.11096 + -0.10596) / 2) 0.0125 0.000151 ltac:(cbn; lra) ltac:(cbn; lra) ltac:(lra) ltac:(cbn; lra) ltac:(cbn; lra) ltac:(lra)) as F0.
    pose proof (F (mk_lorentz (-0.11596) 0.001 0.027245 (-0.253275)) ((-0.11096 + -0.10596) / 2) 0.0075 0.000476 ltac:(cbn; lra) ltac:(cbn; lra) ltac:(lra) ltac:(cbn; lra) ltac:(cbn; lra) ltac:(lra)) as F1.
    pose proof (F (mk_lorentz (-0.11096) 0.00105 0.028245 (-0.253275)) ((-0.11096 + -0.10596) / 2) 0.0025 0.004236 ltac:(cbn; lra) ltac:(cbn; lra) ltac:(lra) ltac:(cbn; lra) ltac:(cbn; lra) ltac:(lra)) as F2.
    pose proof (F (mk_lorentz (-0.10596) 0.0011 0.029245 (-0.253275)) ((-0.11096 + -0.10596) / 2) 0.0025 0.004744 ltac:(cbn; lra) ltac:(cbn; lra) ltac:(lra) ltac:(cbn; lra) ltac:(cbn; lra) ltac:(lra)) as F3.
    pose proof (F (mk_lorentz (-0.10096) 0.00115 0.030245 (-0.253275)) ((-0.11096 + -0.10596) / 2) 0.0075 0.000695 ltac:(cbn; lra) ltac:(cbn; lra) ltac:(lra) ltac:(cbn; lra) ltac:(cbn; lra) ltac:(lra)) as F4.
    lra.
  - pose proof (F (mk_lorentz (-0.12096) 0.00095 0.026245 (-0.253275)) ((-0.10596 + -0.10096) / 2) 0.0175 0.000078 ltac:(cbn; lra) ltac:(cbn; lra) ltac:(lra) ltac:(cbn; lra) ltac:(cbn; lra) ltac:(lra)) as F0.
    pose proof (F (mk_lorentz (-0.11596) 0.001 0.027245 (-0.253275)) ((-0.10596 + -0.10096) / 2) 0.0125 0.000174 ltac:(cbn; lra) ltac:(cbn; lra) ltac:(lra) ltac:(cbn; lra) ltac:(cbn; lra) ltac:(lra)) as F1.
    pose proof (F (mk_lorentz (-0.11096) 0.00105 0.028245 (-0.253275)) ((-0.10596 + -0.10096) / 2) 0.0075 0.000543 ltac:(cbn; lra) ltac:(cbn; lra) ltac:(lra) ltac:(cbn; lra) ltac:(cbn; lra) ltac:(lra)) as F2.
    pose proof (F (mk_lorentz (-0.10596) 0.0011 0.029245 (-0.253275)) ((-0.10596 + -0.10096) / 2) 0.0025 0.004744 ltac:(cbn; lra) ltac:(cbn; lra) ltac:(lra) ltac:(cbn; lra) ltac:(cbn; lra) ltac:(lra)) as F3.
    pose proof (F (mk_lorentz (-0.10096) 0.00115 0.030245 (-0.253275)) ((-0.10596 + -0.10096) / 2) 0.0025 0.005283 ltac:(cbn; lra) ltac:(cbn; lra) ltac:(lra) ltac:(cbn; lra) ltac:(cbn; lra) ltac:(lra)) as F4.
    lra.
Qed.

(** ** Crossing *)
Lemma crossing (P : nat -> R) mu n : P 0%nat <= mu -> mu < P n -> exists k, (k < n)%nat /\ P k <= mu < P (S k).
Proof.
  intros H0. induction n as [|n IH]; intros Hn; [lra|]. destruct (Rle_lt_dec (P n) mu) as [H|H].
  - exists n. split; [lia|lra].
  - destruct (IH H) as (k & Hk & Q). exists k. split; [lia|exact Q].
Qed.
Section Default.
Context {W : Type}.
Variable label : arr2 nat -> arr2 nat.
Hypothesis Lab : forall m, is_labelling m (label m).
Notation cfg := (plain_config (W := W) label (Some limits_g1) (Some limits_g2) default_csd default_sensor_v1).
Notation pot := (affine (gs_offset default_sensor_v1) (gs_gate default_sensor_v1) (gs_dot default_sensor_v1)).

Lemma default_values a1 b1 a2 b2 v1 v2 res (w w' : W) m : measure cfg [a1; b1] [a2; b2] v1 v2 res w = (Ok m, w') ->
  forall v o lab y, measured_pixel m (a1, b1) (a2, b2) v o lab y -> 5 * (-0.253275) < y < 5 * (-0.253275) + 0.05.
Proof.
  intros M v o lab y Px.
  destruct (measured_pixels label default_csd default_sensor_v1 (map lorentz_peak default_peaks) _ _ _ _ _ _ _ _ _ _ _ _ eq_refl ltac:(discriminate) (default_config label Lab) M v o lab y Px) as [-> _].
  rewrite response_bumps. pose proof (bumps_low (pot v o)). pose proof (bumps_high (pot v o)). unfold base. lra.
Qed.
Lemma default_line n (w : W) : (2 <= n)%nat ->
  exists m, measure cfg [fst limits_g1; snd limits_g1] [fst limits_g2; snd limits_g2] None None (ResInt (Z.of_nat n)) w = (Ok m, w) /\
  forall p, In p default_peaks -> exists k v v' o o' y y',
    numbered_pixel m limits_g1 limits_g2 k v o y /\ numbered_pixel m limits_g1 limits_g2 (S k) v' o' y' /\
    pot v o <= lz_mu0 p < pot v' o'.
Proof.
  intros Hn. pose proof (default_config label Lab) as C.
  pose proof (measure_outcome label default_csd default_sensor_v1 (Some limits_g1) (Some limits_g2) (fst limits_g1) (snd limits_g1) (fst limits_g2) (snd limits_g2)
    (ResInt (Z.of_nat n)) w C) as O.
  assert (Wf : well_formed_request [fst limits_g1; snd limits_g1] [fst limits_g2; snd limits_g2] (res_list (ResInt (Z.of_nat n)))).
  { exists (fst limits_g1), (snd limits_g1), (fst limits_g2), (snd limits_g2). split; [reflexivity|]. split; [reflexivity|]. split; [simpl; lia|]. simpl. intros F. discriminate. }
  specialize (O Wf ltac:(discriminate) ltac:(repeat constructor; lia) ltac:(cbn; lra) ltac:(cbn; lra)). cbv zeta in O.
  destruct (default_1d label Lab (fst limits_g1) (snd limits_g1) (fst limits_g2) (snd limits_g2) (ResInt (Z.of_nat n)) n eq_refl) as [d Ed].
  rewrite Ed in O. destruct O as [m M]. exists m. split; [exact M|]. intros p Hp.
  pose proof (measured_pixels label default_csd default_sensor_v1 (map lorentz_peak default_peaks) _ _ _ _ _ _ _ _ _ _ _ _ eq_refl ltac:(discriminate) C M) as Px.
  destruct (measured_shape_ok label default_csd default_sensor_v1 (map lorentz_peak default_peaks) _ _ _ _ _ _ _ _ _ _ _ _ eq_refl ltac:(discriminate) C M) as (nc & nr & Sh & Rs & Ex).
  destruct (measure_inv label _ _ _ _ _ _ _ _ _ _ _ _ M) as (c1 & e1 & c2 & e2 & d' & im & E1 & E2 & Ed' & _ & M1 & M2 & M3 & _).
  injection E1 as <- <-. injection E2 as <- <-. cbn [fst snd limits_g1 limits_g2] in Ed. rewrite Ed in Ed'. injection Ed' as <-.
  pose proof (ideal_shape label default_csd _ _ _ _ _ _ C Ed) as Is. destruct d as [occ lead|occ lead].
  2: { destruct Is as (nx & ny & Q & _). discriminate. }
  destruct Is as (n' & Q & Lo & _). injection Q as Q. apply Nat2Z.inj in Q. subst n'. cbn [csd_arrays fst snd] in M2, M3.
  destruct Rs as [[Q ->]|Q]; [|discriminate]. injection Q as Q. apply Nat2Z.inj in Q. subst nc. cbn [res_list] in Ex.
  (* all pixels *)
  assert (Pix : forall k, (k < n)%nat -> let v := (pixel_voltage limits_g1 n k, pixel_voltage limits_g2 n k) in
    exists o y, o = cell1 (of_list1 (0, 0) occ) k /\ numbered_pixel m limits_g1 limits_g2 k v o y /\ 0 <= fst o /\ 0 <= snd o /\ fst o + snd o <= 13).
  { intros k Hk v. destruct (Ex 0%nat 0%nat ltac:(lia) ltac:(lia)) as (v0 & o0 & lab0 & y0 & Q0 & _).
    unfold measured_pixel in Q0, Px. unfold numbered_pixel. rewrite M2, M3 in *. destruct (m_csd m) as [[c|c]|]; try contradiction.
    destruct Q0 as (i0 & Hi0 & Lc & Ll & _). cbn [len1 of_list1] in Lc, Ll, Hi0. rewrite Lo in Lc, Ll.
    exists (cell1 (of_list1 (0, 0) occ) k), (cell1 c k). split; [reflexivity|]. split.
    { cbn [len1 of_list1]. rewrite Lo. auto 10. }
    destruct (nth_error lead k) as [lb|] eqn:El; [|apply nth_error_None in El; lia].
    destruct (Px v (cell1 (of_list1 (0, 0) occ) k) lb (cell1 c k)) as (_ & B1 & B2 & N & HN & B3).
    { exists k. cbn [len1 of_list1]. rewrite Lo. auto 10. }
    split; [exact B1|]. split; [exact B2|]. rewrite B3. change (length (g_tcts default_csd)) with 14%nat in HN.
    replace 13 with (INR 13) by (simpl; lra). apply le_INR. lia. }
  set (P := fun k => pot (pixel_voltage limits_g1 n k, pixel_voltage limits_g2 n k) (cell1 (of_list1 (0, 0) occ) k)).
  assert (B : -0.12096 <= lz_mu0 p <= -0.10096).
  { unfold default_peaks in Hp. cbn [In] in Hp. decompose [or] Hp; try contradiction; subst p; cbn; lra. }
  assert (P0 : P 0%nat <= lz_mu0 p).
  { destruct (Pix 0%nat ltac:(lia)) as (o & y & Eo & _ & B1 & B2 & _). unfold P. rewrite <- Eo. unfold affine, pixel_voltage, limits_g1, limits_g2. cbn. lra. }
  assert (P1 : lz_mu0 p < P (n - 1)%nat).
  { destruct (Pix (n - 1)%nat ltac:(lia)) as (o & y & Eo & _ & B1 & B2 & B3). unfold P. rewrite <- Eo.
    assert (V : forall l, pixel_voltage l n (n - 1) = snd l).
    { intros l. unfold pixel_voltage. field. apply not_0_INR. lia. }
    rewrite !V. unfold affine, limits_g1, limits_g2. cbn. lra. }
  destruct (crossing P (lz_mu0 p) (n - 1) P0 P1) as (k & Hk & Q).
  destruct (Pix k ltac:(lia)) as (o & y & -> & Pk & _). destruct (Pix (S k) ltac:(lia)) as (o' & y' & -> & Pk' & _).
  eexists k, _, _, _, _, y, y'. split; [exact Pk|]. split; [exact Pk'|]. exact Q.
Qed.
End Default.

(** ** By number *)
Definition nth_peak (i : nat) : lorentz := nth i default_peaks (mk_lorentz 0 0 0 0).
Lemma nth_peak_spec i : (i <= 4)%nat -> In (nth_peak i) default_peaks /\ nth_error default_peaks i = Some (nth_peak i) /\ lz_mu0 (nth_peak i) = -0.12096 + 0.005 * INR i.
Proof.
  intros Hi. split; [apply nth_In; cbn; lia|]. split; [apply nth_error_nth'; cbn; lia|].
  destruct i as [|[|[|[|[|i]]]]]; [| | | | |lia]; cbn; lra.
Qed.
Lemma resolved ps : gs_peaks default_sensor_v1 = Some ps ->
  let f := fun mu => Rsum (map (fun p => sensor_function p mu) ps) - 5 * (-0.253275) in
  (forall i, (i <= 4)%nat -> 0.026 < f (-0.12096 + 0.005 * INR i)) /\
  (forall i, (i <= 3)%nat -> f (-0.12096 + 0.005 * INR i + 0.0025) < 0.011).
Proof.
  intros E. injection E as <-. cbv zeta. split; intros i Hi; rewrite response_bumps; unfold base.
  - destruct (nth_peak_spec i Hi) as (H1 & _ & <-). pose proof (peak_high _ H1). lra.
  - destruct (nth_peak_spec i ltac:(lia)) as (_ & E1 & M1). destruct (nth_peak_spec (S i) ltac:(lia)) as (_ & E2 & M2).
    pose proof (valley_low i _ _ E1 E2) as V. rewrite M1, M2, S_INR in V.
    replace (-0.12096 + 0.005 * INR i + 0.0025) with ((-0.12096 + 0.005 * INR i + (-0.12096 + 0.005 * (INR i + 1))) / 2) by lra. lra.
Qed.
Lemma default_crossed {W} label (Lab : forall m, is_labelling m (label m)) n (w : W) : (2 <= n)%nat ->
  exists m, measure (plain_config label (Some limits_g1) (Some limits_g2) default_csd default_sensor_v1)
    [fst limits_g1; snd limits_g1] [fst limits_g2; snd limits_g2] None None (ResInt (Z.of_nat n)) w = (Ok m, w) /\
  forall i, (i <= 4)%nat -> exists k v v' o o' y y',
    numbered_pixel m limits_g1 limits_g2 k v o y /\ numbered_pixel m limits_g1 limits_g2 (S k) v' o' y' /\
    let pot := affine (gs_offset default_sensor_v1) (gs_gate default_sensor_v1) (gs_dot default_sensor_v1) in
    pot v o <= -0.12096 + 0.005 * INR i < pot v' o'.
Proof.
  intros Hn. destruct (default_line label Lab n w Hn) as (m & M & H). exists m. split; [exact M|]. intros i Hi.
  destruct (nth_peak_spec i Hi) as (H1 & _ & <-). exact (H _ H1).
Qed.
