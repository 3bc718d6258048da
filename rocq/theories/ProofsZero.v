(** Proofs about interdot transitions of no width. *)
From Verif Require Import RPrelude Arr ModelSupport ModelTct ModelCsd SpecSupport SpecTct SpecCsd SpecZero ProofsSupport ProofsTct ProofsOcc ProofsScan ModelDefault ProofsDefault.
Local Open Scope R_scope.

Lemma width_close g u l po : 0 < g -> u <> l -> no_coupling g u l po ->
  isclose0 (- cross (vec u l) (coupling_vector po) / sqrt (fst (vec u l) ^ 2 + snd (vec u l) ^ 2) / g) = true.
Proof.
  intros Hg Hul Hw. pose proof (vec_norm_pos u l Hul) as N. unfold no_coupling, width_across in Hw. rewrite dist2_vec in Hw. set (nn := sqrt _) in *. set (w := cross _ _) in *.
  destruct (isclose0_spec (- w / nn / g)) as [|H]; [reflexivity|exfalso].
  replace (- w / nn / g) with (- (w / (nn * g))) in H by (field; lra). rewrite Rabs_Ropp in H. unfold Rdiv in H. rewrite Rabs_mult, (Rabs_pos_eq (/ (nn * g))) in H by (left; apply Rinv_0_lt_compat; nra).
  assert (Q : 1 / 100000000 * (nn * g) < Rabs w * / (nn * g) * (nn * g)) by (apply Rmult_lt_compat_r; [nra|lra]).
  rewrite Rmult_assoc, Rinv_l in Q by nra. nra.
Qed.
Lemma cdf_step kind f x x0 g : cdf_of kind f -> isclose0 g = true -> f x x0 g = step_cdf x x0.
Proof. intros [[_ ->]|[_ ->]] H; unfold sigmoid_cdf, cauchy_cdf; rewrite H; reflexivity. Qed.
Lemma cdf_range kind f x x0 g : cdf_of kind f -> 0 <= f x x0 g <= 1.
Proof. intros [[_ ->]|[_ ->]]; [apply sigmoid_cdf_bound|apply cauchy_cdf_bound]. Qed.
(** The step of a transition without width *)
Lemma step_side u l po k q : u <> l -> side u l po k q <> 0 ->
  step_cdf (line_distance u l q) (line_distance u l (peak_point po l k)) = if Rltb (side u l po k q) 0 then 1 else 0.
Proof.
  intros Hul Hs. unfold step_cdf. rewrite line_distance_diff. fold (side u l po k q). pose proof (vec_norm_pos u l Hul) as N. set (nn := sqrt _) in *. set (s := side u l po k q) in *.
  assert (P : 0 < / nn) by (apply Rinv_0_lt_compat; auto). unfold Rdiv. destruct (Rltb_spec s 0) as [H|H].
  - rewrite Rltb_true by nra. reflexivity.
  - rewrite Rltb_false by nra. rewrite Rltb_true by nra. reflexivity.
Qed.

Section Zero.
Variables (label : arr2 nat -> arr2 nat) (params : list tct_params) (rot : R) (lut : option nat) (kind : cdf_kind) (gf : option R)
  (res : resolution) (d : csd_data) (a1 b1 a2 b2 : R) (v : point) (o : R * R) (lab n : nat) (u l : point) (po : tct_params).
Hypothesis (C : csd_config label params lut kind gf)
  (H : ideal_csd_geometric label params [a1; b1] [a2; b2] res rot lut kind gf = Ok d)
  (Px : scan_pixel d (a1, b1) (a2, b2) v o lab) (Sum : fst o + snd o = INR n) (Hn : (1 <= n)%nat)
  (I : interdot_line params n u l) (Ep : nth_error params (n - 1) = Some po)
  (G : 0 < gamma_of kind gf).
Lemma some_cdf : exists f, cdf_of kind f.
Proof. destruct C as (_ & _ & K & _). destruct kind; [exists sigmoid_cdf; left; auto|exists cauchy_cdf; right; auto|congruence]. Qed.
Lemma line_proper : u <> l.
Proof. destruct C as (_ & _ & _ & _ & _ & X). eapply X; eauto. Qed.
Lemma zero_sum : no_coupling (gamma_of kind gf) u l po -> (forall k, (k < n)%nat -> side u l po k (tct_view rot v) <> 0) ->
  fst o = Rsum (map (fun k => if Rltb (side u l po k (tct_view rot v)) 0 then 1 else 0) (seq 0 n)).
Proof.
  intros W Ns. destruct some_cdf as [f Cf]. rewrite (scan_dot1 _ _ _ _ _ _ _ _ _ _ _ _ _ _ _ _ _ n u l po f C eq_refl eq_refl H Px Sum Hn I Ep Cf).
  unfold dot1_formula. f_equal. apply map_ext_in. intros k Hk. apply in_seq in Hk.
  rewrite (cdf_step kind f _ _ _ Cf (width_close _ u l po G line_proper W)). apply step_side; [exact line_proper|apply Ns; lia].
Qed.
Lemma Rsum_const {A} (f : A -> R) b l0 : (forall x, In x l0 -> f x = b) -> Rsum (map f l0) = INR (length l0) * b.
Proof.
  intros E. apply Rle_antisym; [apply Rsum_le_const|apply Rsum_ge_const]; intros x Hx; rewrite (E x Hx); lra.
Qed.
Lemma Rsum_app (a b : list R) : Rsum (a ++ b) = Rsum a + Rsum b.
Proof. induction a as [|x a IH]; cbn [app Rsum]; [simpl; lra|]. unfold Rsum in *. cbn [fold_right app]. rewrite IH. lra. Qed.
Lemma zero_exact m : no_coupling (gamma_of kind gf) u l po -> past u l po n m (tct_view rot v) -> o = (INR (n - m), INR m).
Proof.
  intros W (Hm & A & B). assert (E : fst o = INR (n - m)).
  { rewrite zero_sum; [|exact W|].
    - replace n with (m + (n - m))%nat at 1 by lia. rewrite seq_app, map_app, Rsum_app.
      rewrite (Rsum_const _ 0), (Rsum_const _ 1); [rewrite !seq_length; lra|..].
      + intros k Hk. apply in_seq in Hk. rewrite Rltb_true; [reflexivity|]. apply B. lia.
      + intros k Hk. apply in_seq in Hk. rewrite Rltb_false; [reflexivity|]. specialize (A k ltac:(lia)). lra.
    - intros k Hk. destruct (Nat.lt_ge_cases k m) as [L|L]; [specialize (A k L)|specialize (B k (conj L Hk))]; lra. }
  rewrite (surjective_pairing o). f_equal; [exact E|]. rewrite minus_INR in E by exact Hm. lra.
Qed.

(** The same pixel with a narrow coupling *)
Lemma narrow_term f k t : cdf_of kind f -> 0 < t -> ~ no_coupling (gamma_of kind gf) u l po ->
  t * Rabs (width_across u l po) <= Rabs (side u l po k (tct_view rot v)) ->
  Rabs (f (line_distance u l (tct_view rot v)) (line_distance u l (peak_point po l k))
     (- cross (vec u l) (coupling_vector po) / sqrt (fst (vec u l) ^ 2 + snd (vec u l) ^ 2) / gamma_of kind gf) -
     (if Rltb 0 (side u l po k (tct_view rot v) * width_across u l po) then 1 else 0)) <= / (gamma_of kind gf * t).
Proof.
  intros Cf Ht Nw Hs. pose proof line_proper as Hul. pose proof (vec_norm_pos u l Hul) as N. unfold no_coupling in Nw. rewrite dist2_vec in Nw. unfold width_across in *. set (g := gamma_of kind gf) in *. set (nn := sqrt _) in *.
  set (w := cross (vec u l) (coupling_vector po)) in *. set (s := side u l po k (tct_view rot v)) in *.
  assert (W : 1 / 100000000 * g * nn < Rabs w) by lra.
  assert (W0 : w <> 0) by (intros E; rewrite E, Rabs_R0 in W; nra).
  assert (Gam : 1 / 100000000 < Rabs (- w / nn / g)).
  { unfold Rdiv. rewrite !Rabs_mult, Rabs_Ropp. rewrite (Rabs_pos_eq (/ nn)), (Rabs_pos_eq (/ g)) by (left; apply Rinv_0_lt_compat; auto).
    apply (Rmult_lt_reg_r (nn * g)); [nra|]. replace (Rabs w * / nn * / g * (nn * g)) with (Rabs w) by (field; lra). nra. }
  destruct (cdf_tail kind f (line_distance u l (tct_view rot v)) (line_distance u l (peak_point po l k)) (- w / nn / g) (g * s / w) Cf Gam) as [T1 T2].
  { rewrite line_distance_diff. fold nn. fold (side u l po k (tct_view rot v)). fold s. field. repeat split; auto; lra. }
  pose proof (cdf_range kind f (line_distance u l (tct_view rot v)) (line_distance u l (peak_point po l k)) (- w / nn / g) Cf) as Rg.
  set (F := f _ _ _) in *.
  assert (Tb : g * t <= Rabs (g * s / w)).
  { unfold Rdiv. rewrite !Rabs_mult, (Rabs_pos_eq g) by lra. rewrite Rabs_inv. assert (0 < Rabs w) by (apply Rabs_pos_lt; exact W0).
    apply (Rmult_le_reg_r (Rabs w)); [assumption|]. replace (g * Rabs s * / Rabs w * Rabs w) with (g * Rabs s) by (field; lra). nra. }
  assert (Pt : 0 < g * t) by nra.
  destruct (Rltb_spec 0 (s * w)) as [P|P].
  - assert (X : 0 < g * s / w). { replace (g * s / w) with (g * (s * w) * (/ w * / w)) by (field; exact W0). apply Rmult_lt_0_compat; [nra|]. assert (0 < (/ w) * (/ w)); [|assumption]. pose proof (Rinv_neq_0_compat w W0). nra. }
    rewrite (Rabs_pos_eq (g * s / w)) in Tb by lra. specialize (T1 X). assert (/ (g * s / w) <= / (g * t)) by (apply Rinv_le_contravar; lra). apply Rabs_le. lra.
  - assert (X : g * s / w < 0).
    { assert (S0 : s <> 0). { intros E. rewrite E, Rabs_R0 in Hs. assert (0 < Rabs w) by (apply Rabs_pos_lt; exact W0). nra. }
      assert (s * w < 0). { assert (s * w <> 0) by (apply Rmult_integral_contrapositive_currified; assumption). destruct (Rtotal_order (s * w) 0) as [Q|[Q|Q]]; [exact Q|contradiction|lra]. }
      replace (g * s / w) with (g * (s * w) * (/ w * / w)) by (field; exact W0). pose proof (Rinv_neq_0_compat w W0). assert (0 < (/ w) * (/ w)) by nra. assert (g * (s * w) < 0) by nra. nra. }
    rewrite (Rabs_left (g * s / w)) in Tb by exact X. specialize (T2 X). assert (/ - (g * s / w) <= / (g * t)) by (apply Rinv_le_contravar; lra). apply Rabs_le. lra.
Qed.
Lemma narrow_sum t : 0 < t -> ~ no_coupling (gamma_of kind gf) u l po -> (forall k, (k < n)%nat -> t * Rabs (width_across u l po) <= Rabs (side u l po k (tct_view rot v))) ->
  Rabs (fst o - Rsum (map (fun k => if Rltb 0 (side u l po k (tct_view rot v) * width_across u l po) then 1 else 0) (seq 0 n))) <= INR n / (gamma_of kind gf * t).
Proof.
  intros Ht Nw Hs. destruct some_cdf as [f Cf]. rewrite (scan_dot1 _ _ _ _ _ _ _ _ _ _ _ _ _ _ _ _ _ n u l po f C eq_refl eq_refl H Px Sum Hn I Ep Cf).
  unfold dot1_formula.
  assert (K : forall ks, (forall k, In k ks -> (k < n)%nat) -> Rabs (Rsum (map (fun k => f (line_distance u l (tct_view rot v)) (line_distance u l (peak_point po l k))
     (- cross (vec u l) (coupling_vector po) / sqrt (fst (vec u l) ^ 2 + snd (vec u l) ^ 2) / gamma_of kind gf)) ks) -
     Rsum (map (fun k => if Rltb 0 (side u l po k (tct_view rot v) * width_across u l po) then 1 else 0) ks)) <= INR (length ks) / (gamma_of kind gf * t)).
  { induction ks as [|k ks IH]; intros Hk.
    - cbn [map length Rsum]. rewrite Rminus_0_r, Rabs_R0. simpl. unfold Rdiv. lra.
    - specialize (IH (fun j Hj => Hk j (or_intror Hj))). pose proof (narrow_term f k t Cf Ht Nw (Hs k (Hk k (or_introl eq_refl)))) as T.
      cbn [map length Rsum]. rewrite S_INR. set (x := f _ _ _) in *. set (y := if Rltb _ _ then 1 else 0) in *.
      match goal with |- Rabs (x + ?a - (y + ?b)) <= _ => set (X := a) in *; set (Y := b) in * end. replace (x + X - (y + Y)) with ((x - y) + (X - Y)) by ring.
      eapply Rle_trans; [apply Rabs_triang|]. unfold Rdiv in *. lra. }
  specialize (K (seq 0 n)). rewrite seq_length in K. apply K. intros k Hk. apply in_seq in Hk. lia.
Qed.
Lemma narrow_exact m t : 0 < t -> ~ no_coupling (gamma_of kind gf) u l po -> (forall k, (k < n)%nat -> t * Rabs (width_across u l po) <= Rabs (side u l po k (tct_view rot v))) ->
  past u l po n m (tct_view rot v) ->
  let (a, b) := if Rltb 0 (width_across u l po) then (m, n - m)%nat else (n - m, m)%nat in
  Rabs (fst o - INR a) <= INR n / (gamma_of kind gf * t) /\ Rabs (snd o - INR b) <= INR n / (gamma_of kind gf * t).
Proof.
  intros Ht Nw Hs (Hm & A & B). pose proof (narrow_sum t Ht Nw Hs) as K.
  assert (W0 : width_across u l po <> 0).
  { intros E. apply Nw. unfold no_coupling. rewrite E, Rabs_R0. rewrite dist2_vec. pose proof (vec_norm_pos u l line_proper). nra. }
  assert (E : forall p q, (forall k, (k < m)%nat -> (if Rltb 0 (side u l po k (tct_view rot v) * width_across u l po) then 1 else 0) = p) ->
    (forall k, (m <= k < n)%nat -> (if Rltb 0 (side u l po k (tct_view rot v) * width_across u l po) then 1 else 0) = q) ->
    Rsum (map (fun k => if Rltb 0 (side u l po k (tct_view rot v) * width_across u l po) then 1 else 0) (seq 0 n)) = INR m * p + INR (n - m) * q).
  { intros p q P Q. replace n with (m + (n - m))%nat at 1 by lia. rewrite seq_app, map_app, Rsum_app. rewrite (Rsum_const _ p), (Rsum_const _ q); [rewrite !seq_length; reflexivity|..].
    - intros k Hk. apply in_seq in Hk. apply Q. lia.
    - intros k Hk. apply in_seq in Hk. apply P. lia. }
  assert (D : snd o = INR n - fst o) by lra. rewrite D.
  destruct (Rltb_spec 0 (width_across u l po)) as [P|P].
  - rewrite (E 1 0) in K.
    + rewrite minus_INR by exact Hm. replace (INR n - fst o - (INR n - INR m)) with (- (fst o - INR m)) by ring. rewrite Rabs_Ropp.
      replace (INR m * 1 + INR (n - m) * 0) with (INR m) in K by ring. auto.
    + intros k Hk. rewrite Rltb_true; [reflexivity|]. specialize (A k Hk). nra.
    + intros k Hk. rewrite Rltb_false; [reflexivity|]. specialize (B k Hk). nra.
  - rewrite (E 0 1) in K.
    + replace (INR m * 0 + INR (n - m) * 1) with (INR (n - m)) in K by ring. split; [exact K|].
      rewrite minus_INR in K by exact Hm. replace (INR n - fst o - INR m) with (- (fst o - (INR n - INR m))) by ring. rewrite Rabs_Ropp. exact K.
    + intros k Hk. rewrite Rltb_false; [reflexivity|]. specialize (A k Hk). nra.
    + intros k Hk. rewrite Rltb_true; [reflexivity|]. specialize (B k Hk). nra.
Qed.
End Zero.

(** ** The sign of the width *)
Lemma width_positive u l po : admissible po -> corner po l -> above_edges u l po -> start_x po < end_x po -> 0 < width_across u l po.
Proof.
  intros (Hs & _ & c & [C1 C2] & [B1 B2] & _) [D1 D2] [E1 E2] W.
  assert (Q : fst c = fst l).
  { assert (Z : (slope_left po - slope_right po) * (fst c - fst l) = 0) by lra. apply Rmult_integral in Z. destruct Z; lra. }
  rewrite Q in *. unfold width_across, cross, vec, coupling_vector. cbn [fst snd].
  assert (Y : end_y po - start_y po = slope_left po * (fst l - start_x po) + slope_right po * (end_x po - fst l)) by lra. rewrite Y.
  replace ((fst l - fst u) * (slope_left po * (fst l - start_x po) + slope_right po * (end_x po - fst l)) - (snd l - snd u) * (end_x po - start_x po))
    with ((fst l - start_x po) * (snd u - snd l - slope_left po * (fst u - fst l)) + (end_x po - fst l) * (snd u - snd l - slope_right po * (fst u - fst l))) by ring.
  assert (P1 : 0 <= (fst l - start_x po) * (snd u - snd l - slope_left po * (fst u - fst l))) by (apply Rmult_le_pos; lra).
  assert (P2 : 0 <= (end_x po - fst l) * (snd u - snd l - slope_right po * (fst u - fst l))) by (apply Rmult_le_pos; lra).
  destruct (Rlt_dec (start_x po) (fst l)) as [T|T].
  - assert (0 < (fst l - start_x po) * (snd u - snd l - slope_left po * (fst u - fst l))) by (apply Rmult_lt_0_compat; lra). lra.
  - assert (0 < (end_x po - fst l) * (snd u - snd l - slope_right po * (fst u - fst l))) by (apply Rmult_lt_0_compat; lra). lra.
Qed.
Lemma width_zero u l po : admissible po -> start_x po = end_x po -> width_across u l po = 0.
Proof.
  intros (_ & _ & c & [C1 C2] & [B1 B2] & _) W. unfold width_across, cross, vec, coupling_vector. cbn [fst snd].
  assert (fst c = start_x po) as Q by lra. rewrite Q in C1, C2. rewrite W in *.
  assert (snd c = start_y po) by lra. assert (end_y po = snd c) by lra. replace (end_y po - start_y po) with 0 by lra. ring.
Qed.
Lemma not_zero_width g u l po : admissible po -> 0 < g -> ~ no_coupling g u l po -> start_x po < end_x po.
Proof.
  intros A Hg H. destruct (Req_dec (start_x po) (end_x po)) as [E|E].
  - exfalso. apply H. unfold no_coupling. rewrite (width_zero u l po A E), Rabs_R0. apply Rmult_le_pos; [lra|]. unfold dist2. apply sqrt_pos.
  - destruct A as (_ & _ & c & _ & B & _). lra.
Qed.
Lemma default_edges n u l po : (1 <= n)%nat -> interdot_line default_tcts n u l -> nth_error default_tcts (n - 1) = Some po -> above_edges u l po.
Proof.
  intros Hn (pu & cu & po' & Eu & Cu & -> & Eo & Co) Ep. rewrite Eo in Ep. injection Ep as ->.
  assert (Hn' : (n < 14)%nat) by (change 14%nat with (length default_tcts); apply nth_error_Some; congruence).
  unfold above_edges. destruct cu as [cx cy], l as [lx ly]. unfold default_tcts in *.
  destruct n as [|[|[|[|[|[|[|[|[|[|[|[|[|[|n]]]]]]]]]]]]]]; try (exfalso; lia).
  all: cbn [nth_error Nat.sub] in Eu, Eo; injection Eu as <-; injection Eo as <-.
  all: destruct Cu as [C1 C2], Co as [C3 C4]; numbers; split; lra.
Qed.
Lemma exchanged label params rot lut kind gf res d a1 b1 a2 b2 v o lab n u l po m t :
  csd_config label params lut kind gf ->
  ideal_csd_geometric label params [a1; b1] [a2; b2] res rot lut kind gf = Ok d ->
  scan_pixel d (a1, b1) (a2, b2) v o lab -> fst o + snd o = INR n -> (1 <= n)%nat ->
  interdot_line params n u l -> nth_error params (n - 1) = Some po -> 0 < gamma_of kind gf ->
  0 < t -> ~ no_coupling (gamma_of kind gf) u l po -> above_edges u l po ->
  (forall k, (k < n)%nat -> t * width_across u l po <= Rabs (side u l po k (tct_view rot v))) ->
  past u l po n m (tct_view rot v) ->
  Rabs (fst o - INR m) <= INR n / (gamma_of kind gf * t) /\ Rabs (snd o - INR (n - m)) <= INR n / (gamma_of kind gf * t).
Proof.
  intros Cfg E Px Tot Hn Line Po Hg Ht Nw Ab Far Past.
  assert (A : admissible po).
  { destruct Cfg as (F & _). unfold proper_tcts in F. rewrite Forall_forall in F. apply nth_error_In in Po. exact (proj1 (F _ Po)). }
  assert (C : corner po l). { destruct Line as (pu & cu & po' & _ & _ & _ & Eo & Co). rewrite Po in Eo. injection Eo as <-. exact Co. }
  assert (W : 0 < width_across u l po) by (apply width_positive; auto; exact (not_zero_width _ u l po A Hg Nw)).
  assert (Far' : forall k, (k < n)%nat -> t * Rabs (width_across u l po) <= Rabs (side u l po k (tct_view rot v))).
  { rewrite Rabs_pos_eq by lra. exact Far. }
  pose proof (narrow_exact label params rot lut kind gf res d a1 b1 a2 b2 v o lab n u l po) as K.
  specialize (K Cfg E Px Tot Hn Line Po Hg m t Ht Nw Far' Past). rewrite Rltb_true in K by exact W. exact K.
Qed.
