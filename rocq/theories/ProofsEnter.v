(** Proofs about the dot that gets the electron at a lead transition. *)
From Verif Require Import RPrelude Arr ModelSupport ModelTct ModelCsd ModelInstance ModelSampling ModelConfigCsd ModelDefault
  SpecSupport SpecTct SpecCsd SpecOrder SpecInstance SpecSampling SpecConfigCsd SpecQuant SpecExchange SpecEnter
  ProofsSupport ProofsTct ProofsTctShape ProofsOcc ProofsScan ProofsConfigCsd ProofsDefault ProofsQuant ProofsTriple ProofsSmooth.
Local Open Scope R_scope.

(** ** Geometry *)
Lemma beyond_add u l po j q w : cross (vec u l) (coupling_vector po) <> 0 ->
  beyond u l po j (fst q + fst w, snd q + snd w) = beyond u l po j q + span u l po w.
Proof. intros D. unfold beyond, span, cross, vec. cbn [fst snd]. field. exact D. Qed.
Lemma beyond_peak u l po j k : cross (vec u l) (coupling_vector po) <> 0 ->
  beyond u l po j (peak_point po l k) = (INR k - INR j) * pitch u l po.
Proof. intros D. unfold beyond, pitch, cross, vec, peak_point, period_vector. cbn [fst snd]. field. exact D. Qed.
Lemma span_scale u l po s w : span u l po (s * fst w, s * snd w) = s * span u l po w.
Proof. unfold span, cross, Rdiv. cbn [fst snd]. ring. Qed.
Lemma span_sum u l po p : period_vector p = period_vector po ->
  span u l po (branch_vector true p) + span u l po (branch_vector false p) = pitch u l po.
Proof.
  intros E. unfold pitch. rewrite <- E. unfold span, branch_vector, period_vector, cross, Rdiv. cbn [fst snd]. ring.
Qed.
Lemma beyond_start u l po : beyond u l po 0 u = 0.
Proof. unfold beyond, cross, vec, peak_point, Rdiv. cbn [fst snd INR]. ring. Qed.

(** Above the branches of TCT n: the region with n electrons. *)
Lemma above_between params n k right t b u l po c : Forall admissible params ->
  interdot_line params n u l -> nth_error params (n - 1) = Some po -> cross (vec u l) (coupling_vector po) <> 0 ->
  (forall s, 0 <= span u l po (branch_vector s po)) -> on_branch params n k right t b ->
  c <= t * span u l po (branch_vector right po) -> (outer right n k \/ c <= (1 - t) * span u l po (branch_vector right po)) ->
  between u l po n (k + Nat.b2n right) c b.
Proof.
  intros Fa (pu & cu & po' & _ & _ & _ & Eo' & Co) Ep D Pos (p & cc & Hk & Ep' & Cp & Ht & Ot & Eb) C1 C2.
  rewrite Ep in Eo', Ep'. injection Eo' as <-. injection Ep' as <-.
  assert (Hs : slope_left po <> slope_right po) by (rewrite Forall_forall in Fa; apply Fa, (nth_error_In _ _ Ep)).
  rewrite (ProofsOcc.corner_unique po cc l Hs Cp Co) in Eb. clear Cp cc. cbv zeta in Eb.
  pose proof (span_sum u l po po eq_refl) as Sum. pose proof (Pos true) as P1. pose proof (Pos false) as P2.
  assert (B : forall j, beyond u l po j b = (INR k - INR j) * pitch u l po + (if right then t else - t) * span u l po (branch_vector right po)).
  { intros j. rewrite Eb, <- span_scale.
    pose proof (beyond_add u l po j (peak_point po l k) ((if right then t else - t) * fst (branch_vector right po), (if right then t else - t) * snd (branch_vector right po)) D) as Q.
    cbn [fst snd] in Q. rewrite Q, beyond_peak by exact D. reflexivity. }
  unfold between. rewrite !B. destruct right; cbn [Nat.b2n outer] in *.
  - split; [lia|]. split; intros H.
    + replace (k + 1 - 1)%nat with k by lia. lra.
    + rewrite plus_INR. simpl (INR 1). destruct C2 as [C2|C2]; [lia|]. lra.
  - rewrite Nat.add_0_r. split; [lia|]. split; intros H.
    + rewrite minus_INR by lia. simpl (INR 1). destruct C2 as [C2|C2]; [lia|]. lra.
    + lra.
Qed.
(** Below the branches of TCT n + 1: again the region with n electrons. *)
Lemma below_between params n k right t b u l po pu c : Forall admissible params -> (1 <= n)%nat ->
  interdot_line params n u l -> nth_error params (n - 1) = Some po -> nth_error params n = Some pu ->
  cross (vec u l) (coupling_vector po) <> 0 -> period_vector po = period_vector pu ->
  (forall s, 0 <= span u l po (branch_vector s pu)) -> on_branch params (S n) k right t b ->
  c <= t * span u l po (branch_vector right pu) -> (outer right (S n) k \/ c <= (1 - t) * span u l po (branch_vector right pu)) ->
  between u l po n k c b.
Proof.
  intros Fa Hn (pu' & cu & po' & Eu' & Cu & Hu & Eo' & Co) Ep Eu D Per Pos (p & cc & Hk & Ep' & Cp & Ht & Ot & Eb) C1 C2.
  replace (S n - 1)%nat with n in Ep' by lia. rewrite Ep in Eo'. rewrite Eu in Eu', Ep'. injection Eo' as <-. injection Eu' as <-. injection Ep' as <-.
  assert (Hs : slope_left pu <> slope_right pu) by (rewrite Forall_forall in Fa; apply Fa, (nth_error_In _ _ Eu)).
  rewrite (ProofsOcc.corner_unique pu cc cu Hs Cp Cu) in Eb. clear Cp cc. cbv zeta in Eb.
  pose proof (span_sum u l po pu (eq_sym Per)) as Sum. pose proof (Pos true) as P1. pose proof (Pos false) as P2.
  assert (B : forall j, beyond u l po j b = (INR k - INR j) * pitch u l po - span u l po (branch_vector true pu)
    + (if right then t else - t) * span u l po (branch_vector right pu)).
  { intros j. rewrite <- (Nat.add_0_l j) at 1. rewrite beyond_linear.
    set (s := if right then t else - t) in *.
    assert (Q : b = (fst u + (INR k * fst (period_vector pu) - fst (branch_vector true pu) + s * fst (branch_vector right pu)),
                     snd u + (INR k * snd (period_vector pu) - snd (branch_vector true pu) + s * snd (branch_vector right pu)))).
    { rewrite Eb, Hu. unfold peak_point, period_vector, branch_vector. cbn [fst snd]. f_equal; ring. }
    rewrite Q.
    pose proof (beyond_add u l po 0 u (INR k * fst (period_vector pu) - fst (branch_vector true pu) + s * fst (branch_vector right pu),
                     INR k * snd (period_vector pu) - snd (branch_vector true pu) + s * snd (branch_vector right pu)) D) as A.
    cbn [fst snd] in A. rewrite A, beyond_start. unfold pitch. rewrite Per. unfold span, cross, Rdiv. cbn [fst snd]. ring. }
  unfold between. rewrite !B. destruct right; cbn [outer] in *.
  - split; [lia|]. split; intros H.
    + rewrite minus_INR by lia. simpl (INR 1). lra.
    + destruct C2 as [C2|C2]; [lia|]. lra.
  - split; [lia|]. split; intros H.
    + rewrite minus_INR by lia. simpl (INR 1). destruct C2 as [C2|C2]; [lia|]. lra.
    + lra.
Qed.
Lemma between_near u l po n m c b q delta : cross (vec u l) (coupling_vector po) <> 0 -> dist2 q b <= delta ->
  between u l po n m (c + delta * (dist2 u l / Rabs (cross (vec u l) (coupling_vector po)))) b -> between u l po n m c q.
Proof.
  intros D Hd (Hm & B1 & B2). split; [exact Hm|].
  assert (E : forall j, Rabs (beyond u l po j q - beyond u l po j b) <= delta * (dist2 u l / Rabs (cross (vec u l) (coupling_vector po)))).
  { intros j. eapply Rle_trans; [apply beyond_close; exact D|].
    replace (dist2 u l * dist2 q b / Rabs (cross (vec u l) (coupling_vector po))) with (dist2 q b * (dist2 u l / Rabs (cross (vec u l) (coupling_vector po)))) by (unfold Rdiv; ring).
    apply Rmult_le_compat_r; [|exact Hd]. apply Rmult_le_pos; [apply sqrt_pos|]. left. apply Rinv_0_lt_compat, Rabs_pos_lt, D. }
  split; intros H.
  - specialize (B1 H). specialize (E (m - 1)%nat). apply Rabs_le_inv in E. lra.
  - specialize (B2 H). specialize (E m). apply Rabs_le_inv in E. lra.
Qed.

(** ** Occupations *)
Section Pixel.
Context (label : arr2 nat -> arr2 nat) (params : list tct_params) (rot : R) (lut : option nat) (kind : cdf_kind) (gf : option R)
  (res : resolution) (d : csd_data) (a1 b1 a2 b2 : R) (v : point) (o : R * R) (lab n : nat) (u l : point) (po : tct_params)
  (C : csd_config label params lut kind gf)
  (H : ideal_csd_geometric label params [a1; b1] [a2; b2] res rot lut kind gf = Ok d)
  (Px : scan_pixel d (a1, b1) (a2, b2) v o lab) (Sum : fst o + snd o = INR n) (Hn : (1 <= n)%nat)
  (I : interdot_line params n u l) (Ep : nth_error params (n - 1) = Some po)
  (G : 0 < gamma_of kind gf) (W : 1 / 100000000 * gamma_of kind gf * dist2 u l < Rabs (cross (vec u l) (coupling_vector po))).

Lemma tails m c : 0 < pitch u l po -> 0 < c -> between u l po n m c (tct_view rot v) ->
  Rabs (fst o - INR m) <= tail_bound kind (gamma_of kind gf) n c (pitch u l po) /\
  Rabs (snd o - INR (n - m)) <= tail_bound kind (gamma_of kind gf) n c (pitch u l po).
Proof.
  intros P Hc B. assert (K : kind <> UnknownCdf) by apply C. unfold tail_bound. destruct kind eqn:Ek; [| |congruence].
  - exact (quantised_sigmoid label params rot lut _ gf res d a1 b1 a2 b2 v o lab n u l po C H Px Sum Hn I Ep G W m c eq_refl P B).
  - exact (quantised_cauchy label params rot lut _ gf res d a1 b1 a2 b2 v o lab n u l po C H Px Sum Hn I Ep G W m c eq_refl (Rlt_le _ _ P) Hc B).
Qed.
Lemma proper_slopes : Forall admissible params.
Proof. destruct C as (P & _). eapply Forall_impl; [|exact P]; simpl; tauto. Qed.

Lemma above_pixel k right t b delta c : 0 < pitch u l po -> (forall s, 0 <= span u l po (branch_vector s po)) -> 0 < c ->
  on_branch params n k right t b -> dist2 (tct_view rot v) b <= delta ->
  let c' := c + delta * (dist2 u l / Rabs (cross (vec u l) (coupling_vector po))) in
  c' <= t * span u l po (branch_vector right po) -> (outer right n k \/ c' <= (1 - t) * span u l po (branch_vector right po)) ->
  Rabs (fst o - (INR k + (if right then 1 else 0))) <= tail_bound kind (gamma_of kind gf) n c (pitch u l po).
Proof.
  intros P Pos Hc Br Near c' C1 C2. pose proof (coupling_nonzero kind gf u l po G W) as D.
  pose proof (above_between params n k right t b u l po c' proper_slopes I Ep D Pos Br C1 C2) as B.
  pose proof (tails _ c P Hc (between_near u l po n _ c b _ delta D Near B)) as [Q _].
  rewrite plus_INR in Q. destruct right; exact Q.
Qed.
Lemma below_pixel pu k right t b delta c : nth_error params n = Some pu -> period_vector po = period_vector pu ->
  0 < pitch u l po -> (forall s, 0 <= span u l po (branch_vector s pu)) -> 0 < c ->
  on_branch params (S n) k right t b -> dist2 (tct_view rot v) b <= delta ->
  let c' := c + delta * (dist2 u l / Rabs (cross (vec u l) (coupling_vector po))) in
  c' <= t * span u l po (branch_vector right pu) -> (outer right (S n) k \/ c' <= (1 - t) * span u l po (branch_vector right pu)) ->
  Rabs (fst o - INR k) <= tail_bound kind (gamma_of kind gf) n c (pitch u l po).
Proof.
  intros Eu Per P Pos Hc Br Near c' C1 C2. pose proof (coupling_nonzero kind gf u l po G W) as D.
  pose proof (below_between params n k right t b u l po pu c' proper_slopes Hn I Ep Eu D Per Pos Br C1 C2) as B.
  exact (proj1 (tails _ c P Hc (between_near u l po n _ c b _ delta D Near B))).
Qed.
End Pixel.

(** ** The default configuration *)
Lemma below_between_gen params n k right t b u l po pu c : Forall admissible params -> (1 <= n)%nat ->
  interdot_line params n u l -> nth_error params (n - 1) = Some po -> nth_error params n = Some pu ->
  cross (vec u l) (coupling_vector po) <> 0 -> on_branch params (S n) k right t b ->
  let X := span u l po (period_vector pu) - pitch u l po in
  let R := span u l po (branch_vector true pu) in let L := span u l po (branch_vector false pu) in
  ((k < n)%nat -> c <= (if right then (1 - t) * R else R + t * L) - INR k * X) ->
  ((1 <= k)%nat -> c <= (if right then L + t * R else (1 - t) * L) + (INR k - 1) * X) -> between u l po n k c b.
Proof.
  intros Fa Hn (pu' & cu & po' & Eu' & Cu & Hu & Eo' & Co) Ep Eu D (p & cc & Hk & Ep' & Cp & Ht & Ot & Eb) X R L C1 C2.
  replace (S n - 1)%nat with n in Ep' by lia. rewrite Ep in Eo'. rewrite Eu in Eu', Ep'. injection Eo' as <-. injection Eu' as <-. injection Ep' as <-.
  assert (Hs : slope_left pu <> slope_right pu) by (rewrite Forall_forall in Fa; apply Fa, (nth_error_In _ _ Eu)).
  rewrite (ProofsOcc.corner_unique pu cc cu Hs Cp Cu) in Eb. clear Cp cc. cbv zeta in Eb.
  assert (Sum : R + L = span u l po (period_vector pu)).
  { unfold R, L, span, branch_vector, period_vector, cross, Rdiv. cbn [fst snd]. ring. }
  assert (B : forall j, beyond u l po j b = INR k * (R + L) - INR j * pitch u l po - R + (if right then t * R else - t * L)).
  { intros j. rewrite Sum. rewrite <- (Nat.add_0_l j) at 1. rewrite beyond_linear.
    set (s := if right then t else - t) in *.
    assert (Q : b = (fst u + (INR k * fst (period_vector pu) - fst (branch_vector true pu) + s * fst (branch_vector right pu)),
                     snd u + (INR k * snd (period_vector pu) - snd (branch_vector true pu) + s * snd (branch_vector right pu)))).
    { rewrite Eb, Hu. unfold peak_point, period_vector, branch_vector. cbn [fst snd]. f_equal; ring. }
    rewrite Q.
    pose proof (beyond_add u l po 0 u (INR k * fst (period_vector pu) - fst (branch_vector true pu) + s * fst (branch_vector right pu),
                     INR k * snd (period_vector pu) - snd (branch_vector true pu) + s * snd (branch_vector right pu)) D) as A.
    cbn [fst snd] in A. rewrite A, beyond_start. unfold R, L, s, span, cross, Rdiv. destruct right; cbn [fst snd]; ring. }
  assert (EX : pitch u l po = R + L - X) by (unfold X; lra). clearbody X R L.
  unfold between. rewrite !B, EX. split; [lia|]. split; intros H.
  - specialize (C2 H). rewrite minus_INR by lia. simpl (INR 1). destruct right; lra.
  - specialize (C1 H). destruct right; lra.
Qed.

Lemma default_spans n u l po pu s : (1 <= n)%nat -> interdot_line default_tcts n u l -> nth_error default_tcts (n - 1) = Some po -> nth_error default_tcts n = Some pu ->
  let D := cross (vec u l) (coupling_vector po) in let Y := cross (vec u l) (period_vector po) - cross (vec u l) (period_vector pu) in
  0 < D /\ 0 <= Y /\
  157/100 * D + 15/100000 * dist2 u l <= cross (vec u l) (branch_vector s po) /\
  119/100 * D + 15/100000 * dist2 u l + 3 * ((INR n - 1) * Y) <= cross (vec u l) (branch_vector s pu) /\
  135/100 * D + 1/10000 * dist2 u l + 2 * ((INR n - 1) * Y) <= cross (vec u l) (branch_vector s pu).
Proof.
  intros Hn (pu' & cu & po' & Eu & Cu & -> & Eo & Co) Ep Epu. rewrite Eo in Ep. injection Ep as ->. rewrite Eu in Epu. injection Epu as ->.
  assert (Hn' : (n < 14)%nat) by (change 14%nat with (length default_tcts); apply nth_error_Some; congruence).
  assert (Main : forall x y, x = fst l - (fst cu + len_right pu) -> y = snd l - (snd cu + len_right pu * slope_right pu) ->
    let D := cross (x, y) (coupling_vector po) in let Y := cross (x, y) (period_vector po) - cross (x, y) (period_vector pu) in
    let dd := - y + 415/1000 * (- x) in y <= x /\ x <= 0 /\
    0 < D /\ 0 <= Y /\
    157/100 * D + 15/100000 * dd <= cross (x, y) (branch_vector s po) /\
    119/100 * D + 15/100000 * dd + 3 * ((INR n - 1) * Y) <= cross (x, y) (branch_vector s pu) /\
    135/100 * D + 1/10000 * dd + 2 * ((INR n - 1) * Y) <= cross (x, y) (branch_vector s pu)).
  { destruct cu as [cx cy], l as [lx ly]. unfold default_tcts in *.
    destruct n as [|[|[|[|[|[|[|[|[|[|[|[|[|[|n]]]]]]]]]]]]]]; try (exfalso; lia).
    all: cbn [nth_error Nat.sub] in Eu, Eo; injection Eu as <-; injection Eo as <-.
    all: destruct Cu as [C1 C2], Co as [C3 C4]; intros x y Ex Ey; unfold cross, coupling_vector, period_vector, branch_vector; destruct s; numbers; cbn zeta.
    all: rewrite INR_IZR_INZ; simpl IZR; repeat split; lra. }
  destruct (Main _ _ eq_refl eq_refl) as (M1 & M2 & M3 & M4 & M5 & M6 & M7). clear Main. cbv zeta. unfold vec.
  set (x := fst l - (fst cu + len_right pu)) in *. set (y := snd l - (snd cu + len_right pu * slope_right pu)) in *.
  change (fst l - fst (fst cu + len_right pu, snd cu + len_right pu * slope_right pu)) with x.
  change (snd l - snd (fst cu + len_right pu, snd cu + len_right pu * slope_right pu)) with y.
  assert (Dd : dist2 (fst cu + len_right pu, snd cu + len_right pu * slope_right pu) l <= - y + 415/1000 * (- x)).
  { unfold dist2. cbn [fst snd]. replace (fst cu + len_right pu - fst l) with (- x) by (unfold x; ring).
    replace (snd cu + len_right pu * slope_right pu - snd l) with (- y) by (unfold y; ring).
    destruct (octagon (- x) (- y)) as [Q|Q]; rewrite !Rabs_pos_eq in Q by lra; lra. }
  cbv zeta in M3, M4, M5, M6, M7. repeat split; lra.
Qed.
Lemma default_ratios n u l po pu s : (1 <= n)%nat -> interdot_line default_tcts n u l -> nth_error default_tcts (n - 1) = Some po -> nth_error default_tcts n = Some pu ->
  let W := dist2 u l / Rabs (cross (vec u l) (coupling_vector po)) in let X := span u l po (period_vector pu) - pitch u l po in
  0 <= W /\ X <= 0 /\ 157/100 + 15/100000 * W <= span u l po (branch_vector s po) /\
  119/100 + 15/100000 * W - 3 * ((INR n - 1) * X) <= span u l po (branch_vector s pu) /\
  135/100 + 1/10000 * W - 2 * ((INR n - 1) * X) <= span u l po (branch_vector s pu).
Proof.
  intros Hn I Ep Eu. pose proof (default_spans n u l po pu s Hn I Ep Eu) as Q. cbv zeta in Q. destruct Q as (Q0 & Q1 & Q2 & Q3 & Q4). cbv zeta.
  rewrite Rabs_pos_eq by lra. unfold span, pitch.
  set (D := cross (vec u l) (coupling_vector po)) in *. set (A := cross (vec u l) (period_vector po)) in *. set (B := cross (vec u l) (period_vector pu)) in *.
  set (E := cross (vec u l) (branch_vector s po)) in *. set (F := cross (vec u l) (branch_vector s pu)) in *.
  assert (Dp : 0 <= dist2 u l) by apply sqrt_pos. set (d := dist2 u l) in *. clearbody D A B E F d.
  assert (Di : 0 < / D) by (apply Rinv_0_lt_compat; lra). assert (DD : D * / D = 1) by (apply Rinv_r; lra). unfold Rdiv in *.
  set (i := / D) in *. clearbody i.
  assert (Y0 : 0 <= (A - B) * i) by (apply Rmult_le_pos; lra).
  apply (Rmult_le_compat_r i) in Q2, Q3, Q4; try lra.
  repeat split; try lra. apply Rmult_le_pos; lra.
Qed.
Section DefaultPixel.
Context (label : arr2 nat -> arr2 nat) (Lab : forall x, is_labelling x (label x)) (res : resolution) (d : csd_data) (a1 b1 a2 b2 : R) (v : point) (o : R * R) (lab n : nat)
  (H : ideal_csd_geometric label default_tcts [a1; b1] [a2; b2] res (- (PI / 4)) (Some 1000%nat) Sigmoid None = Ok d)
  (Px : scan_pixel d (a1, b1) (a2, b2) v o lab) (Sum : fst o + snd o = INR n).
Let C : csd_config label default_tcts (Some 1000%nat) Sigmoid None := default_config label Lab.
Lemma few : (n < 14)%nat.
Proof.
  destruct (scan_total _ _ _ _ _ _ _ _ _ _ _ _ _ _ _ _ _ C eq_refl eq_refl H Px) as (m & Hm & _ & Sn).
  rewrite Sum in Sn. apply INR_eq in Sn. subst m. exact Hm.
Qed.
Lemma default_tail u l po m c k B : (1 <= n)%nat -> interdot_line default_tcts n u l -> nth_error default_tcts (n - 1) = Some po ->
  0 < c -> INR k * (1/20) <= 2 * (22/10) * c -> 1 < B -> B + 1/1000 <= (21/20) ^ k -> between u l po n m c (tct_view (- (PI / 4)) v) -> B < 400 ->
  Rabs (fst o - INR m) <= / B /\ Rabs (snd o - INR (n - m)) <= / B.
Proof.
  intros Hn I Ep Hc Hk HB Pw Bt BB. destruct (default_pitch n u l po Hn I Ep) as [Pi W].
  pose proof (tails label default_tcts (- (PI / 4)) (Some 1000%nat) Sigmoid None res d a1 b1 a2 b2 v o lab n u l po C H Px Sum Hn I Ep ltac:(simpl; lra) W m c ltac:(lra) Hc Bt) as [T1 T2].
  assert (T : tail_bound Sigmoid (gamma_of Sigmoid None) n c (pitch u l po) <= / B); [|lra]. clear T1 T2. cbn [tail_bound gamma_of].
  assert (E1 : exp (- (2 * (22 / 10) * c)) <= / (B + 1/1000)) by (apply (small_tail _ k); auto; lra).
  assert (E2 : exp (- (2 * (22 / 10) * pitch u l po)) <= / 100000000).
  { apply (small_tail _ 400%nat); [rewrite INR_IZR_INZ; simpl IZR; lra|lra|].
    replace 400%nat with (25 * 16)%nat by reflexivity. rewrite pow_mult. apply Rle_trans with ((338/100) ^ 16); [simpl; lra|]. apply pow_incr. simpl; lra. }
  set (e := exp (- (2 * (22 / 10) * c))) in *. pose proof (exp_pos (- (2 * (22 / 10) * pitch u l po))) as P0. set (f := exp (- (2 * (22 / 10) * pitch u l po))) in *. clearbody e f.
  apply Rmult_le_reg_r with (1 - f); [lra|]. unfold Rdiv. rewrite Rmult_assoc, Rinv_l, Rmult_1_r by lra.
  eapply Rle_trans; [exact E1|]. apply Rmult_le_reg_r with (B * (B + 1/1000)); [nra|].
  replace (/ (B + 1 / 1000) * (B * (B + 1 / 1000))) with B by (field; lra). replace (/ B * (1 - f) * (B * (B + 1/1000))) with ((1 - f) * (B + 1/1000)) by (field; lra). nra.
Qed.
Lemma default_above_gen k right t b c tau : on_branch default_tcts n k right t b -> dist2 (tct_view (- (PI / 4)) v) b <= 5/100000 ->
  1/3 <= tau <= 1/2 -> tau <= t -> outer right n k \/ t <= 1 - tau -> c <= tau * (157/100) ->
  exists u l po, (1 <= n)%nat /\ interdot_line default_tcts n u l /\ nth_error default_tcts (n - 1) = Some po /\ between u l po n (k + Nat.b2n right) c (tct_view (- (PI / 4)) v).
Proof.
  intros Br Near Tau T1 T2 Hc. pose proof few as Hf. assert (Hn : (1 <= n)%nat) by (destruct Br as (? & ? & ? & _); lia).
  destruct (default_line n ltac:(lia)) as (u & l & po & I & Ep). exists u, l, po. split; [exact Hn|]. split; [exact I|]. split; [exact Ep|].
  destruct (default_pitch n u l po Hn I Ep) as [Pi W].
  assert (Hpu : exists pu, nth_error default_tcts n = Some pu) by (destruct I as (pu & _ & _ & E & _); eauto). destruct Hpu as [pu Eu].
  pose proof (coupling_nonzero Sigmoid None u l po ltac:(simpl; lra) W) as D.
  assert (Rt : forall s, 0 <= dist2 u l / Rabs (cross (vec u l) (coupling_vector po)) /\
    157/100 + 15/100000 * (dist2 u l / Rabs (cross (vec u l) (coupling_vector po))) <= span u l po (branch_vector s po)).
  { intros s. pose proof (default_ratios n u l po pu s Hn I Ep Eu) as Q. cbv zeta in Q. split; apply Q. }
  apply (between_near u l po n _ c b _ (5/100000) D Near).
  apply (above_between default_tcts n k right t b u l po); auto.
  - apply (proper_slopes label default_tcts _ _ _ C).
  - intros s. specialize (Rt s). lra.
  - destruct (Rt right) as [R1 R2]. set (w := dist2 u l / _) in *. set (sp := span _ _ _ _) in *. clearbody w sp. nra.
  - destruct T2 as [T2|T2]; [left; exact T2|right].
    destruct (Rt right) as [R1 R2]. set (w := dist2 u l / _) in *. set (sp := span _ _ _ _) in *. clearbody w sp. nra.
Qed.
Lemma default_below_gen k right t b c tau : (1 <= n)%nat -> on_branch default_tcts (S n) k right t b -> dist2 (tct_view (- (PI / 4)) v) b <= 5/100000 ->
  tau <= t -> outer right (S n) k \/ t <= 1 - tau -> (tau = 1/3 /\ c = 119/300) \/ (tau = 1/2 /\ c = 135/200) ->
  exists u l po, interdot_line default_tcts n u l /\ nth_error default_tcts (n - 1) = Some po /\ between u l po n k c (tct_view (- (PI / 4)) v).
Proof.
  intros Hn Br Near T1 T2 Hc. pose proof few as Hf. assert (Hk : (k <= n)%nat) by (destruct Br as (? & ? & ? & _); lia).
  destruct (default_line n ltac:(lia)) as (u & l & po & I & Ep). exists u, l, po. split; [exact I|]. split; [exact Ep|].
  destruct (default_pitch n u l po Hn I Ep) as [Pi W].
  assert (Hpu : exists pu, nth_error default_tcts n = Some pu) by (destruct I as (pu & _ & _ & E & _); eauto). destruct Hpu as [pu Eu].
  pose proof (coupling_nonzero Sigmoid None u l po ltac:(simpl; lra) W) as D.
  pose proof (default_ratios n u l po pu true Hn I Ep Eu) as Q1. pose proof (default_ratios n u l po pu false Hn I Ep Eu) as Q2. cbv zeta in Q1, Q2.
  apply (between_near u l po n _ c b _ (5/100000) D Near).
  apply (below_between_gen default_tcts n k right t b u l po pu); auto.
  - apply (proper_slopes label default_tcts _ _ _ C).
  - intros H1. assert (K0 := pos_INR k).
    set (w := dist2 u l / _) in *. set (R := span _ _ _ (branch_vector true pu)) in *. set (L := span _ _ _ (branch_vector false pu)) in *. set (X := _ - pitch u l po) in *.
    assert (Kx : INR k * X <= 0) by nra. assert (N0 : 0 <= INR n - 1) by (apply (le_INR 1) in Hn; simpl in Hn; lra).
    assert (Nx : (INR n - 1) * X <= 0) by nra. clearbody w R L X.
    destruct right; [destruct T2 as [T2|T2]; [cbn [outer] in T2; lia|]|]; destruct Hc as [[-> ->]|[-> ->]]; nra.
  - intros H1. assert (K0 := pos_INR k). apply (le_INR 1) in H1. simpl in H1. apply le_INR in Hk.
    set (w := dist2 u l / _) in *. set (R := span _ _ _ (branch_vector true pu)) in *. set (L := span _ _ _ (branch_vector false pu)) in *. set (X := _ - pitch u l po) in *.
    assert (Kx : (INR n - 1) * X <= (INR k - 1) * X) by nra. 
    assert (Nx : (INR n - 1) * X <= 0) by nra. clearbody w R L X.
    destruct right; [|destruct T2 as [T2|T2]; [cbn [outer] in T2; subst k; simpl in H1; lra|]]; destruct Hc as [[-> ->]|[-> ->]]; nra.
Qed.
End DefaultPixel.
