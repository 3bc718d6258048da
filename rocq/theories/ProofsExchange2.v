(** Proofs about exchanged gates and dots: sampled and default configurations. *)
From Verif Require Import RPrelude Arr ModelSupport ModelTct ModelCsd ModelInstance ModelDefault ModelSampling ModelConfigCsd SpecSupport SpecTct SpecCsd SpecOrder SpecInstance SpecQuant
  SpecConfigCsd SpecExchange ProofsSupport ProofsTct ProofsCsd ProofsOcc ProofsDriver ProofsRegions ProofsScan ProofsDistortions ProofsOrder ProofsCover ProofsConfigCsd
  ProofsDefault ProofsQuant ProofsExchange.
Local Open Scope R_scope.

(** ** Stacks stay stacks *)
Lemma exchanged_bounded L eps lut k p : bounded_tct L eps lut p -> bounded_tct L eps lut (exchanged_tct k p).
Proof.
  intros (A & P & S1 & S2 & M). split; [apply mirror_admissible; auto|]. split; [apply mirror_peak; auto|].
  split; [simpl; rewrite Rabs_Ropp; auto|]. split; [simpl; rewrite Rabs_Ropp; auto|].
  destruct lut as [[|n]|]; auto. unfold exchanged_tct. cbn [end_x start_x].
  match goal with |- context [L * (?e / _)] => replace e with (end_x p - start_x p) by ring end. exact M.
Qed.
Lemma exchanged_stack_bounded L eps lut params : Forall (bounded_tct L eps lut) params -> Forall (bounded_tct L eps lut) (exchanged_tcts params).
Proof.
  intros B. rewrite Forall_forall in *. intros p' Hp'. apply In_nth_error in Hp'. destruct Hp' as (i & Hi).
  destruct (exchanged_inv _ _ _ Hi) as (p & Ep & ->). apply exchanged_bounded, B. eapply nth_error_In; eauto.
Qed.
Lemma exchanged_vector p q n k d : (k < n)%nat -> interdot_vector p q (n - 1 - k) d ->
  interdot_vector (exchanged_tct n p) (exchanged_tct (S n) q) k (reflect d).
Proof.
  intros Hk (cp & cq & Cp & Cq & ->). eexists _, _. split; [exact (mirror_corner p cp n Cp)|]. split; [exact (mirror_corner q cq (S n) Cq)|].
  unfold reflect, peak_point, exchanged_tct. cbn [fst snd len_left len_right slope_left slope_right].
  rewrite !minus_INR by lia. rewrite !S_INR. simpl (INR 0). f_equal; ring.
Qed.
Lemma exchanged_rises delta p k d : rises delta p d -> rises delta (exchanged_tct k p) (reflect d).
Proof. unfold rises, reflect, exchanged_tct. cbn [fst snd slope_left slope_right]. lra. Qed.
Lemma exchanged_stacked delta params : stacked delta params -> stacked delta (exchanged_tcts params).
Proof.
  intros HS n p' q' Hn Ep Eq. destruct (exchanged_inv _ _ _ Ep) as (p & Ep' & ->). destruct (exchanged_inv _ _ _ Eq) as (q & Eq' & ->).
  replace (S (n - 1)) with n by lia. destruct (HS n p q Hn Ep' Eq') as (F & (d0 & V0 & R0) & (d1 & V1 & R1)).
  split; [destruct F; split; simpl; lra|]. split.
  - exists (reflect d1). split; [|apply exchanged_rises; auto]. apply exchanged_vector; [lia|]. rewrite Nat.sub_0_r. auto.
  - exists (reflect d0). split; [|apply exchanged_rises; auto]. apply exchanged_vector; [lia|]. replace (n - 1 - (n - 1))%nat with 0%nat by lia. auto.
Qed.
Lemma electrons_on_tct params lut L eps delta rot v n p : 0 <= eps -> Forall (bounded_tct L eps lut) params -> stacked delta params -> 2 * eps < delta ->
  (1 <= n < length params)%nat -> nth_error params (n - 1) = Some p ->
  tct_bezier_number p lut (Some n) (fst (tct_view rot v)) = Ok (snd (tct_view rot v)) -> electrons params lut rot v n.
Proof.
  intros He HB HS Hd Hn Ep T.
  assert (A : on_or_above params lut rot v n). { exists p, (snd (tct_view rot v)). repeat split; auto; lra || lia. }
  split.
  - intros k Hk. apply (above_lower params lut L eps delta He HB HS ltac:(lra) rot v k n); auto; lia.
  - destruct (nth_error params n) as [q|] eqn:Eq; [|apply nth_error_None in Eq; lia].
    destruct (stack_exists params lut L eps HB n p ltac:(lia) Ep) as (f & Hf).
    destruct (stack_exists params lut L eps HB (S n) q ltac:(lia)) as (g & Hg); [replace (S n - 1)%nat with n by lia; auto|].
    pose proof (stack_gap params lut L eps delta He HB HS n p q f g ltac:(lia) Ep Eq Hf Hg (fst (tct_view rot v))) as Gp.
    specialize (Hf (fst (tct_view rot v))). rewrite T in Hf.
    assert (Ef : snd (tct_view rot v) = f (fst (tct_view rot v))) by congruence. rewrite <- Ef in Gp.
    exists q, (g (fst (tct_view rot v))). split; [lia|]. split; [replace (S n - 1)%nat with n by lia; auto|]. split; [apply Hg|]. lra.
Qed.

(** ** Sampled configurations *)
Lemma sampled_coupling p d : sampled_tct p d ->
  let i := interdot p d in 1 / 100000000 * (22 / 10) * sqrt (fst i ^ 2 + snd i ^ 2) < Rabs (cross i (coupling_vector p)).
Proof.
  intros H. pose proof H as (_ & _ & S1 & S2 & A & _ & a & len & w & Ha & Hl & Hw & _ & [E1 E2] & E). cbv zeta in E. cbv zeta.
  fold (interdot p d) in E. rewrite E. unfold coupling_vector. rewrite E1, E2.
  set (t := atan (slope_left p) + a) in *. set (m := atan ((slope_left p + slope_right p) / 2)) in *. cbn [fst snd]. 
  replace ((len * cos t) ^ 2 + (len * sin t) ^ 2) with (Rsqr len * (Rsqr (sin t) + Rsqr (cos t))) by (unfold Rsqr; ring).
  rewrite sin2_cos2, Rmult_1_r, sqrt_Rsqr by lra.
  replace (cross (len * cos t, len * sin t) (start_x p + w * cos m - start_x p, start_y p + w * sin m - start_y p)) with (- (len * w * sin (t - m)))
    by (rewrite sin_minus; unfold cross; cbn [fst snd]; ring).
  rewrite Rabs_Ropp.
  assert (T1 : 0 <= atan (slope_left p) <= slope_left p) by (apply atan_small_range; lra).
  assert (T2 : 0 <= - atan (slope_right p) <= - slope_right p) by (rewrite <- atan_opp; apply atan_small_range; lra).
  assert (M1 : m < atan (slope_left p)) by (apply atan_increasing; lra).
  assert (M2 : atan (slope_right p) < m) by (apply atan_increasing; lra).
  assert (Sn : 0.548 <= sin (t - m)) by (apply sin_mid; unfold t; lra).
  assert (W : 0.0002 <= w * sin (t - m)) by nra. rewrite (Rmult_assoc len w). rewrite Rabs_pos_eq by (apply Rmult_le_pos; lra). nra.
Qed.
Lemma translates_exchangeable p d tcts : sampled_tct p d -> translates p d tcts -> exchangeable tcts (22 / 10).
Proof.
  intros H Tr n Hn.
  destruct (nth_error tcts n) as [q|] eqn:Eq; [|apply nth_error_None in Eq; lia].
  destruct (nth_error tcts (n - 1)) as [o|] eqn:Eo; [|apply nth_error_None in Eo; lia].
  pose proof (Tr _ _ Eq) as Hq. pose proof (Tr _ _ Eo) as Ho. split.
  { exists o, q. subst o q. auto. }
  intros u l po (pu & cu & po' & Iu & Cu & -> & Io & Cl) Epo. rewrite Eo in Io, Epo. inversion Io; inversion Epo; subst po' po. rewrite Eq in Iu; inversion Iu; subst pu.
  pose proof (sampled_corner p d H) as C. set (c := (start_x p + _, _)) in C.
  assert (Np : slope_left p <> slope_right p) by (destruct H as (_ & _ & ? & ? & _); lra).
  assert (El : l = (fst c + INR (n - 1) * fst d, snd c + INR (n - 1) * snd d)).
  { apply (ProofsOcc.corner_unique o); auto; [subst o; auto|]. subst o. destruct C as [C1 C2]. split; cbn [start_x start_y end_x end_y slope_left slope_right fst snd]; lra. }
  assert (Ec : cu = (fst c + INR n * fst d, snd c + INR n * snd d)).
  { apply (ProofsOcc.corner_unique q); auto; [subst q; auto|]. subst q. destruct C as [C1 C2]. split; cbn [start_x start_y end_x end_y slope_left slope_right fst snd]; lra. }
  pose proof (sampled_coupling p d H) as Q. cbv zeta in Q.
  assert (En : INR n = INR (n - 1) + 1) by (rewrite minus_INR by lia; simpl; ring).
  rewrite (Rabs_pos_eq (22 / 10)) by lra.
  set (u := (fst cu + len_right q, _)).
  assert (Ev : vec u l = (- fst (interdot p d), - snd (interdot p d))).
  { unfold u, vec, interdot. subst cu l q. cbn [fst snd len_right slope_right]. rewrite En. f_equal; ring. }
  rewrite dist2_vec, Ev. cbn [fst snd].
  replace ((- fst (interdot p d)) ^ 2 + (- snd (interdot p d)) ^ 2) with (fst (interdot p d) ^ 2 + snd (interdot p d) ^ 2) by ring.
  replace (cross (- fst (interdot p d), - snd (interdot p d)) (coupling_vector o)) with (- cross (interdot p d) (coupling_vector p)).
  - rewrite Rabs_Ropp. exact Q.
  - subst o. unfold cross, coupling_vector. cbn [fst snd start_x start_y end_x end_y]. ring.
Qed.

(** ** The default configuration *)
Section Default.
Variable label : arr2 nat -> arr2 nat.
Hypothesis Lab : forall m, is_labelling m (label m).
Let lut := Some 1000%nat.
Definition tct7 : tct_params := mk_tct 0.01075474 0.01549732 0.31215701 (-0.27961779) (-0.112774) (-0.12790766) (-0.1070469) (-0.12782558).
Definition tct8 : tct_params := mk_tct 0.01075474 0.01549732 0.20758441 (-0.18594583) (-0.12698603) (-0.12181824) (-0.12125892) (-0.12173616).
Let c7 : point := (-65053332250091/591774800000000, -7516702012984911943591/59177480000000000000000).
Let c8 : point := (-488258306400959/3935302400000000, -47701059368117258135767/393530240000000000000000).
Lemma tct7_nth : nth_error default_tcts 6 = Some tct7. Proof. reflexivity. Qed.
Lemma tct8_nth : nth_error default_tcts 7 = Some tct8. Proof. reflexivity. Qed.
Lemma c7_corner : corner tct7 c7. Proof. split; unfold c7, tct7; numbers; lra. Qed.
Lemma c8_corner : corner tct8 c8. Proof. split; unfold c8, tct8; numbers; lra. Qed.
Let u : point := (fst c8 + len_right tct8, snd c8 + len_right tct8 * slope_right tct8).
Let q : point := (end_x tct7 + 6 * (len_left tct7 + len_right tct7), end_y tct7 + 6 * (len_left tct7 * slope_left tct7 + len_right tct7 * slope_right tct7)).
Let c7' : point := (- (fst c7 + INR (7 - 1) * (len_left tct7 + len_right tct7)), snd c7 + INR (7 - 1) * (len_left tct7 * slope_left tct7 + len_right tct7 * slope_right tct7)).
Let c8' : point := (- (fst c8 + INR (8 - 1) * (len_left tct8 + len_right tct8)), snd c8 + INR (8 - 1) * (len_left tct8 * slope_left tct8 + len_right tct8 * slope_right tct8)).
Let u' : point := (fst c8' + len_right (exchanged_tct 8 tct8), snd c8' + len_right (exchanged_tct 8 tct8) * slope_right (exchanged_tct 8 tct8)).
Lemma inr6 : INR (7 - 1) = 6. Proof. rewrite INR_IZR_INZ. reflexivity. Qed.
Lemma inr7 : INR (8 - 1) = 7. Proof. rewrite INR_IZR_INZ. reflexivity. Qed.
Lemma line7 : interdot_line default_tcts 7 u c7.
Proof. exists tct8, c8, tct7. repeat split; try reflexivity; apply c8_corner || apply c7_corner. Qed.
Lemma line7' : interdot_line (exchanged_tcts default_tcts) 7 u' c7'.
Proof.
  exists (exchanged_tct 8 tct8), c8', (exchanged_tct 7 tct7).
  split; [exact (exchanged_nth _ _ _ tct8_nth)|]. split; [exact (mirror_corner tct8 c8 8 c8_corner)|]. split; [reflexivity|].
  split; [exact (exchanged_nth _ _ _ tct7_nth)|exact (mirror_corner tct7 c7 7 c7_corner)].
Qed.
Lemma ratio_low a b c : 0 < b -> c * b <= a -> c <= a / b.
Proof. intros B H. apply Rmult_le_reg_r with b; auto. unfold Rdiv. rewrite Rmult_assoc, Rinv_l by lra. lra. Qed.
Lemma beyond5 : 52/10 <= beyond u c7 tct7 5 q.
Proof.
  apply ratio_low; unfold cross, vec, peak_point, coupling_vector, u, c7, c8, q, tct7, tct8; numbers; rewrite ?(INR_IZR_INZ 5); simpl IZR; lra.
Qed.
Lemma beyond6 : 5722/10000 <= beyond u c7 tct7 6 q.
Proof.
  apply ratio_low; unfold cross, vec, peak_point, coupling_vector, u, c7, c8, q, tct7, tct8; numbers; rewrite ?(INR_IZR_INZ 6); simpl IZR; lra.
Qed.
Lemma beyond0' : - (5445/10000) <= beyond u' c7' (exchanged_tct 7 tct7) 0 (reflect q).
Proof.
  apply ratio_low; unfold cross, vec, peak_point, coupling_vector, reflect, u', c7', c8', exchanged_tct, period_vector; cbn [fst snd len_left len_right slope_left slope_right start_x start_y end_x end_y];
  rewrite ?inr6, ?inr7; unfold c7, c8, q, tct7, tct8; numbers; simpl INR; lra.
Qed.
Lemma width7' : u' <> c7' /\ 1 / 100000000 * gamma_of Sigmoid None * dist2 u' c7' < Rabs (cross (vec u' c7') (coupling_vector (exchanged_tct 7 tct7))).
Proof.
  assert (X : fst c7' - fst u' = 0.0013 + (fst c7' - fst u' - 0.0013)) by ring.
  assert (Bx : 0 <= Rabs (fst u' - fst c7') <= 0.01 /\ 0.004 <= Rabs (snd u' - snd c7') <= 0.01 /\ 1 / 1000000 < cross (vec u' c7') (coupling_vector (exchanged_tct 7 tct7))).
  { unfold cross, vec, coupling_vector, u', c7', c8', exchanged_tct, period_vector; cbn [fst snd len_left len_right slope_left slope_right start_x start_y end_x end_y].
    rewrite ?inr6, ?inr7. unfold c7, c8, tct7, tct8; numbers. unfold Rabs. repeat destruct Rcase_abs; lra. }
  destruct Bx as (B1 & B2 & B3). split.
  - intros E. rewrite E in B2. replace (snd c7' - snd c7') with 0 in B2 by ring. rewrite Rabs_R0 in B2. lra.
  - rewrite (Rabs_pos_eq (cross _ _)) by lra. unfold gamma_of, dist2.
    assert (D : sqrt ((fst u' - fst c7') ^ 2 + (snd u' - snd c7') ^ 2) <= 1).
    { rewrite <- sqrt_1. apply sqrt_le_1_alt. rewrite <- (pow2_abs (fst u' - fst c7')), <- (pow2_abs (snd u' - snd c7')). nra. }
    lra.
Qed.

(** numbers *)
Lemma exp_low : 122/10 <= exp (251768/100000).
Proof.
  replace (251768/100000) with (INR 256 * (98346875/10000000000)) by (rewrite INR_IZR_INZ; simpl IZR; lra). rewrite exp_scale.
  assert (E : 10098346/10000000 <= exp (98346875/10000000000)) by (pose proof (exp_ge (98346875/10000000000)); lra).
  replace 256%nat with (4 * (4 * (4 * 4)))%nat by reflexivity. rewrite !pow_mult.
  assert (E1 : 10399/10000 <= exp (98346875/10000000000) ^ 4). { eapply Rle_trans; [|apply pow_incr; split; [|exact E]; lra]. simpl; lra. }
  assert (E2 : 11694/10000 <= (exp (98346875/10000000000) ^ 4) ^ 4). { eapply Rle_trans; [|apply pow_incr; split; [|exact E1]; lra]. simpl; lra. }
  assert (E3 : 187/100 <= ((exp (98346875/10000000000) ^ 4) ^ 4) ^ 4). { eapply Rle_trans; [|apply pow_incr; split; [|exact E2]; lra]. simpl; lra. }
  eapply Rle_trans; [|apply pow_incr; split; [|exact E3]; lra]. simpl; lra.
Qed.
Lemma exp_high : 9/100 <= exp (- (23958/10000)).
Proof.
  replace (- (23958/10000)) with (INR 256 * - (9358594/1000000000 - 1/4000000000)) by (rewrite INR_IZR_INZ; simpl IZR; lra). rewrite exp_scale.
  set (x := - (9358594/1000000000 - 1/4000000000)).
  assert (E : 990641/1000000 <= exp x) by (pose proof (exp_ge x); unfold x in *; lra).
  replace 256%nat with (4 * (4 * (4 * 4)))%nat by reflexivity. rewrite !pow_mult.
  assert (E1 : 96308/100000 <= exp x ^ 4). { eapply Rle_trans; [|apply pow_incr; split; [|exact E]; lra]. simpl; lra. }
  assert (E2 : 860299/1000000 <= (exp x ^ 4) ^ 4). { eapply Rle_trans; [|apply pow_incr; split; [|exact E1]; lra]. simpl; lra. }
  assert (E3 : 54774/100000 <= ((exp x ^ 4) ^ 4) ^ 4). { eapply Rle_trans; [|apply pow_incr; split; [|exact E2]; lra]. simpl; lra. }
  eapply Rle_trans; [|apply pow_incr; split; [|exact E3]; lra]. simpl; lra.
Qed.
Lemma sigmoid_at t E : 0 < E -> E <= exp (2 * t) -> 1 - / (E + 1) <= 1/2 * (1 + tanh t).
Proof.
  intros H0 H. rewrite tanh_exp. assert (/ (exp (2 * t) + 1) <= / (E + 1)) by (apply Rinv_le_contravar; lra). unfold Rdiv. lra.
Qed.
Lemma exp_le a b : a <= b -> exp a <= exp b.
Proof. intros [H| ->]; [left; apply exp_increasing; auto|lra]. Qed.
Lemma default_exchanged_config : csd_config label (exchanged_tcts default_tcts) lut Sigmoid None.
Proof.
  apply (stacked_config label 0.43 0.0000025 lut 0.0016); try lra; try discriminate; auto.
  - apply exchanged_stack_bounded. exact default_bounded.
  - apply exchanged_stacked. exact default_stacked.
  - rewrite exchanged_length. cbn [default_tcts length]. lia.
  - simpl. lra.
Qed.
Lemma q_on_tct7 : tct_bezier_number tct7 lut (Some 7%nat) (fst q) = Ok (snd q) /\
  tct_bezier_number (exchanged_tct 7 tct7) lut (Some 7%nat) (fst (reflect q)) = Ok (snd (reflect q)).
Proof.
  assert (B : bounded_tct 0.43 0.0000025 lut tct7) by exact (nth_bounded default_tcts lut 0.43 0.0000025 default_bounded 6 tct7 tct7_nth).
  assert (G : forall p c k, bounded_tct 0.43 0.0000025 lut p -> corner p c -> (k < 7)%nat ->
    tct_bezier_number p lut (Some 7%nat) (start_x p + INR k * (len_left p + len_right p)) = Ok (start_y p + INR k * (len_left p * slope_left p + len_right p * slope_right p)) /\
    tct_bezier_number p lut (Some 7%nat) (end_x p + INR k * (len_left p + len_right p)) = Ok (end_y p + INR k * (len_left p * slope_left p + len_right p * slope_right p))).
  { intros p c k Bp Hc Hk. destruct (bounded_good _ _ _ _ Bp) as [A Gm]. destruct (tct_total p lut (Some 7%nat) A Gm) as (f & Hf); [simpl; lia|].
    destruct (anchors_on_tct p lut (Some 7%nat) 7 f A Gm (or_intror eq_refl) Hf) as [_ H].
    destruct (H (2 * k)%nat _ (tct_anchors_nth p c 7 (2 * k) (proj1 A) Hc ltac:(lia))) as [H1 H2]. rewrite closed_even in H1, H2.
    unfold left_anchor, right_anchor, peak_point in H1, H2. cbn [fst snd] in H1, H2. destruct Hc as [C1 C2].
    split; rewrite (Hf _); f_equal.
    - match type of H1 with f ?a = ?b => replace (start_x p + INR k * (len_left p + len_right p)) with a by ring; rewrite H1 end. lra.
    - match type of H2 with f ?a = ?b => replace (end_x p + INR k * (len_left p + len_right p)) with a by ring; rewrite H2 end. lra. }
  assert (I6 : INR 6 = 6) by (rewrite INR_IZR_INZ; reflexivity).
  split.
  - destruct (G tct7 c7 6%nat B c7_corner ltac:(lia)) as [_ E]. rewrite I6 in E. exact E.
  - destruct (G (exchanged_tct 7 tct7) c7' 0%nat (exchanged_bounded _ _ _ _ _ B) (mirror_corner tct7 c7 7 c7_corner) ltac:(lia)) as [E _].
    cbn [INR] in E. rewrite !Rmult_0_l, !Rplus_0_r in E. unfold exchanged_tct in E at 2 3. cbn [start_x start_y period_vector fst snd] in E. rewrite inr6 in E. exact E.
Qed.
Lemma default_exchange_differs : exists v o o' lead lead',
  ideal_csd_geometric label default_tcts [fst v; fst v] [snd v; snd v] (ResInt 1) (- (PI / 4)) lut Sigmoid None = Ok (Csd1 [o] lead) /\
  ideal_csd_geometric label (exchanged_tcts default_tcts) [snd v; snd v] [fst v; fst v] (ResInt 1) (- (PI / 4)) lut Sigmoid None = Ok (Csd1 [o'] lead') /\
  fst o + snd o = 7 /\ fst o' + snd o' = 7 /\ snd o + 1/200 < fst o'.
Proof.
  set (v := rotate_point (- (PI / 4)) q).
  assert (Ev : tct_view (- (PI / 4)) v = q) by (unfold tct_view, v; apply rotate_back).
  assert (Ev' : tct_view (- (PI / 4)) (exchange v) = reflect q) by (rewrite view_exchange, Ev; reflexivity).
  pose proof (default_config label Lab) as C. pose proof default_exchanged_config as C'.
  pose proof C as (P & _). pose proof C' as (P' & _). cbn [g_tcts g_lut g_cdf g_gamma default_csd] in C, P.
  assert (K : Sigmoid <> UnknownCdf) by discriminate.
  assert (Er : res_list (ResInt 1) = [Z.of_nat 1]) by reflexivity.
  destruct (csd_1d label default_tcts (fst v) (fst v) (snd v) (snd v) (ResInt 1) 1 (- (PI / 4)) lut Sigmoid None _ P K eq_refl Er) as (occ & lead & E & Lo & Ll & _ & _ & Q).
  destruct (csd_1d label (exchanged_tcts default_tcts) (snd v) (snd v) (fst v) (fst v) (ResInt 1) 1 (- (PI / 4)) lut Sigmoid None _ P' K eq_refl Er) as (occ' & lead' & E' & Lo' & Ll' & _ & _ & Q').
  destruct occ as [|o [|]]; try discriminate Lo. destruct occ' as [|o' [|]]; try discriminate Lo'.
  destruct lead as [|lab [|]]; try discriminate Ll. destruct lead' as [|lab' [|]]; try discriminate Ll'.
  assert (Pv : forall x, pixel_voltage (x, x) 1 0 = x) by (intros x; unfold pixel_voltage; cbn [fst snd INR]; ring).
  destruct (Q 0%nat o eq_refl) as (m & A & Po). destruct (Q' 0%nat o' eq_refl) as (m' & A' & Po'). rewrite !Pv in A, Po, A', Po'.
  change (snd v, fst v) with (exchange v) in A', Po'. replace (fst v, snd v) with v in A, Po by (destruct v; auto).
  destruct q_on_tct7 as [T T'].
  assert (El : electrons default_tcts lut (- (PI / 4)) v 7).
  { apply (electrons_on_tct default_tcts lut 0.43 0.0000025 0.0016 _ v 7 tct7); try lra; auto using default_bounded, default_stacked.
    - cbn [default_tcts length]. lia.
    - rewrite Ev. exact T. }
  assert (El' : electrons (exchanged_tcts default_tcts) lut (- (PI / 4)) (exchange v) 7).
  { apply (electrons_on_tct (exchanged_tcts default_tcts) lut 0.43 0.0000025 0.0016 _ (exchange v) 7 (exchanged_tct 7 tct7)); try lra.
    - apply exchanged_stack_bounded. exact default_bounded.
    - apply exchanged_stacked. exact default_stacked.
    - rewrite exchanged_length. cbn [default_tcts length]. lia.
    - exact (exchanged_nth _ _ _ tct7_nth).
    - rewrite Ev'. exact T'. }
  assert (m = 7%nat). { destruct A as [A|[A _]]; [exact (electrons_unique _ _ _ _ _ _ A El)|exfalso; exact (electrons_not_above_all _ _ _ _ _ El A)]. } subst m.
  assert (m' = 7%nat). { destruct A' as [A'|[A' _]]; [exact (electrons_unique _ _ _ _ _ _ A' El')|exfalso; exact (electrons_not_above_all _ _ _ _ _ El' A')]. } subst m'.
  destruct (pixel_occ_bounds _ _ _ _ _ _ _ Po) as (_ & S1 & _). destruct (pixel_occ_bounds _ _ _ _ _ _ _ Po') as (_ & S2 & _).
  assert (I7 : INR 7 = 7) by (rewrite INR_IZR_INZ; reflexivity).
  exists v, o, o', [lab], [lab']. split; [exact E|]. split; [exact E'|]. rewrite I7 in S1, S2. split; [exact S1|]. split; [exact S2|].
  assert (Px : scan_pixel (Csd1 [o] [lab]) (fst v, fst v) (snd v, snd v) v o lab).
  { exists 0%nat. cbn [length]. rewrite !Pv. repeat split; auto. }
  assert (Px' : scan_pixel (Csd1 [o'] [lab']) (snd v, snd v) (fst v, fst v) (exchange v) o' lab').
  { exists 0%nat. cbn [length]. rewrite !Pv. repeat split; auto. }
  assert (Cdf : forall x x0 g, isclose0 g = false -> sigmoid_cdf x x0 g = 1/2 * (1 + tanh ((x - x0) / g)))
    by (intros x x0 g Hg; unfold sigmoid_cdf; rewrite Hg; reflexivity).
  destruct (default_pitch 7 u c7 tct7 ltac:(lia) line7 eq_refl) as [Pi W].
  destruct width7' as [_ W'].
  pose proof (ProofsQuant.occupation_sum label default_tcts (- (PI / 4)) lut Sigmoid None (ResInt 1) _ _ _ _ _ v o lab 7 u c7 tct7 C E Px ltac:(lra) ltac:(lia) line7 eq_refl
    ltac:(simpl; lra) W sigmoid_cdf (fun t => 1/2 * (1 + tanh t)) ltac:(left; auto) Cdf) as F.
  pose proof (ProofsQuant.occupation_sum label (exchanged_tcts default_tcts) (- (PI / 4)) lut Sigmoid None (ResInt 1) _ _ _ _ _ (exchange v) o' lab' 7 u' c7' (exchanged_tct 7 tct7)
    C' E' Px' ltac:(lra) ltac:(lia) line7' (exchanged_nth _ _ _ tct7_nth) ltac:(simpl; lra) W' sigmoid_cdf (fun t => 1/2 * (1 + tanh t)) ltac:(left; auto) Cdf) as F'.
  rewrite Ev in F. rewrite Ev' in F'. cbn [gamma_of] in F, F'. cbn [seq map Rsum] in F, F'.
  assert (Tail : forall k, (k <= 5)%nat -> 1 - 1/10000 <= 1/2 * (1 + tanh (22/10 * beyond u c7 tct7 k q))).
  { intros k Hk. eapply Rle_trans; [|apply sigmoid_high]. apply Rplus_le_compat_l, Ropp_le_contravar.
    assert (Bk : 52/10 <= beyond u c7 tct7 k q).
    { pose proof beyond5 as B5. replace 5%nat with (k + (5 - k))%nat in B5 by lia. rewrite beyond_linear in B5. pose proof (pos_INR (5 - k)). nra. }
    replace (1/10000) with (/ 10000) by lra. apply (small_tail _ 300%nat); [rewrite INR_IZR_INZ; simpl IZR; lra|lra|].
    replace 300%nat with (15 * 20)%nat by reflexivity. rewrite pow_mult. apply Rle_trans with (2 ^ 20); [simpl; lra|]. apply pow_incr. simpl; lra. }
  assert (Pos : forall t, 0 <= 1/2 * (1 + tanh t)) by (intros t; pose proof (tanh_bound t); lra).
  pose proof (Tail 0%nat ltac:(lia)). pose proof (Tail 1%nat ltac:(lia)). pose proof (Tail 2%nat ltac:(lia)).
  pose proof (Tail 3%nat ltac:(lia)). pose proof (Tail 4%nat ltac:(lia)). pose proof (Tail 5%nat ltac:(lia)).
  assert (L : 1 - / (122/10 + 1) <= 1/2 * (1 + tanh (22/10 * beyond u c7 tct7 6 q))).
  { apply sigmoid_at; [lra|]. eapply Rle_trans; [exact exp_low|]. apply exp_le. pose proof beyond6. lra. }
  assert (L' : 1 - / (9/100 + 1) <= 1/2 * (1 + tanh (22/10 * beyond u' c7' (exchanged_tct 7 tct7) 0 (reflect q)))).
  { apply sigmoid_at; [lra|]. eapply Rle_trans; [exact exp_high|]. apply exp_le. pose proof beyond0'. lra. }
  repeat match type of F' with context [1/2 * (1 + tanh ?t)] => pose proof (Pos t); set (tanh t) in * end.
  lra.
Qed.
End Default.
