(** Proofs about exchanged gates and dots. *)
From Verif Require Import RPrelude Arr ModelSupport ModelTct ModelCsd SpecSupport SpecTct SpecCsd SpecQuant SpecExchange
  ProofsSupport ProofsTct ProofsCsd ProofsOcc ProofsDriver ProofsRegions ProofsScan ProofsDistortions.
Local Open Scope R_scope.

Section Mirror.
Variable p : tct_params.
Variable c : point.
Variable k : nat.
Hypothesis Hc : corner p c.
Hypothesis Hb : start_x p <= fst c <= end_x p.
Hypothesis Hl : 2 * (fst c - start_x p) <= len_left p.
Hypothesis Hr : 2 * (end_x p - fst c) <= len_right p.
Hypothesis HP : 0 < len_left p + len_right p.
Hypothesis Pk : peak p.
Let T := len_left p + len_right p.
Let V := len_left p * slope_left p + len_right p * slope_right p.
Let m := INR (k - 1).
Let p' := exchanged_tct k p.
Let c' : point := (- (fst c + m * T), snd c + m * V).

Lemma mirror_corner : corner p' c'.
Proof. destruct Hc as [A B]. unfold corner, c', p', exchanged_tct; simpl. fold T V m. lra. Qed.
Lemma mirror_between : start_x p' <= fst c' <= end_x p'.
Proof. unfold c', p', exchanged_tct; simpl. fold T V m. lra. Qed.
Lemma mirror_left : 2 * (fst c' - start_x p') <= len_left p'.
Proof. unfold c', p', exchanged_tct; simpl. fold T V m. lra. Qed.
Lemma mirror_right : 2 * (end_x p' - fst c') <= len_right p'.
Proof. unfold c', p', exchanged_tct; simpl. fold T V m. lra. Qed.
Lemma mirror_period : 0 < len_left p' + len_right p'.
Proof. unfold p', exchanged_tct; simpl. lra. Qed.
Lemma mirror_peak : peak p'.
Proof. unfold peak in *. unfold p', exchanged_tct; simpl. lra. Qed.

(** *** the rounded part *)
Lemma mirror_bezier x : start_x p < end_x p -> start_x p <= x <= end_x p ->
  bezier_solve p' c' (- (x + m * T)) = bezier_solve p c x + m * V.
Proof.
  intros L X. pose proof mirror_corner as Hc'. pose proof mirror_between as Hb'. pose proof mirror_peak as Pk'.
  assert (S' : start_x p' = - (end_x p + m * T)) by reflexivity. assert (E' : end_x p' = - (start_x p + m * T)) by reflexivity.
  unfold peak in *. rewrite !bezier_solve_value by (auto; lra).
  pose proof (tpar_01 p c Hb x X) as I. pose proof (tpar_x p c Hb x X) as Q.
  pose proof (tpar_01 p' c' Hb' (- (x + m * T)) ltac:(lra)) as I'. pose proof (tpar_x p' c' Hb' (- (x + m * T)) ltac:(lra)) as Q'.
  set (t := tpar p c x) in *. set (t' := tpar p' c' (- (x + m * T))) in *.
  assert (F : cx p' c' (1 - t) = - (cx p c t + m * T)) by (unfold cx, c', p', exchanged_tct; simpl; fold T V m; ring).
  assert (E : t' = 1 - t).
  { destruct (Rtotal_order t' (1 - t)) as [O|[O|O]]; auto;
      [pose proof (cx_mono p' c' Hb' t' (1 - t) I' ltac:(lra) ltac:(lra) O)|pose proof (cx_mono p' c' Hb' (1 - t) t' ltac:(lra) I' ltac:(lra) O)];
      rewrite Q', F, Q in *; lra. }
  rewrite E. destruct Hc as [A B]. unfold cy, c', p', exchanged_tct; simpl. fold T V m.
  replace (end_y p) with (start_y p + slope_left p * (fst c - start_x p) + slope_right p * (end_x p - fst c)) by lra. ring.
Qed.

Let bez := bezier_solve p c.
Let bez' := bezier_solve p' c'.
Let bl := bezier_length p.
Let rl := right_lin_length p c.
Let ll := left_lin_length p c.

Lemma bez_s : 0 < bl -> bez (start_x p) = start_y p.
Proof. intros H. unfold bl, bezier_length in H. unfold peak in Pk. unfold bez. rewrite bezier_solve_value by (auto; lra). rewrite tpar_start by auto. apply cy_0. Qed.
Lemma bez_e : 0 < bl -> bez (end_x p) = end_y p.
Proof. intros H. unfold bl, bezier_length in H. unfold peak in Pk. unfold bez. rewrite bezier_solve_value by (auto; lra). rewrite tpar_end by auto. apply cy_1; auto. Qed.
Lemma bl_eq : bezier_length p' = bl.
Proof. unfold bl, bezier_length, p', exchanged_tct; simpl. ring. Qed.
Lemma bez_s' : 0 < bezier_length p' -> bez' (start_x p') = start_y p'.
Proof.
  rewrite bl_eq. intros H. unfold bl, bezier_length in H. unfold bez'. change (start_x p') with (- (end_x p + m * T)).
  rewrite mirror_bezier by lra. fold bez. rewrite bez_e by auto. reflexivity.
Qed.
Lemma bez_e' : 0 < bezier_length p' -> bez' (end_x p') = end_y p'.
Proof.
  rewrite bl_eq. intros H. unfold bl, bezier_length in H. unfold bez'. change (end_x p') with (- (start_x p + m * T)).
  rewrite mirror_bezier by lra. fold bez. rewrite bez_s by auto. reflexivity.
Qed.

Lemma mirror_lens : right_lin_length p' c' = ll /\ left_lin_length p' c' = rl /\ period_length p' = T /\
  y_offset_period p' c' = - y_offset_period p c /\ - y_offset_period p c = V.
Proof.
  pose proof (offset_period p c Hc) as O. pose proof (offset_period p' c' mirror_corner) as O'. fold V in O.
  assert (EV : len_left p' * slope_left p' + len_right p' * slope_right p' = - V) by (unfold p', exchanged_tct; simpl; unfold V; ring).
  rewrite EV in O'. repeat split; auto; try lra; unfold rl, ll, right_lin_length, left_lin_length, period_length, p', c', exchanged_tct; simpl; fold T V m; try ring.
  unfold T. ring.
Qed.

(** one period: z in [0, T] *)
Lemma mirror_seg z : 0 <= z <= T -> W p' c' bez' (bl - z) = W p c bez z + m * V.
Proof.
  intros Z. destruct (lens p c Hb Hl Hr HP) as (B0 & R0 & L0 & P0 & S0). fold bl rl ll in B0, R0, L0, S0. change (period_length p) with T in P0, S0.
  destruct mirror_lens as (Er & El & Ep & Eo & Eo2).
  rewrite (W_on_period p c bez Hc Hb Hl Hr HP bez_s bez_e 0) by (change (period_length p) with T; simpl; lra).
  change (period_length p) with T. replace (z - 0 * T) with z by ring. rewrite Rmult_0_r, Rminus_0_r.
  pose proof (W_on_period p' c' bez' mirror_corner mirror_between mirror_left mirror_right mirror_period bez_s' bez_e') as WP'. rewrite Ep, Eo in WP'.
  assert (Y : y_offset_inv p c = 2 * end_y p + rl * slope_right p) by (apply yoi).
  assert (Y' : y_offset_inv p' c' = 2 * (start_y p + m * V) - ll * slope_left p).
  { rewrite (yoi p' c'), Er. unfold p', exchanged_tct; simpl. fold T V m. ring. }
  assert (EV : V = 2 * end_y p - 2 * start_y p + rl * slope_right p + ll * slope_left p).
  { rewrite <- Eo2. unfold y_offset_period. rewrite Y. fold ll. ring. }
  destruct (Rle_dec z bl) as [Z1|Z1].
  - rewrite (WP' 0%Z) by lra. replace (bl - z - 0 * T) with (bl - z) by ring. rewrite Rmult_0_r, Rminus_0_r.
    destruct (Rlt_dec 0 bl) as [B1|B1].
    + rewrite (seg1 p' c' bez' mirror_between mirror_left mirror_right mirror_period bez_e') by (rewrite bl_eq; lra).
      rewrite (seg1 p c bez Hb Hl Hr HP bez_e) by (fold bl; lra).
      replace (bl - z + start_x p') with (- ((z + start_x p) + m * T)) by (unfold bl, bezier_length, p', exchanged_tct; simpl; fold T m; ring).
      unfold bez', bez. apply mirror_bezier; unfold bl, bezier_length in *; lra.
    + assert (z = 0) by lra. assert (E0 : bl = 0) by lra. subst z. rewrite E0. replace (0 - 0) with 0 by ring.
      rewrite (seg_0 p' c' bez' mirror_corner mirror_between mirror_left mirror_right mirror_period bez_s' bez_e').
      rewrite (seg_0 p c bez Hc Hb Hl Hr HP bez_s bez_e). 
      destruct Hc as [A1 A2]. assert (X1 : fst c - start_x p = 0) by (unfold bl, bezier_length in E0; lra). assert (X2 : end_x p - fst c = 0) by (unfold bl, bezier_length in E0; lra).
      rewrite X1 in A1. rewrite X2 in A2. change (start_y p') with (end_y p + m * V). lra.
  - rewrite (WP' (-1)%Z) by lra. replace (bl - z - -1 * T) with (bl + T - z) by ring.
    destruct (Rle_dec z (bl + rl)) as [Z2|Z2]; [|destruct (Rle_dec z (bl * 2 + rl)) as [Z3|Z3]].
    + rewrite (seg2 p c bez Hc Hb Hl Hr HP bez_s bez_e) by (fold bl rl; lra).
      rewrite (seg4 p' c' bez' mirror_between mirror_left mirror_right mirror_period) by (rewrite bl_eq, Er; lra).
      rewrite bl_eq, Er, Y'. fold bl. change (start_y p') with (end_y p + m * V). change (slope_left p') with (- slope_right p).
      rewrite Eo2. replace T with (2 * bl + rl + ll) by lra. rewrite EV. ring.
    + assert (B1 : 0 < bl) by lra.
      rewrite (seg3 p c bez Hb Hl Hr HP bez_s) by (fold bl rl; lra).
      rewrite (seg3 p' c' bez' mirror_between mirror_left mirror_right mirror_period bez_s') by (rewrite bl_eq, ?Er; lra).
      rewrite bl_eq, Er, Y, Y'. fold bl rl.
      replace (2 * bl + ll - (bl + T - z) + start_x p') with (- ((2 * bl + rl - z + start_x p) + m * T))
        by (unfold p', exchanged_tct; simpl; fold T m; replace T with (2 * bl + rl + ll) by lra; replace (end_x p) with (bl + start_x p) by (unfold bl, bezier_length; ring); ring).
      unfold bez'. rewrite mirror_bezier by (unfold bl, bezier_length in *; lra). fold bez. rewrite Eo2. rewrite EV. ring.
    + rewrite (seg4 p c bez Hb Hl Hr HP) by (fold bl rl; lra).
      rewrite (seg2 p' c' bez' mirror_corner mirror_between mirror_left mirror_right mirror_period bez_s' bez_e') by (rewrite bl_eq, Er; lra).
      rewrite bl_eq, Y. fold bl rl. change (end_y p') with (start_y p + m * V). change (slope_right p') with (- slope_left p).
      rewrite Eo2. replace T with (2 * bl + rl + ll) by lra. rewrite EV. ring.
Qed.
Lemma mirror_W z : W p' c' bez' (bl + m * T - z) = W p c bez z.
Proof.
  destruct mirror_lens as (Er & El & Ep & Eo & Eo2).
  assert (Km : m = IZR (Z.of_nat (k - 1))) by (unfold m; apply INR_IZR_INZ).
  pose proof (div_bounds z T HP) as B. set (j := Int_part (z / T)) in *.
  pose proof (W_shift p c bez Hc Hb Hl Hr HP bez_s bez_e j (z - IZR j * T)) as S1. change (period_length p) with T in S1.
  replace (z - IZR j * T + IZR j * T) with z in S1 by ring. rewrite S1.
  pose proof (W_shift p' c' bez' mirror_corner mirror_between mirror_left mirror_right mirror_period bez_s' bez_e' (Z.of_nat (k - 1) - j) (bl - (z - IZR j * T))) as S2.
  rewrite Ep, Eo, minus_IZR, <- Km in S2.
  replace (bl + m * T - z) with (bl - (z - IZR j * T) + (m - IZR j) * T) by ring. rewrite S2, mirror_seg by lra. rewrite <- Eo2. ring.
Qed.

Lemma mirror_F lut x : explicit lut -> (1 <= k)%nat -> Ftct p' c' lut (Some k) (- x) = Ftct p c lut (Some k) x.
Proof.
  intros Ex Hk.
  assert (G : good_mode p lut) by (split; [destruct Ex; subst; discriminate|auto]).
  assert (G' : good_mode p' lut) by (split; [destruct Ex; subst; discriminate|intros; apply mirror_peak]).
  assert (N : slope_left p <> slope_right p) by (unfold peak in Pk; lra).
  assert (Eb : bezier_eval p c lut = bez) by (destruct Ex; subst; reflexivity).
  assert (Eb' : bezier_eval p' c' lut = bez') by (destruct Ex; subst; reflexivity).
  destruct mirror_lens as (Er & El & Ep & Eo & Eo2).
  assert (M : INR k - 1 = m) by (unfold m; rewrite minus_INR by lia; reflexivity).
  assert (M0 : 0 <= m * T) by (apply Rmult_le_pos; [apply pos_INR|unfold T; lra]).
  assert (We : wave_end p k = end_x p + m * T) by (unfold wave_end; rewrite M; reflexivity).
  assert (We' : wave_end p' k = - start_x p).
  { unfold wave_end. rewrite M. unfold p', exchanged_tct; simpl. fold T V m. unfold T. ring. }
  assert (Sx' : start_x p' = - (end_x p + m * T)) by reflexivity.
  destruct (Rlt_dec x (start_x p)) as [X1|X1]; [|destruct (Rlt_dec (wave_end p k) x) as [X2|X2]].
  - unfold Ftct, outer_value. rewrite (Rleb_true (wave_end p' k)) by lra. rewrite (Rleb_false (wave_end p k)) by lra.
    rewrite (Rleb_true x) by lra. rewrite We', M, Eo. change (start_y p') with (end_y p + m * V). change (end_y p') with (start_y p + m * V).
    change (slope_right p') with (- slope_left p). rewrite Eo2. ring.
  - unfold Ftct, outer_value. rewrite (Rleb_true (wave_end p k)) by lra. rewrite (Rleb_false (wave_end p' k)) by lra.
    rewrite (Rleb_true (- x)) by lra. rewrite We, M. rewrite Sx'. change (start_y p') with (end_y p + m * V).
    change (slope_left p') with (- slope_right p). replace (y_offset_period p c) with (- V) by lra. ring.
  - rewrite (F_wave p c lut Hc Hb Hl Hr HP G k x Hk) by lra.
    rewrite (F_wave p' c' lut mirror_corner mirror_between mirror_left mirror_right mirror_period G' k (- x) Hk) by lra.
    rewrite Eb, Eb'. replace (- x - start_x p') with (bl + m * T - (x - start_x p)) by (rewrite Sx'; unfold bl, bezier_length; ring).
    apply mirror_W.
Qed.
End Mirror.

Lemma mirror_admissible p k : admissible p -> admissible (exchanged_tct k p).
Proof.
  intros (N & HP & c & Hc & Hb & Hl & Hr). split; [simpl; lra|]. split; [simpl; lra|].
  eexists. split; [exact (mirror_corner p c k Hc)|]. split; [apply mirror_between; auto|]. split; [apply mirror_left; auto|apply mirror_right; auto].
Qed.
Lemma exchange_tct p lut k x : admissible p -> peak p -> explicit lut -> (1 <= k)%nat ->
  exists y, tct_bezier_number p lut (Some k) x = Ok y /\ tct_bezier_number (exchanged_tct k p) lut (Some k) (- x) = Ok y.
Proof.
  intros (N & HP & c & Hc & Hb & Hl & Hr) Pk Ex Hk.
  assert (U : usable_lut lut) by (destruct Ex; subst; discriminate).
  exists (Ftct p c lut (Some k) x). split; [apply tct_number_F; auto; split; auto|].
  rewrite <- (mirror_F p c k Hc Hb Hl Hr HP Pk lut x Ex Hk).
  apply tct_number_F; auto using mirror_corner, mirror_between, mirror_left, mirror_right, mirror_period; [simpl; lra|].
  split; auto. intros _. apply mirror_peak; auto.
Qed.

(** ** Configurations *)
Definition reflect (q : point) : point := (- fst q, snd q).

Lemma view_exchange v : tct_view (- (PI / 4)) (exchange v) = reflect (tct_view (- (PI / 4)) v).
Proof.
  unfold tct_view, rotate_point, exchange, reflect. cbn [fst snd]. rewrite Ropp_involutive, cos_PI4, sin_PI4. f_equal; ring.
Qed.
Lemma exchanged_nth params i p : nth_error params i = Some p -> nth_error (exchanged_tcts params) i = Some (exchanged_tct (S i) p).
Proof.
  intros E. unfold exchanged_tcts.
  assert (H : nth_error (combine (seq 0 (length params)) params) i = Some (i, p)).
  { assert (G : forall (l : list tct_params) s j q, nth_error l j = Some q -> nth_error (combine (seq s (length l)) l) j = Some ((s + j)%nat, q)).
    { induction l as [|a t IH]; intros s j q; [destruct j; discriminate|]. destruct j as [|j]; simpl; intros Q.
      - inversion Q. do 2 f_equal. lia.
      - rewrite (IH (S s) j q Q). do 2 f_equal. lia. }
    exact (G params 0%nat i p E). }
  erewrite map_nth_error by exact H. reflexivity.
Qed.
Lemma exchanged_length params : length (exchanged_tcts params) = length params.
Proof. unfold exchanged_tcts. rewrite map_length, combine_length, seq_length. lia. Qed.
Lemma exchanged_inv params i p' : nth_error (exchanged_tcts params) i = Some p' -> exists p, nth_error params i = Some p /\ p' = exchanged_tct (S i) p.
Proof.
  intros E. destruct (nth_error params i) as [p|] eqn:Ep.
  - exists p. rewrite (exchanged_nth _ _ _ Ep) in E. inversion E. auto.
  - apply nth_error_None in Ep. assert (nth_error (exchanged_tcts params) i = None) by (apply nth_error_None; rewrite exchanged_length; auto). congruence.
Qed.
Lemma exchanged_proper params lut : proper_tcts params lut -> proper_tcts (exchanged_tcts params) lut.
Proof.
  intros P. apply Forall_forall. intros p' Hp'. apply In_nth_error in Hp'. destruct Hp' as (i & Hi).
  destruct (exchanged_inv _ _ _ Hi) as (p & Ep & ->). unfold proper_tcts in P. rewrite Forall_forall in P.
  destruct (P p (nth_error_In _ _ Ep)) as (A & U & M). split; [apply mirror_admissible; auto|]. split; auto.
  intros E. apply mirror_peak. apply M; auto.
Qed.
Definition along (q : point) (m : R) (w : point) : point := (fst q + m * fst w, snd q + m * snd w).
Lemma exchanged_line params n u l po : (1 <= n)%nat -> interdot_line params n u l -> same_period params n -> nth_error params (n - 1) = Some po ->
  interdot_line (exchanged_tcts params) n (reflect (along u (INR (n - 1)) (period_vector po))) (reflect (along l (INR (n - 1)) (period_vector po))).
Proof.
  intros Hn (pu & cu & po' & Eu & Cu & -> & Eo & Co) (q & q' & E1 & E2 & EP) E3.
  rewrite E1 in E3; inversion E3; subst q. rewrite Eu in E2; inversion E2; subst q'. rewrite E1 in Eo; inversion Eo; subst po'.
  exists (exchanged_tct (S n) pu), (reflect (along cu (INR n) (period_vector pu))), (exchanged_tct n po).
  split; [apply exchanged_nth; auto|]. split; [|split; [|split]].
  - pose proof (mirror_corner pu cu (S n) Cu) as M. replace (S n - 1)%nat with n in M by lia. exact M.
  - rewrite EP. unfold reflect, along, exchanged_tct, period_vector. cbn [fst snd len_left len_right slope_left slope_right].
    replace (INR n) with (INR (n - 1) + 1) by (rewrite minus_INR by lia; simpl; ring). f_equal; ring.
  - pose proof (exchanged_nth _ _ _ E1) as X. replace (S (n - 1)) with n in X by lia. exact X.
  - exact (mirror_corner po l n Co).
Qed.
Lemma exchange_cdf kind f a b c d g : cdf_of kind f -> isclose0 g = false -> c - d = b - a -> f c d g = 1 - f a b g.
Proof.
  intros Cf G E. assert (N : g <> 0) by (apply not_close_neq; auto). destruct Cf as [[_ ->]|[_ ->]]; [unfold sigmoid_cdf|unfold cauchy_cdf]; rewrite G, E;
  replace ((b - a) / g) with (- ((a - b) / g)) by (field; auto); [rewrite tanh_odd|rewrite atan_opp]; lra.
Qed.
Lemma width_visible g u l po : g <> 0 -> u <> l -> 1 / 100000000 * Rabs g * dist2 u l < Rabs (cross (vec u l) (coupling_vector po)) ->
  isclose0 (- cross (vec u l) (coupling_vector po) / sqrt (fst (vec u l) ^ 2 + snd (vec u l) ^ 2) / g) = false.
Proof.
  intros G Hul H. pose proof (vec_norm_pos u l Hul) as N. rewrite dist2_vec in H. set (nn := sqrt _) in *. set (w := cross _ _) in *.
  match goal with |- isclose0 ?e = false => destruct (isclose0_spec e) as [Q|]; auto end. exfalso.
  assert (Pg : 0 < Rabs g) by (apply Rabs_pos_lt; auto).
  unfold Rdiv in Q. rewrite !Rabs_mult, Rabs_Ropp, (Rabs_pos_eq (/ nn)), Rabs_inv in Q by (left; apply Rinv_0_lt_compat; auto).
  assert (Q' : Rabs w * / nn * / Rabs g * (nn * Rabs g) <= 1 * / 100000000 * (nn * Rabs g)) by (apply Rmult_le_compat_r; [nra|lra]).
  replace (Rabs w * / nn * / Rabs g * (nn * Rabs g)) with (Rabs w) in Q' by (field; lra). lra.
Qed.
Lemma exchange_dot1 kind f g po u l n q : cdf_of kind f -> g <> 0 -> u <> l -> (1 <= n)%nat ->
  1 / 100000000 * Rabs g * dist2 u l < Rabs (cross (vec u l) (coupling_vector po)) ->
  dot1_formula f g (exchanged_tct n po) (reflect (along u (INR (n - 1)) (period_vector po))) (reflect (along l (INR (n - 1)) (period_vector po))) n (reflect q)
  = INR n - dot1_formula f g po u l n q.
Proof.
  intros Cf G Hul Hn W. pose proof (width_visible g u l po G Hul W) as V. unfold dot1_formula.
  set (u' := reflect _). set (l' := reflect (along l _ _)).
  set (w := - cross (vec u l) (coupling_vector po) / sqrt (fst (vec u l) ^ 2 + snd (vec u l) ^ 2) / g) in *.
  assert (Ev : vec u' l' = reflect (vec u l)).
  { unfold u', l', vec, reflect, along. cbn [fst snd]. f_equal; ring. }
  assert (En : sqrt (fst (vec u' l') ^ 2 + snd (vec u' l') ^ 2) = sqrt (fst (vec u l) ^ 2 + snd (vec u l) ^ 2)).
  { rewrite Ev. unfold reflect. cbn [fst snd]. f_equal. ring. }
  assert (Ew : - cross (vec u' l') (coupling_vector (exchanged_tct n po)) / sqrt (fst (vec u' l') ^ 2 + snd (vec u' l') ^ 2) / g = w).
  { rewrite En. unfold w. do 3 f_equal. rewrite Ev. unfold cross, reflect, coupling_vector, exchanged_tct. cbn [fst snd start_x start_y end_x end_y]. ring. }
  rewrite Ew.
  assert (Ep : forall k, (k < n)%nat -> peak_point (exchanged_tct n po) l' k = reflect (peak_point po l (n - 1 - k))).
  { intros k Hk. unfold peak_point, l', reflect, along, period_vector, exchanged_tct. cbn [fst snd len_left len_right slope_left slope_right].
    rewrite (minus_INR (n - 1) k) by lia. f_equal; ring. }
  assert (Ed : forall a b, line_distance u' l' (reflect a) - line_distance u' l' (reflect b) = line_distance u l b - line_distance u l a).
  { intros a b. rewrite !line_distance_diff, En, Ev. f_equal. unfold cross, vec, reflect. cbn [fst snd]. ring. }
  rewrite (Rsum_ext _ (fun k => 1 - f (line_distance u l q) (line_distance u l (peak_point po l (n - 1 - k))) w)).
  2: { intros k Hk. apply in_seq in Hk. rewrite Ep by lia. eapply exchange_cdf; eauto. }
  set (F := fun k => f (line_distance u l q) (line_distance u l (peak_point po l k)) w).
  change (Rsum (map (fun k => 1 - F (n - 1 - k)%nat) (seq 0 n)) = INR n - Rsum (map F (seq 0 n))).
  assert (R1 : map (fun k => F (n - 1 - k)%nat) (seq 0 n) = rev (map F (seq 0 n))).
  { apply nth_error_ext. intros i. destruct (Nat.ltb_spec i n) as [L|L].
    - rewrite nth_error_map_seq. rewrite (proj2 (Nat.ltb_lt _ _) L). symmetry.
      rewrite nth_error_rev by (rewrite map_length, seq_length; auto). rewrite map_length, seq_length.
      rewrite nth_error_map_seq. rewrite (proj2 (Nat.ltb_lt _ _)) by lia. f_equal.
    - transitivity (@None R); [|symmetry]; apply nth_error_None; rewrite ?rev_length, map_length, seq_length; auto. }
  assert (R2 : forall (H : nat -> R) s m, Rsum (map (fun k => 1 - H k) (seq s m)) = INR m - Rsum (map H (seq s m))).
  { intros H s m. revert s. induction m as [|m IH]; intros s; [simpl; lra|]. rewrite S_INR. cbn [seq map Rsum]. rewrite IH. lra. }
  rewrite R2, R1, Rsum_rev. reflexivity.
Qed.

Lemma exchanged_config label params lut kind gf : csd_config label params lut kind gf -> exchangeable params (gamma_of kind gf) ->
  csd_config label (exchanged_tcts params) lut kind gf.
Proof.
  intros (P & Hl & K & Lab & G & U) X. split; [apply exchanged_proper; auto|]. rewrite exchanged_length. repeat (split; [auto; lia|]).
  intros n u' l' Hn I'.
  destruct I' as (pu' & cu' & po' & Eu' & Cu' & Eu & Eo' & Co').
  assert (Hn' : (n < length params)%nat) by (rewrite <- exchanged_length; apply nth_error_Some; congruence).
  assert (Fa : Forall admissible params) by (eapply Forall_impl; [|exact P]; simpl; tauto).
  assert (Fa' : Forall admissible (exchanged_tcts params)) by (eapply Forall_impl; [|exact (exchanged_proper _ _ P)]; simpl; tauto).
  destruct (interdot_exists params n Fa (conj Hn Hn')) as (u & l & I). pose proof (U n u l Hn I) as N.
  destruct (X n (conj Hn Hn')) as [SP _]. destruct I as (pu & cu & po & I1 & I2 & I3 & I4 & I5).
  destruct (exchanged_line params n u l po Hn) as (qu & du & qo & J1 & J2 & J3 & J4 & J5); auto.
  { exists pu, cu, po. auto. }
  rewrite J1 in Eu'; inversion Eu'; subst qu. rewrite J4 in Eo'; inversion Eo'; subst qo.
  rewrite Forall_forall in Fa'.
  assert (du = cu') by (eapply corner_unique; eauto; apply (Fa' pu' (nth_error_In _ _ J1))). subst du.
  assert (El : reflect (along l (INR (n - 1)) (period_vector po)) = l') by (eapply corner_unique; eauto; apply (Fa' po' (nth_error_In _ _ J4))).
  rewrite <- Eu in J3. rewrite <- El, <- J3. intros E. apply N. unfold reflect, along in E. inversion E as [[E1 E2]].
  destruct u, l; cbn [fst snd] in *. f_equal; lra.
Qed.
Lemma cdf_known kind : kind <> UnknownCdf -> exists f, cdf_of kind f.
Proof. intros K. destruct kind; [exists sigmoid_cdf; left; auto|exists cauchy_cdf; right; auto|congruence]. Qed.
Lemma zero_total (o : R * R) : fst o + snd o = INR 0 -> 0 <= fst o -> 0 <= snd o -> o = (0, 0).
Proof. destruct o as [x y]. simpl. intros. f_equal; lra. Qed.

Lemma exchange_occ label params lut kind gf n v o o' : csd_config label params lut kind gf -> exchangeable params (gamma_of kind gf) -> 
  pixel_occ kind (calculate_all_bezier_anchors params 1 (- (PI / 4))) (gamma_of kind gf) v n o ->
  pixel_occ kind (calculate_all_bezier_anchors (exchanged_tcts params) 1 (- (PI / 4))) (gamma_of kind gf) (exchange v) n o' ->
  o' = exchange o.
Proof.
  intros C X Po Po'. pose proof (exchanged_config _ _ _ _ _ C X) as C'. destruct C as (P & Hl & K & Lab & G & U).
  destruct (pixel_occ_bounds _ _ _ _ _ _ _ Po) as (B & S1 & F1 & F2). destruct (pixel_occ_bounds _ _ _ _ _ _ _ Po') as (_ & S1' & F1' & F2').
  destruct (Nat.eq_dec n 0) as [->|Hn0].
  { rewrite (zero_total o), (zero_total o') by (auto; lra). reflexivity. }
  assert (Hn : (1 <= n < length params)%nat) by lia.
  assert (Fa : Forall admissible params) by (eapply Forall_impl; [|exact P]; simpl; tauto).
  assert (Fa' : Forall admissible (exchanged_tcts params)) by (eapply Forall_impl; [|exact (exchanged_proper _ _ P)]; simpl; tauto).
  destruct (interdot_exists params n Fa Hn) as (u & l & I). destruct (X n Hn) as [SP W].
  assert (I' := I). destruct I' as (_ & _ & po & _ & _ & _ & Ep & _). destruct (cdf_known kind K) as (f & Cf).
  pose proof (exchanged_line params n u l po ltac:(lia) I SP Ep) as I'.
  pose proof (exchanged_nth _ _ _ Ep) as Ep'. replace (S (n - 1)) with n in Ep' by lia.
  pose proof (region_occupation params _ _ n u l po kind f v o Fa ltac:(lia) I Ep Cf Po) as E.
  pose proof (region_occupation _ _ _ n _ _ _ kind f _ o' Fa' ltac:(lia) I' Ep' Cf Po') as E'.
  rewrite view_exchange, (exchange_dot1 kind f _ po u l n _ Cf G (U n u l ltac:(lia) I) ltac:(lia) (W u l po I Ep)) in E'.
  destruct o as [a b], o' as [a' b']. unfold exchange. cbn [fst snd] in *. f_equal; lra.
Qed.
Lemma exchange_pixels label params lut kind gf res res' d d' a1 b1 a2 b2 c1 e1 c2 e2 v o lab o' lab' :
  csd_config label params lut kind gf -> exchangeable params (gamma_of kind gf) ->
  ideal_csd_geometric label params [a1; b1] [a2; b2] res (- (PI / 4)) lut kind gf = Ok d ->
  ideal_csd_geometric label (exchanged_tcts params) [c1; e1] [c2; e2] res' (- (PI / 4)) lut kind gf = Ok d' ->
  scan_pixel d (a1, b1) (a2, b2) v o lab -> scan_pixel d' (c1, e1) (c2, e2) (exchange v) o' lab' ->
  fst o' + snd o' = fst o + snd o -> o' = exchange o.
Proof.
  intros C X E E' Px Px' S. pose proof (exchanged_config _ _ _ _ _ C X) as C'.
  destruct (scan_occ _ _ _ _ _ _ _ _ _ _ _ _ _ _ _ _ _ C eq_refl eq_refl E Px) as (n & _ & Po).
  destruct (scan_occ _ _ _ _ _ _ _ _ _ _ _ _ _ _ _ _ _ C' eq_refl eq_refl E' Px') as (n' & _ & Po').
  destruct (pixel_occ_bounds _ _ _ _ _ _ _ Po) as (_ & S1 & _). destruct (pixel_occ_bounds _ _ _ _ _ _ _ Po') as (_ & S2 & _).
  rewrite S1, S2 in S. apply INR_eq in S. subst n'. exact (exchange_occ _ _ _ _ _ _ _ _ _ C X Po Po').
Qed.

(** ** Electron numbers, evaluation without lookup tables *)
Lemma exchange_position params lut v k : proper_tcts params lut -> explicit lut ->
  (on_or_above params lut (- (PI / 4)) v k -> on_or_above (exchanged_tcts params) lut (- (PI / 4)) (exchange v) k) /\
  (strictly_below params lut (- (PI / 4)) v k -> strictly_below (exchanged_tcts params) lut (- (PI / 4)) (exchange v) k).
Proof.
  intros P Ex. unfold proper_tcts in P. rewrite Forall_forall in P.
  assert (G : forall p x, (1 <= k)%nat -> nth_error params (k - 1) = Some p ->
    nth_error (exchanged_tcts params) (k - 1) = Some (exchanged_tct k p) /\
    tct_bezier_number (exchanged_tct k p) lut (Some k) (- x) = tct_bezier_number p lut (Some k) x).
  { intros p x Hk E. pose proof (exchanged_nth _ _ _ E) as E'. replace (S (k - 1)) with k in E' by lia. split; auto.
    destruct (P p (nth_error_In _ _ E)) as (A & _ & M). destruct (exchange_tct p lut k x A (M Ex) Ex Hk) as (y & -> & ->). reflexivity. }
  split; intros (p & y & Hk & E & T & O); destruct (G p (fst (tct_view (- (PI / 4)) v)) Hk E) as (E' & T'); exists (exchanged_tct k p), y;
  rewrite view_exchange; unfold reflect; cbn [fst snd]; rewrite T'; auto.
Qed.
Lemma exchange_electrons params lut v n : proper_tcts params lut -> explicit lut ->
  (electrons params lut (- (PI / 4)) v n -> electrons (exchanged_tcts params) lut (- (PI / 4)) (exchange v) n) /\
  (above_all params lut (- (PI / 4)) v -> above_all (exchanged_tcts params) lut (- (PI / 4)) (exchange v)).
Proof.
  intros P Ex. split.
  - intros [A B]. split; [intros k Hk|]; apply exchange_position; auto.
  - intros A k Hk. rewrite exchanged_length in Hk. apply exchange_position; auto.
Qed.
Lemma lead_mask_exchange occ : lead_mask_1d (map exchange occ) = lead_mask_1d occ.
Proof.
  unfold lead_mask_1d. rewrite map_map. rewrite (map_ext (fun x => fst (exchange x) + snd (exchange x)) (fun o => fst o + snd o)); [reflexivity|].
  intros [a b]. unfold exchange. cbn [fst snd]. ring.
Qed.
Lemma exchange_line_scan label params a1 b1 a2 b2 res n lut kind gf : csd_config label params lut kind gf -> exchangeable params (gamma_of kind gf) ->
  explicit lut -> res_list res = [Z.of_nat n] ->
  exists occ lead, ideal_csd_geometric label params [a1; b1] [a2; b2] res (- (PI / 4)) lut kind gf = Ok (Csd1 occ lead) /\
    ideal_csd_geometric label (exchanged_tcts params) [a2; b2] [a1; b1] res (- (PI / 4)) lut kind gf = Ok (Csd1 (map exchange occ) lead).
Proof.
  intros C X Ex Er. pose proof C as (P & Hl & K & Lab & _). pose proof (gamma_of_ok kind gf K) as G.
  pose proof (exchanged_proper _ _ P) as P'.
  destruct (csd_1d label params a1 b1 a2 b2 res n (- (PI / 4)) lut kind gf _ P K G Er) as (occ & lead & E & Lo & Ll & M & _ & Q).
  destruct (csd_1d label (exchanged_tcts params) a2 b2 a1 b1 res n (- (PI / 4)) lut kind gf _ P' K G Er) as (occ' & lead' & E' & Lo' & Ll' & M' & _ & Q').
  exists occ, lead. split; auto. rewrite E'.
  assert (EO : occ' = map exchange occ).
  { apply nth_error_ext. intros i. destruct (nth_error occ i) as [o|] eqn:Eo.
    - erewrite map_nth_error by exact Eo.
      destruct (nth_error occ' i) as [o'|] eqn:Eo'; [|apply nth_error_None in Eo'; assert (i < length occ)%nat by (apply nth_error_Some; congruence); lia].
      destruct (Q i o Eo) as (m & A & Po). destruct (Q' i o' Eo') as (m' & A' & Po'). f_equal.
      set (v := (pixel_voltage (a1, b1) n i, pixel_voltage (a2, b2) n i)) in *.
      change (pixel_voltage (a2, b2) n i, pixel_voltage (a1, b1) n i) with (exchange v) in *.
      assert (m' = m).
      { destruct (exchange_electrons params lut v m P Ex) as [X1 X2].
        destruct A as [A|[A ->]], A' as [A'|[A' ->]]; auto.
        - exact (electrons_unique _ _ _ _ _ _ A' (X1 A)).
        - exfalso. exact (electrons_not_above_all _ _ _ _ _ (X1 A) A').
        - exfalso. exact (electrons_not_above_all _ _ _ _ _ A' (X2 A)). }
      subst m'. exact (exchange_occ _ _ _ _ _ _ _ _ _ C X Po Po').
    - apply nth_error_None in Eo. transitivity (@None (R * R)); [|symmetry]; apply nth_error_None; rewrite ?map_length; lia. }
  subst occ'. rewrite lead_mask_exchange in M'. rewrite M in M'. inversion M'. reflexivity.
Qed.
