(** Proofs about the electron number when gate voltages are raised, for TCTs evaluated with lookup tables. *)
From Verif Require Import RPrelude Arr ModelSupport ModelTct ModelCsd ModelSensor ModelSimulation ModelInstance ModelConfig ModelDefault
  ModelSampling ModelConfigCsd SpecSampling SpecConfig SpecConfigCsd SpecTct SpecCsd SpecOrder SpecInstance ProofsTct ProofsCsd ProofsOcc ProofsRegions ProofsMask ProofsDriver ProofsFine ProofsScan
  ProofsOrder ProofsLabel ProofsExchange ProofsExchange2 ProofsDefault ProofsConfigCsd.
Local Open Scope R_scope.

(** ** Large enough steps *)
Lemma table_raise_keeps params lut L eps v v' k : 0 <= eps -> Forall (bounded_tct L eps lut) params ->
  L * Rabs ((fst v' - fst v) - (snd v' - snd v)) + 2 * sqrt 2 * eps <= (fst v' - fst v) + (snd v' - snd v) ->
  on_or_above params lut (- (PI / 4)) v k -> on_or_above params lut (- (PI / 4)) v' k.
Proof.
  intros He B H A. pose proof (on_or_above_range _ _ _ _ _ A) as Rk.
  destruct (tct_funs_exist lut params (bounded_proper _ _ _ _ B) 0) as [F HF].
  rewrite (above_F params lut _ F HF) in A |- * by auto. rewrite !view_quarter in *. cbn [fst snd] in *.
  destruct (nth_error params (k - 1)) as [p|] eqn:Ep; [|apply nth_error_None in Ep; lia].
  rewrite Forall_forall in B. pose proof (B p (nth_error_In _ _ Ep)) as Bp.
  destruct (HF (k - 1)%nat p Ep) as [_ N]. cbn [Nat.add] in N.
  destruct (bounded_close L eps lut p (S (k - 1)) _ He Bp ltac:(lia) N) as (f & Lip & Cl).
  assert (Sq : 0 < sqrt 2) by (apply sqrt_lt_R0; lra). assert (S2 : sqrt 2 * sqrt 2 = 2) by (apply sqrt_sqrt; lra).
  set (s := sqrt 2) in *. set (G := F (k - 1)%nat) in *.
  pose proof (Cl ((fst v - snd v) / s)) as C1. pose proof (Cl ((fst v' - snd v') / s)) as C2.
  pose proof (Lip ((fst v' - snd v') / s) ((fst v - snd v) / s)) as Li.
  replace ((fst v' - snd v') / s - (fst v - snd v) / s) with (((fst v' - fst v) - (snd v' - snd v)) / s) in Li by (field; lra).
  unfold Rdiv in Li at 3. rewrite Rabs_mult, (Rabs_pos_eq (/ s)) in Li by (left; apply Rinv_0_lt_compat; lra).
  set (d := Rabs ((fst v' - fst v) - (snd v' - snd v))) in *.
  assert (D : (L * d + 2 * s * eps) / s <= ((fst v' - fst v) + (snd v' - snd v)) / s).
  { apply Rmult_le_compat_r; [left; apply Rinv_0_lt_compat; lra|exact H]. }
  replace ((L * d + 2 * s * eps) / s) with (L * (d * / s) + 2 * eps) in D by (field; lra).
  replace (((fst v' - fst v) + (snd v' - snd v)) / s) with ((fst v' + snd v') / s - (fst v + snd v) / s) in D by (field; lra).
  apply Rabs_le_inv in C1. apply Rabs_le_inv in C2. apply Rabs_le_inv in Li. lra.
Qed.
Lemma table_raise_electrons params lut L eps v v' n n' : 0 <= eps -> Forall (bounded_tct L eps lut) params ->
  L * Rabs ((fst v' - fst v) - (snd v' - snd v)) + 2 * sqrt 2 * eps <= (fst v' - fst v) + (snd v' - snd v) ->
  electrons params lut (- (PI / 4)) v n -> electrons params lut (- (PI / 4)) v' n' -> (n <= n')%nat.
Proof.
  intros He B H [A _] [_ N]. destruct (Nat.le_gt_cases n n'); auto. exfalso.
  exact (above_below_excl _ _ _ _ _ (table_raise_keeps params lut L eps v v' (S n') He B H (A (S n') ltac:(lia))) N).
Qed.
Lemma table_raise_above_all params lut L eps v v' : 0 <= eps -> Forall (bounded_tct L eps lut) params ->
  L * Rabs ((fst v' - fst v) - (snd v' - snd v)) + 2 * sqrt 2 * eps <= (fst v' - fst v) + (snd v' - snd v) ->
  above_all params lut (- (PI / 4)) v -> above_all params lut (- (PI / 4)) v'.
Proof. intros He B H A k Hk. exact (table_raise_keeps params lut L eps v v' k He B H (A k Hk)). Qed.

Lemma sqrt2_bound : 0 < sqrt 2 < 1.415.
Proof.
  split; [apply sqrt_lt_R0; lra|]. rewrite <- (sqrt_Rsqr 1.415) by lra. apply sqrt_lt_1_alt. unfold Rsqr. lra.
Qed.
(** one gate raised by at least [h], the other not lowered *)
Lemma gate_step L eps h v v' : 0 <= L <= 1 -> 0 <= eps -> 2.83 * eps <= (1 - L) * h ->
  fst v <= fst v' -> snd v <= snd v' -> h <= fst v' - fst v \/ h <= snd v' - snd v ->
  L * Rabs ((fst v' - fst v) - (snd v' - snd v)) + 2 * sqrt 2 * eps <= (fst v' - fst v) + (snd v' - snd v).
Proof.
  intros HL He Hh H1 H2 H. pose proof sqrt2_bound as Sq. set (s := sqrt 2) in *. clearbody s.
  set (a := fst v' - fst v) in *. set (b := snd v' - snd v) in *. assert (0 <= a) by (unfold a; lra). assert (0 <= b) by (unfold b; lra).
  clearbody a b. assert (2 * s * eps <= 2.83 * eps) by (apply Rmult_le_compat_r; lra).
  assert (Rabs (a - b) <= Rmax a b) by (unfold Rabs, Rmax; destruct (Rcase_abs (a - b)), (Rle_dec a b); lra).
  assert (L * Rabs (a - b) <= L * Rmax a b) by (apply Rmult_le_compat_l; lra).
  assert (h <= Rmax a b) by (destruct H; [apply Rle_trans with a|apply Rle_trans with b]; auto using Rmax_l, Rmax_r).
  assert ((1 - L) * h <= (1 - L) * Rmax a b) by (apply Rmult_le_compat_l; lra).
  assert (Rmax a b <= a + b) by (apply Rmax_lub; lra). nra.
Qed.

(** ** The first step of a lookup table *)
Section Step.
Variables (p : tct_params) (c : point) (n : nat).
Hypothesis Hc : corner p c.
Hypothesis Hb : start_x p <= fst c <= end_x p.
Hypothesis HL : 0 < end_x p - start_x p.
Hypothesis Hn : (2 <= n)%nat.
Let e (i : nat) : R := cx p c (INR i / INR (n - 1)).

Lemma e_mono i j : (i < j)%nat -> (j < n)%nat -> e i < e j.
Proof. intros H J. apply cx_mono; auto; try (apply ratio_01; auto; lia). apply ratio_lt; auto. Qed.
Lemma e_0 : e 0 = start_x p.
Proof. unfold e. cbn [INR]. unfold Rdiv. rewrite Rmult_0_l. apply cx_0. Qed.
Lemma first_entry : lut_eval p c n ((e 0 + e 1) / 2) = start_y p.
Proof.
  unfold lut_eval. set (x := (e 0 + e 1) / 2). set (l := map (fun q : point => Rabs (fst q - x)) (lut_points p c n)).
  assert (Ll : length l = n) by (unfold l; rewrite map_length; apply length_lut).
  assert (Hne : l <> []) by (intros E; rewrite E in Ll; simpl in Ll; lia).
  destruct (argmin_spec l Hne) as (A & _ & B). rewrite Ll in A.
  assert (D : forall j, (j < n)%nat -> nth j l 0 = Rabs (e j - x)) by (intros j Hj; unfold l; rewrite nth_lut_dist, bez_x by auto; reflexivity).
  pose proof (e_mono 0 1 ltac:(lia) ltac:(lia)) as M.
  destruct (argmin l) as [|k] eqn:Ek.
  - change (snd (nth (argmin l) (lut_points p c n) (0, 0)) = start_y p). rewrite Ek, nth_lut by lia.
    cbn [snd INR]. unfold Rdiv. rewrite Rmult_0_l. unfold bezier_at. ring.
  - exfalso. specialize (B 0%nat ltac:(lia)). rewrite !D in B by lia.
    assert (e 1 <= e (S k)). { destruct k; [lra|]. left. apply e_mono; lia. }
    rewrite Rabs_pos_eq in B by (unfold x; lra). rewrite Rabs_left in B by (unfold x; lra). unfold x in B. lra.
Qed.
Lemma second_entry x : (e 0 + e 1) / 2 < x -> x <= e 1 -> lut_eval p c n x = cy p c (1 / INR (n - 1)).
Proof.
  intros X X'. unfold lut_eval. set (l := map (fun q : point => Rabs (fst q - x)) (lut_points p c n)).
  assert (Ll : length l = n) by (unfold l; rewrite map_length; apply length_lut).
  assert (Hne : l <> []) by (intros E; rewrite E in Ll; simpl in Ll; lia).
  destruct (argmin_spec l Hne) as (A & B & _). rewrite Ll in A, B.
  assert (D : forall j, (j < n)%nat -> nth j l 0 = Rabs (e j - x)) by (intros j Hj; unfold l; rewrite nth_lut_dist, bez_x by auto; reflexivity).
  pose proof (e_mono 0 1 ltac:(lia) ltac:(lia)) as M. specialize (B 1%nat ltac:(lia)). rewrite !D in B by lia.
  destruct (argmin l) as [|[|k]] eqn:Ek.
  - exfalso. rewrite Rabs_left, Rabs_pos_eq in B by lra. lra.
  - change (snd (nth (argmin l) (lut_points p c n) (0, 0)) = cy p c (1 / INR (n - 1))). rewrite Ek, nth_lut by lia.
    cbn [snd INR]. apply bez_y; auto.
  - exfalso. pose proof (e_mono 1 (S (S k)) ltac:(lia) ltac:(lia)). rewrite !Rabs_pos_eq in B by lra. lra.
Qed.
Lemma e_1_end : e 1 <= end_x p.
Proof.
  rewrite <- (cx_1 p c). assert (0 < INR (n - 1)) by (apply lt_0_INR; lia).
  replace (cx p c 1) with (e (n - 1)) by (unfold e; f_equal; field; lra).
  destruct (Nat.eq_dec (n - 1) 1) as [->|]; [lra|]. left. apply e_mono; lia.
Qed.
End Step.

(** the TCT within the first bezier curve *)
Lemma first_curve p c n m x : slope_left p <> slope_right p -> corner p c -> start_x p <= fst c <= end_x p ->
  2 * (fst c - start_x p) <= len_left p -> 2 * (end_x p - fst c) <= len_right p -> 0 < len_left p + len_right p ->
  good_mode p (Some (S n)) -> (1 <= m)%nat -> start_x p < end_x p -> start_x p <= x <= end_x p ->
  tct_bezier_number p (Some (S n)) (Some m) x = Ok (lut_eval p c (S n) x).
Proof.
  intros Hsl Hc Hb Hl Hr HP G Hm HL Hx. rewrite (tct_number_F p c (Some (S n))) by auto. f_equal.
  destruct (lens p c Hb Hl Hr HP) as (A & B & C & D & E).
  assert (Wm : end_x p <= wave_end p m).
  { unfold wave_end. assert (1 <= INR m) by (change 1 with (INR 1); apply le_INR; auto). nra. }
  rewrite (F_wave p c (Some (S n)) Hc Hb Hl Hr HP G m x) by (auto; lra).
  destruct (bezier_ends p c (Some (S n)) G Hc Hb ltac:(unfold bezier_length; lra)) as [Bs Be].
  rewrite (W_on_period p c (bezier_eval p c (Some (S n))) Hc Hb Hl Hr HP (fun _ => Bs) (fun _ => Be) 0).
  - rewrite Rmult_0_l, Rminus_0_r, Rmult_0_r, Rminus_0_r.
    rewrite (seg1 p c) by (auto; unfold bezier_length; lra).
    replace (x - start_x p + start_x p) with x by ring. reflexivity.
  - rewrite Rmult_0_l, Rplus_0_l, Rmult_1_l. unfold bezier_length in *. lra.
Qed.

Definition first_default : tct_params :=
  mk_tct 0.01075474 0.01549732 0.42465033 (-0.38038481) (-0.02750187) (-0.17179705) (-0.02674207) (-0.17171497).

Section Default.
Variable label : arr2 nat -> arr2 nat.
Hypothesis Lab : forall m, is_labelling m (label m).
Let lut := Some 1000%nat.

Lemma default_step d : 0 < d -> exists v v',
  fst limits_g1 < fst v < fst v' /\ fst v' < snd limits_g1 /\ fst v' < fst v + d /\ 
  fst limits_g2 < snd v < snd limits_g2 /\ snd v' = snd v /\
  electrons default_tcts lut (- (PI / 4)) v 1 /\ electrons default_tcts lut (- (PI / 4)) v' 0.
Proof.
  intros Hd.
  assert (B : bounded_tct 0.43 0.0000025 lut first_default) by exact (nth_bounded default_tcts lut 0.43 0.0000025 default_bounded 0 first_default eq_refl).
  destruct (bounded_good _ _ _ _ B) as [A Gm]. pose proof A as (Hsl & HP & c & Hc & Hb & Hl & Hr).
  set (e := fun i => cx first_default c (INR i / INR (1000 - 1))).
  assert (HL : 0 < end_x first_default - start_x first_default) by (cbn; lra).
  assert (E0 : lut_eval first_default c 1000 ((e 0%nat + e 1%nat) / 2) = start_y first_default) by (apply (first_entry first_default c 1000 Hb HL); lia).
  assert (E1 : forall x, (e 0%nat + e 1%nat) / 2 < x -> x <= e 1%nat -> lut_eval first_default c 1000 x = cy first_default c (1 / INR (1000 - 1)))
    by (apply (second_entry first_default c 1000 Hc Hb HL); lia).
  assert (M : e 0%nat < e 1%nat) by (apply (e_mono first_default c 1000 Hb HL); lia).
  assert (Me : e 1%nat <= end_x first_default) by (apply (e_1_end first_default c 1000 Hb HL); lia).
  assert (Me0 : e 0%nat = start_x first_default) by (apply (e_0 first_default c 1000)). clearbody e.
  set (x := (e 0%nat + e 1%nat) / 2) in *. set (y0 := start_y first_default) in *. set (y1 := cy first_default c (1 / INR (1000 - 1))) in *.
  assert (Y : y0 < y1).
  { unfold y0, y1, cy. assert (I : INR (1000 - 1) = 999) by (change (1000 - 1)%nat with 999%nat; rewrite INR_IZR_INZ; reflexivity).
    rewrite I. clear - Hc Hb. destruct c as [cx0 cy0], Hc as [C1 C2]. cbn [first_default fst snd start_x start_y end_x end_y slope_left slope_right] in *.
    assert (-0.0274 <= cx0) by lra. assert (cx0 <= -0.0267) by lra. lra. }
  pose proof sqrt2_bound as Sq.
  assert (Sq' : 1.414 < sqrt 2). { rewrite <- (sqrt_Rsqr 1.414) by lra. apply sqrt_lt_1_alt. unfold Rsqr. lra. }
  set (t := Rmin (Rmin (d / 3) ((e 1%nat - x) / 2)) (Rmin ((y1 - y0) / 2) (1 / 100000))).
  assert (T : 0 < t /\ t <= d / 3 /\ t <= (e 1%nat - x) / 2 /\ t <= (y1 - y0) / 2 /\ t <= 1 / 100000).
  { assert (0 < e 1%nat - x) by (unfold x; lra). unfold t. repeat split.
    - repeat apply Rmin_pos; lra.
    - apply Rle_trans with (Rmin (d / 3) ((e 1%nat - x) / 2)); [apply Rmin_l|apply Rmin_l].
    - apply Rle_trans with (Rmin (d / 3) ((e 1%nat - x) / 2)); [apply Rmin_l|apply Rmin_r].
    - apply Rle_trans with (Rmin ((y1 - y0) / 2) (1 / 100000)); [apply Rmin_r|apply Rmin_l].
    - apply Rle_trans with (Rmin ((y1 - y0) / 2) (1 / 100000)); [apply Rmin_r|apply Rmin_r]. }
  clearbody t. destruct T as (T0 & T1 & T2 & T3 & T4).
  set (q := (x, y0) : point). set (q' := (x + t, y0 + t) : point).
  exists (rotate_point (- (PI / 4)) q), (rotate_point (- (PI / 4)) q').
  assert (Ev : forall z, tct_view (- (PI / 4)) (rotate_point (- (PI / 4)) z) = z) by (intros z; apply rotate_back).
  assert (V : forall z, rotate_point (- (PI / 4)) z = ((fst z + snd z) / sqrt 2, (snd z - fst z) / sqrt 2)).
  { intros [a b]. unfold rotate_point. cbn [fst snd]. rewrite cos_neg, sin_neg, cos_PI4, sin_PI4. f_equal; field; lra. }
  assert (X : -0.02750187 < x < -0.02674207) by (cbn [first_default start_x end_x] in Me, Me0; unfold x; lra).
  assert (Ey : y0 = -0.17179705) by reflexivity.
  assert (I0 : 0.706 < / sqrt 2 < 0.7073).
  { split; [apply Rmult_lt_reg_r with (sqrt 2)|apply Rmult_lt_reg_r with (sqrt 2)]; try lra; rewrite Rinv_l by lra; lra. }
  assert (Nb : forall w, tct_bezier_number first_default lut (Some 1%nat) w = Ok (lut_eval first_default c 1000 w) \/ ~ (start_x first_default <= w <= end_x first_default)).
  { intros w. destruct (Rle_dec (start_x first_default) w); [|right; lra]. destruct (Rle_dec w (end_x first_default)); [|right; lra].
    left. apply (first_curve first_default c 999 1 w Hsl Hc Hb Hl Hr HP Gm); auto; lra. }
  assert (F0 : tct_bezier_number first_default lut (Some 1%nat) x = Ok y0).
  { destruct (Nb x) as [-> | N]; [rewrite E0; reflexivity|]. exfalso; apply N. cbn [first_default start_x end_x]. lra. }
  assert (F1 : tct_bezier_number first_default lut (Some 1%nat) (x + t) = Ok y1).
  { destruct (Nb (x + t)) as [-> | N]; [rewrite E1 by lra; reflexivity|]. exfalso; apply N. cbn [first_default start_x end_x] in *. lra. }
  assert (D1 : electrons default_tcts lut (- (PI / 4)) (rotate_point (- (PI / 4)) q) 1).
  { apply (electrons_on_tct default_tcts lut 0.43 0.0000025 0.0016 _ _ 1 first_default); try lra; auto using default_bounded, default_stacked.
    - cbn [default_tcts length]. lia.
    - rewrite Ev. exact F0. }
  assert (D2 : electrons default_tcts lut (- (PI / 4)) (rotate_point (- (PI / 4)) q') 0).
  { split; [intros k Hk; lia|]. exists first_default, y1. split; [lia|]. split; [reflexivity|]. rewrite Ev. split; [exact F1|]. cbn [q' snd]. lra. }
  cut (fst limits_g1 < fst (rotate_point (- (PI / 4)) q) < fst (rotate_point (- (PI / 4)) q') /\ fst (rotate_point (- (PI / 4)) q') < snd limits_g1 /\
    fst (rotate_point (- (PI / 4)) q') < fst (rotate_point (- (PI / 4)) q) + d /\ fst limits_g2 < snd (rotate_point (- (PI / 4)) q) < snd limits_g2 /\
    snd (rotate_point (- (PI / 4)) q') = snd (rotate_point (- (PI / 4)) q)); [tauto|].
  rewrite !V. cbn [q q' fst snd limits_g1 limits_g2]. unfold Rdiv. set (h := / sqrt 2) in *. clearbody h.
  assert (P1 : 0 < t * h) by (apply Rmult_lt_0_compat; lra).
  split; [split; nra|]. split; [nra|]. split; [nra|]. split; [split; nra|]. ring.
Qed.

(** the same in a line scan of two pixels along gate 1 *)
Lemma default_step_scan d : 0 < d -> exists a b v2 o o' lead,
  fst limits_g1 < a < b /\ b < snd limits_g1 /\ b < a + d /\ fst limits_g2 < v2 < snd limits_g2 /\
  ideal_csd_geometric label default_tcts [a; b] [v2; v2] (ResInt 2) (- (PI / 4)) lut Sigmoid None = Ok (Csd1 [o; o'] lead) /\
  fst o + snd o = 1 /\ fst o' + snd o' = 0.
Proof.
  intros Hd. destruct (default_step d Hd) as ([a v2] & [b v2'] & H1 & H2 & H3 & H4 & H5 & D1 & D2). cbn [fst snd] in *. subst v2'.
  pose proof (default_config label Lab) as C. pose proof C as (P & _). cbn [g_tcts g_lut g_cdf g_gamma default_csd] in P.
  assert (K : Sigmoid <> UnknownCdf) by discriminate.
  destruct (csd_1d label default_tcts a b v2 v2 (ResInt 2) 2 (- (PI / 4)) lut Sigmoid None _ P K eq_refl eq_refl) as (occ & lead & E & Lo & _ & _ & _ & Q).
  destruct occ as [|o [|o' [|]]]; try discriminate Lo.
  assert (P0 : forall x y, pixel_voltage (x, y) 2 0 = x) by (intros x y; unfold pixel_voltage; cbn [fst snd INR]; ring).
  assert (P1 : forall x y, pixel_voltage (x, y) 2 1 = y) by (intros x y; unfold pixel_voltage; cbn [fst snd INR Nat.sub]; field).
  destruct (Q 0%nat o eq_refl) as (m & A & Po). destruct (Q 1%nat o' eq_refl) as (m' & A' & Po'). rewrite !P0 in A, Po. rewrite !P1 in A', Po'.
  assert (m = 1%nat) by (destruct A as [A|[A _]]; [exact (electrons_unique _ _ _ _ _ _ A D1)|exfalso; exact (electrons_not_above_all _ _ _ _ _ D1 A)]). subst m.
  assert (m' = 0%nat) by (destruct A' as [A'|[A' _]]; [exact (electrons_unique _ _ _ _ _ _ A' D2)|exfalso; exact (electrons_not_above_all _ _ _ _ _ D2 A')]). subst m'.
  destruct (pixel_occ_bounds _ _ _ _ _ _ _ Po) as (_ & S1 & _). destruct (pixel_occ_bounds _ _ _ _ _ _ _ Po') as (_ & S2 & _). cbn [INR] in S1, S2.
  exists a, b, v2, o, o', lead. repeat split; auto; try lra.
Qed.
End Default.

(** ** Sampled configurations *)
Lemma sampled_raise {G} (r : rng G) fuel label g x g1 v v' n n' : uniform_ok r -> (forall m, is_labelling m (label m)) ->
  sample_ideal_csd r fuel label g = (Ok x, g1) ->
  fst v <= fst v' -> snd v <= snd v' -> 0.000032 <= fst v' - fst v \/ 0.000032 <= snd v' - snd v ->
  electrons (g_tcts x) (g_lut x) (g_rotation x) v n -> electrons (g_tcts x) (g_lut x) (g_rotation x) v' n' -> (n <= n')%nat.
Proof.
  intros U Lab E H1 H2 H. destruct (sampled_ordered r fuel U label Lab g x g1 E) as (_ & B & _).
  destruct (sampled_shape r fuel U label Lab g x g1 E) as (_ & _ & _ & A & _).
  assert (Rt : g_rotation x = - (PI / 4)) by apply A. rewrite Rt.
  apply (table_raise_electrons (g_tcts x) (g_lut x) 0.55 0.000005 v v' n n'); try lra; auto.
  apply (gate_step 0.55 0.000005 0.000032); auto; lra.
Qed.
