(** Proofs about reference lines, CDF parameters and occupations of a region. *)
From Verif Require Import RPrelude Arr ModelSupport SpecSupport ProofsSupport ModelTct SpecTct ProofsTct
  ModelCsd SpecCsd ProofsCsd.
Local Open Scope R_scope.

(** ** dictionaries *)
Lemma dict_get_indexed {A B} (f : nat * B -> A) l : forall s k,
  dict_get (map (fun ip => ((fst ip + 1)%nat, f ip)) (combine (seq s (length l)) l)) k =
  if (k <=? s)%nat then Err KeyError
  else match nth_error l (k - 1 - s) with Some p => Ok (f ((k - 1)%nat, p)) | None => Err KeyError end.
Proof.
  induction l as [|b l IH]; intros s k; simpl.
  - rewrite (proj2 (nth_error_None [] (k - 1 - s))) by (simpl; lia). destruct (k <=? s)%nat; auto.
  - destruct (Nat.eqb_spec (s + 1) k) as [E|E].
    + subst k. rewrite (proj2 (Nat.leb_gt (s + 1) s)) by lia. replace (s + 1 - 1)%nat with s by lia.
      rewrite Nat.sub_diag. reflexivity.
    + rewrite IH. destruct (Nat.leb_spec k s) as [L|L].
      * rewrite (proj2 (Nat.leb_le k (S s))) by lia. reflexivity.
      * rewrite (proj2 (Nat.leb_gt k (S s))) by lia.
        replace (k - 1 - s)%nat with (S (k - 1 - S s)) by lia. reflexivity.
Qed.

Lemma coords_get params rot k :
  dict_get (calculate_all_bezier_anchors params 1 rot) k =
  match k with
  | O => Err KeyError
  | S k' => match nth_error params k' with
            | Some p => Ok (map (rotate_anchors rot) (tct_anchors p (S k')))
            | None => Err KeyError
            end
  end.
Proof.
  unfold calculate_all_bezier_anchors. rewrite (dict_get_indexed (fun ip => map (rotate_anchors rot) (tct_anchors (snd ip) (1 + fst ip))) params 0 k).
  destruct k as [|k]; [reflexivity|]. simpl. rewrite Nat.sub_0_r, Nat.sub_0_r. destruct (nth_error params k); reflexivity.
Qed.

Lemma every_other_nth {A} (l : list A) : forall i, nth_error (every_other l) i = nth_error l (2 * i).
Proof.
  assert (G : forall n (l : list A), (length l <= n)%nat -> forall i, nth_error (every_other l) i = nth_error l (2 * i)).
  { induction n as [|n IH]; intros l0 H i.
    - destruct l0; [|simpl in H; lia]. destruct i; reflexivity.
    - destruct l0 as [|a [|b t]]; [destruct i; reflexivity| |].
      + destruct i; [reflexivity|]. simpl. destruct i; [reflexivity|].
        symmetry. apply nth_error_None. simpl. lia.
      + destruct i as [|i]; [reflexivity|]. simpl every_other. simpl nth_error at 1.
        rewrite IH by (simpl in H; lia). replace (2 * S i)%nat with (S (S (2 * i))) by lia. reflexivity. }
  intros i. apply (G (length l)). lia.
Qed.

Lemma every_other_length {A} (l : list A) n : length l = (n * 2 - 1)%nat -> length (every_other l) = n.
Proof.
  revert l. induction n as [|n IH]; intros l H.
  - destruct l; simpl in *; [auto|lia].
  - destruct l as [|a [|b t]]; simpl in *.
    + lia.
    + lia.
    + f_equal. apply IH. lia.
Qed.

Lemma flat_map_pairs_length {A B} (f : A -> list B) l : (forall x, length (f x) = 2%nat) ->
  length (flat_map f l) = (2 * length l)%nat.
Proof. intros H. induction l as [|x t IH]; simpl; auto. rewrite app_length, H, IH. lia. Qed.

Definition region_entry (l0 l1 : point) (g : R) (q : anchors) : list R :=
  let '(al, ac, ar) := q in
  [signed_dist ac l0 l1; (signed_dist ar l0 l1 - signed_dist al l0 l1) / g].

Lemma region_ok params rot g n pu po : (1 <= n)%nat ->
  nth_error params n = Some pu -> nth_error params (n - 1) = Some po ->
  exists a b, nth_error (tct_anchors pu (S n)) 1 = Some a /\ nth_error (tct_anchors po n) 0 = Some b /\
  let l0 := rotate_point rot (center_anchor a) in
  let l1 := rotate_point rot (center_anchor b) in
  region_setup (calculate_all_bezier_anchors params 1 rot) g n =
  Ok (l0, l1, flat_map (region_entry l0 l1 g) (every_other (map (rotate_anchors rot) (tct_anchors po n)))).
Proof.
  intros Hn Hu Ho.
  destruct (nth_error (tct_anchors pu (S n)) 1) as [a|] eqn:Ea;
    [|apply nth_error_None in Ea; rewrite tct_anchors_length in Ea; lia].
  destruct (nth_error (tct_anchors po n) 0) as [b|] eqn:Eb;
    [|apply nth_error_None in Eb; rewrite tct_anchors_length in Eb; lia].
  exists a, b. split; auto. split; auto. cbv zeta. unfold region_setup.
  rewrite !coords_get. rewrite Hu. destruct n as [|n]; [lia|]. simpl in Ho. rewrite Nat.sub_0_r in Ho.
  rewrite Ho. cbn [key_to_index bind]. unfold get_item.
  rewrite (map_nth_error (rotate_anchors rot) 1 _ Ea). cbn [bind].
  rewrite (map_nth_error (rotate_anchors rot) 0 _ Eb). cbn [bind].
  destruct a as [[a1 a2] a3], b as [[b1 b2] b3]. reflexivity.
Qed.

Lemma region_missing params rot g n : (length params <= n)%nat ->
  region_setup (calculate_all_bezier_anchors params 1 rot) g n = Err IndexError.
Proof.
  intros H. unfold region_setup. rewrite coords_get. rewrite (proj2 (nth_error_None params n)) by lia. reflexivity.
Qed.

Lemma region_entry_length l0 l1 g q : length (region_entry l0 l1 g q) = 2%nat.
Proof. destruct q as [[? ?] ?]; reflexivity. Qed.

Lemma region_setup_inv params rot g n l0 l1 ps : (1 <= n)%nat ->
  region_setup (calculate_all_bezier_anchors params 1 rot) g n = Ok (l0, l1, ps) ->
  (n < length params)%nat /\ length ps = (2 * n)%nat.
Proof.
  intros Hn H. destruct (Nat.lt_ge_cases n (length params)) as [L|L].
  - split; auto.
    destruct (nth_error params n) as [pu|] eqn:Hu; [|apply nth_error_None in Hu; lia].
    destruct (nth_error params (n - 1)) as [po|] eqn:Ho; [|apply nth_error_None in Ho; lia].
    destruct (region_ok params rot g n pu po Hn Hu Ho) as (a & b & _ & _ & E). cbv zeta in E. rewrite E in H.
    inversion H; subst. rewrite (flat_map_pairs_length _ _ (region_entry_length _ _ _)). f_equal.
    apply every_other_length. rewrite map_length, tct_anchors_length. auto.
  - rewrite region_missing in H by auto. discriminate.
Qed.

(** ** occupations *)
Lemma half_len n : INR (2 * n) / 2 = INR n.
Proof. rewrite mult_INR. simpl. field. Qed.

Lemma occupation_sum kind ps l0 l1 pt o n : length ps = (2 * n)%nat ->
  occupation_func kind ps l0 l1 pt = Ok o ->
  fst o + snd o = INR n /\ 0 <= fst o <= INR n /\ 0 <= snd o <= INR n.
Proof.
  intros L H. unfold occupation_func in H. rewrite L, half_len in H.
  assert (B : forall f v, f = sigmoid_cdf \/ f = cauchy_cdf -> multi_cdf f (signed_dist pt l0 l1) ps = Ok v -> 0 <= v <= INR n).
  { intros f v Hf Hv. destruct (multi_cdf_bound f Hf (signed_dist pt l0 l1) n ps L) as (v' & E & B). congruence. }
  destruct kind.
  - unfold multi_sigmoid_cdf in H. destruct (multi_cdf sigmoid_cdf (signed_dist pt l0 l1) ps) as [v|] eqn:E; [|discriminate].
    inversion H; subst o; simpl. pose proof (B sigmoid_cdf v (or_introl eq_refl) E). lra.
  - unfold multi_cauchy_cdf in H. destruct (multi_cdf cauchy_cdf (signed_dist pt l0 l1) ps) as [v|] eqn:E; [|discriminate].
    inversion H; subst o; simpl. pose proof (B cauchy_cdf v (or_intror eq_refl) E). lra.
  - discriminate.
Qed.

Lemma occupation_total kind ps l0 l1 pt n : length ps = (2 * n)%nat -> kind <> UnknownCdf ->
  exists o, occupation_func kind ps l0 l1 pt = Ok o.
Proof.
  intros L K. unfold occupation_func.
  destruct kind; [| |congruence].
  - destruct (multi_cdf_bound sigmoid_cdf (or_introl eq_refl) (signed_dist pt l0 l1) n ps L) as (v & E & _).
    unfold multi_sigmoid_cdf. rewrite E. simpl. eauto.
  - destruct (multi_cdf_bound cauchy_cdf (or_intror eq_refl) (signed_dist pt l0 l1) n ps L) as (v & E & _).
    unfold multi_cauchy_cdf. rewrite E. simpl. eauto.
Qed.

Lemma occupation_cdf kind f ps l0 l1 pt o : cdf_of kind f -> occupation_func kind ps l0 l1 pt = Ok o ->
  fst o = sum_cdf f (signed_dist pt l0 l1) ps.
Proof.
  intros Hk H. unfold occupation_func, multi_sigmoid_cdf, multi_cauchy_cdf, multi_cdf, raise_if in H.
  destruct Hk as [[-> ->]|[-> ->]]; destruct (Nat.odd (length ps)); try discriminate; inversion H; reflexivity.
Qed.

Lemma sum_cdf_flat f x (e : nat -> R) w l :
  sum_cdf f x (flat_map (fun k => [e k; w]) l) = Rsum (map (fun k => f x (e k) w) l).
Proof. induction l as [|k t IH]; simpl; auto. rewrite IH. reflexivity. Qed.

(** ** closed form of the CDF parameters *)
Lemma signed_dist_line q l0 l1 : signed_dist q l0 l1 = line_distance l0 l1 q.
Proof. unfold signed_dist, line_distance, cross, vec; simpl. reflexivity. Qed.

Lemma line_distance_rotate a l0 l1 q :
  line_distance (rotate_point a l0) (rotate_point a l1) (rotate_point a q) = line_distance l0 l1 q.
Proof. rewrite <- !signed_dist_line. apply signed_dist_rotate. Qed.

Lemma line_distance_diff a b q r :
  line_distance a b r - line_distance a b q
  = - cross (vec a b) (vec q r) / sqrt (fst (vec a b) ^ 2 + snd (vec a b) ^ 2).
Proof. unfold line_distance, Rdiv. rewrite <- Rmult_minus_distr_r. f_equal. unfold cross, vec; simpl; ring. Qed.

Lemma closed_even p c k : closed_anchors p c (2 * k) =
  (let q := peak_point p c k in
   ((fst q - (fst c - start_x p), snd q - (fst c - start_x p) * slope_left p), q,
    (fst q + (end_x p - fst c), snd q + (end_x p - fst c) * slope_right p))).
Proof. unfold closed_anchors, peak_point. rewrite odd_even, half_even. reflexivity. Qed.

Lemma flat_map_map {A B C} (f : B -> list C) (g : A -> B) l : flat_map f (map g l) = flat_map (fun x => f (g x)) l.
Proof. induction l; simpl; auto. rewrite IHl. reflexivity. Qed.

Lemma flat_map_ext_in {A B} (f g : A -> list B) l : (forall x, In x l -> f x = g x) -> flat_map f l = flat_map g l.
Proof. induction l as [|x t IH]; simpl; intros H; auto. rewrite H, IH; auto. Qed.

Lemma corner_unique p c c' : slope_left p <> slope_right p -> corner p c -> corner p c' -> c = c'.
Proof.
  intros Hs Hc Hc'. pose proof (corner_center p c Hs Hc) as E. rewrite (corner_center p c' Hs Hc') in E. congruence.
Qed.

Lemma region_closed params rot g n u l po :
  Forall admissible params -> (1 <= n)%nat -> interdot_line params n u l -> nth_error params (n - 1) = Some po ->
  region_setup (calculate_all_bezier_anchors params 1 rot) g n =
  Ok (rotate_point rot u, rotate_point rot l,
      flat_map (fun k => [line_distance u l (peak_point po l k);
                          - cross (vec u l) (coupling_vector po) / sqrt (fst (vec u l) ^ 2 + snd (vec u l) ^ 2) / g])
               (seq 0 n)).
Proof.
  intros HA Hn (pu & cu & po' & Hu & Hcu & Eu & Ho' & Hcl) Ho. rewrite Ho in Ho'. inversion Ho'; subst po'; clear Ho'.
  rewrite Forall_forall in HA.
  assert (Su : slope_left pu <> slope_right pu) by (apply (HA pu (nth_error_In _ _ Hu))).
  assert (So : slope_left po <> slope_right po) by (apply (HA po (nth_error_In _ _ Ho))).
  destruct (region_ok params rot g n pu po Hn Hu Ho) as (a & b & Ea & Eb & E). cbv zeta in E.
  rewrite (tct_anchors_nth pu cu (S n) 1 Su Hcu) in Ea by lia.
  rewrite (tct_anchors_nth po l n 0 So Hcl) in Eb by lia.
  inversion Ea; subst a; clear Ea. inversion Eb; subst b; clear Eb.
  assert (Cu : center_anchor (closed_anchors pu cu 1) = u).
  { subst u. unfold closed_anchors. simpl. unfold center_anchor; simpl. split_pairs; ring. }
  assert (Cl : center_anchor (closed_anchors po l 0) = l).
  { change 0%nat with (2 * 0)%nat. rewrite closed_even. simpl. unfold center_anchor, peak_point; simpl.
    destruct l; simpl. split_pairs; ring. }
  rewrite Cu, Cl in E. rewrite E. clear E. f_equal. f_equal.
  assert (Eo : every_other (map (rotate_anchors rot) (tct_anchors po n)) =
               map (fun k => rotate_anchors rot (closed_anchors po l (2 * k))) (seq 0 n)).
  { apply nth_error_ext. intros i. rewrite every_other_nth, nth_error_map_seq.
    destruct (Nat.ltb_spec i n) as [L|L].
    - apply map_nth_error. apply tct_anchors_nth; auto. lia.
    - apply nth_error_None. rewrite map_length, tct_anchors_length. lia. }
  rewrite Eo, flat_map_map. apply flat_map_ext_in. intros k _.
  rewrite closed_even. unfold rotate_anchors, region_entry. cbv zeta. rewrite !signed_dist_line, !line_distance_rotate.
  rewrite line_distance_diff. do 4 f_equal. unfold coupling_vector, vec; simpl.
  destruct Hcl as [H1 H2]. unfold cross; simpl. f_equal. 
  replace (end_y po - start_y po) with ((end_y po - snd l) + (snd l - start_y po)) by ring. rewrite H1, H2. ring.
Qed.

Lemma interdot_exists params n : Forall admissible params -> (1 <= n < length params)%nat ->
  exists u l, interdot_line params n u l.
Proof.
  intros HA Hn. rewrite Forall_forall in HA.
  destruct (nth_error params n) as [pu|] eqn:Hu; [|apply nth_error_None in Hu; lia].
  destruct (nth_error params (n - 1)) as [po|] eqn:Ho; [|apply nth_error_None in Ho; lia].
  destruct (HA pu (nth_error_In _ _ Hu)) as (_ & _ & cu & Hcu & _).
  destruct (HA po (nth_error_In _ _ Ho)) as (_ & _ & co & Hco & _).
  exists (fst cu + len_right pu, snd cu + len_right pu * slope_right pu), co.
  exists pu, cu, po. auto.
Qed.

Lemma view_rotate rot v : rotate_point rot (tct_view rot v) = v.
Proof. unfold tct_view. rewrite rotate_compose. replace (- rot + rot) with 0 by ring. apply rotate_zero. Qed.

(** occupation of dot 1 in a region with n electrons *)
Definition dot1_formula (f : R -> R -> R -> R) (g : R) (po : tct_params) (u l : point) (n : nat) (q : point) : R :=
  Rsum (map (fun k => f (line_distance u l q) (line_distance u l (peak_point po l k))
     (- cross (vec u l) (coupling_vector po) / sqrt (fst (vec u l) ^ 2 + snd (vec u l) ^ 2) / g)) (seq 0 n)).

Lemma region_occupation params rot g n u l po kind f v o :
  Forall admissible params -> (1 <= n)%nat -> interdot_line params n u l -> nth_error params (n - 1) = Some po ->
  cdf_of kind f ->
  pixel_occ kind (calculate_all_bezier_anchors params 1 rot) g v n o ->
  fst o = dot1_formula f g po u l n (tct_view rot v).
Proof.
  intros HA Hn Hi Ho Hf [[E _]|[_ (l0 & l1 & ps & Es & Eo)]]; [lia|].
  rewrite (region_closed params rot g n u l po HA Hn Hi Ho) in Es. inversion Es; subst l0 l1 ps; clear Es.
  rewrite (occupation_cdf kind f _ _ _ _ _ Hf Eo). rewrite sum_cdf_flat. unfold dot1_formula.
  rewrite signed_dist_line.
  replace (line_distance (rotate_point rot u) (rotate_point rot l) v) with (line_distance u l (tct_view rot v)); [reflexivity|].
  rewrite <- (line_distance_rotate rot u l). rewrite view_rotate. reflexivity.
Qed.

Lemma pixel_occ_bounds params rot g kind v n o :
  pixel_occ kind (calculate_all_bezier_anchors params 1 rot) g v n o ->
  (n < length params \/ n = 0)%nat /\ fst o + snd o = INR n /\ 0 <= fst o <= INR n /\ 0 <= snd o <= INR n.
Proof.
  intros [[E ->]|[Hn (l0 & l1 & ps & Es & Eo)]].
  - subst n. simpl. split; [auto|lra].
  - destruct (region_setup_inv params rot g n l0 l1 ps) as [H1 H2]; auto; [lia|]. split; [left; auto|].
    apply (occupation_sum kind ps l0 l1 v o n H2 Eo).
Qed.

(** ** monotonicity *)
Lemma cdf_anti kind f x y x0 g : cdf_of kind f -> g < - (1 / 100000000) -> x <= y -> f y x0 g <= f x x0 g.
Proof.
  intros Hf Hg Hxy.
  assert (C : isclose0 g = false).
  { destruct (isclose0_spec g) as [H|H]; auto. rewrite Rabs_left in H by lra. lra. }
  assert (C' : isclose0 (- g) = false).
  { destruct (isclose0_spec (- g)) as [H|H]; auto. rewrite Rabs_pos_eq in H by lra. lra. }
  destruct Hf as [[-> ->]|[-> ->]].
  - pose proof (sigmoid_cdf_mono (x0 - (y - x0)) (x0 - (x - x0)) x0 (- g) ltac:(lra) ltac:(lra)) as M.
    unfold sigmoid_cdf in *. rewrite C in *. rewrite C' in M.
    replace ((x0 - (y - x0) - x0) / - g) with ((y - x0) / g) in M by (field; lra).
    replace ((x0 - (x - x0) - x0) / - g) with ((x - x0) / g) in M by (field; lra). exact M.
  - pose proof (cauchy_cdf_mono (x0 - (y - x0)) (x0 - (x - x0)) x0 (- g) ltac:(lra) ltac:(lra)) as M.
    unfold cauchy_cdf in *. rewrite C in *. rewrite C' in M.
    replace ((x0 - (y - x0) - x0) / - g) with ((y - x0) / g) in M by (field; lra).
    replace ((x0 - (x - x0) - x0) / - g) with ((x - x0) / g) in M by (field; lra). exact M.
Qed.

Lemma cdf_up kind f x y x0 g : cdf_of kind f -> 0 <= g -> x <= y -> f x x0 g <= f y x0 g.
Proof.
  intros [[-> ->]|[-> ->]] Hg Hxy.
  - apply sigmoid_cdf_mono; auto; lra.
  - apply cauchy_cdf_mono; auto; lra.
Qed.

Lemma Rsum_le {A} (f g : A -> R) l : (forall x, In x l -> f x <= g x) -> Rsum (map f l) <= Rsum (map g l).
Proof. induction l as [|x t IH]; simpl; intros H; [lra|]. pose proof (H x (or_introl eq_refl)). assert (Rsum (map f t) <= Rsum (map g t)) by auto. lra. Qed.

Lemma vec_norm_pos u l : u <> l -> 0 < sqrt (fst (vec u l) ^ 2 + snd (vec u l) ^ 2).
Proof. intros H. unfold vec; simpl. apply (sqrt_norm_pos u l H). Qed.

Lemma dist2_vec u l : dist2 u l = sqrt (fst (vec u l) ^ 2 + snd (vec u l) ^ 2).
Proof. unfold dist2, vec; simpl. f_equal. ring. Qed.

Lemma dot1_mono kind f g po u l n q q' : cdf_of kind f -> 0 < g -> u <> l ->
  1 / 100000000 * g * dist2 u l < Rabs (cross (vec u l) (coupling_vector po)) ->
  0 <= cross (vec u l) (vec q q') * cross (vec u l) (coupling_vector po) ->
  dot1_formula f g po u l n q <= dot1_formula f g po u l n q'.
Proof.
  intros Hf Hg Hul Hw Hs. unfold dot1_formula. apply Rsum_le. intros k _.
  pose proof (vec_norm_pos u l Hul) as N. rewrite dist2_vec in Hw. set (nn := sqrt _) in *.
  pose proof (line_distance_diff u l q q') as D. fold nn in D.
  set (w := cross (vec u l) (coupling_vector po)) in *. set (s := cross (vec u l) (vec q q')) in *.
  assert (P : 0 < / nn) by (apply Rinv_0_lt_compat; auto).
  assert (Pg : 0 < / g) by (apply Rinv_0_lt_compat; auto).
  unfold Rdiv in *.
  destruct (Rle_lt_dec 0 w) as [W|W].
  - rewrite Rabs_pos_eq in Hw by auto.
    assert (W' : 0 < w) by nra.
    assert (S : 0 <= s) by nra.
    apply (cdf_anti kind); auto.
    + apply (Rmult_lt_reg_r (nn * g)); [nra|]. replace (- w * / nn * / g * (nn * g)) with (- w) by (field; lra). nra.
    + nra.
  - rewrite Rabs_left in Hw by auto.
    assert (S : s <= 0) by nra.
    apply (cdf_up kind); auto.
    + apply Rmult_le_pos; [|lra]. nra.
    + nra.
Qed.

(** ** limits *)
Lemma exp_ge x : 1 + x <= exp x.
Proof.
  destruct (Req_dec x 0) as [->|H]; [rewrite exp_0; lra|]. pose proof (exp_ineq1 x H). lra.
Qed.

Lemma tanh_tail t : 0 < t -> 1 - / t <= 1/2 * (1 + tanh t) <= 1.
Proof.
  intros H. pose proof (tanh_bound t). split; [|lra]. rewrite tanh_exp.
  pose proof (exp_ge (2 * t)).
  assert (/ (exp (2 * t) + 1) <= / t) by (apply Rinv_le_contravar; lra).
  unfold Rdiv. lra.
Qed.

Lemma atan_le t : 0 <= t -> atan t <= t.
Proof.
  intros H. destruct H as [H|<-]; [|rewrite atan_0; lra].
  destruct (MVT_cor2 atan (fun x => / (1 + x ^ 2)) 0 t H) as (c & E & Hc).
  { intros c _. apply derivable_pt_lim_atan. }
  rewrite atan_0 in E. assert (0 < 1 + c ^ 2) by nra.
  assert (/ (1 + c^2) <= 1). { rewrite <- Rinv_1. apply Rinv_le_contravar; nra. }
  nra.
Qed.

Lemma atan_tail t : 0 < t -> 1 - / t <= 1 / PI * atan t + 1/2 <= 1.
Proof.
  intros H. pose proof (atan_PI_bound t). split; [|lra].
  assert (P : 0 < PI) by apply PI_RGT_0. pose proof PI2_1 as P1.
  assert (E : atan t = PI / 2 - atan (/ t)) by (rewrite atan_inv; lra).
  rewrite E. assert (0 < / t) by (apply Rinv_0_lt_compat; auto).
  pose proof (atan_le (/ t) ltac:(lra)) as A.
  replace (1 / PI * (PI / 2 - atan (/ t)) + 1 / 2) with (1 - atan (/ t) * / PI) by (field; lra).
  assert (0 < / PI) by (apply Rinv_0_lt_compat; auto).
  assert (/ PI <= 1). { rewrite <- Rinv_1. apply Rinv_le_contravar; lra. }
  assert (0 <= atan (/ t)). { rewrite <- atan_0. left. apply atan_increasing; auto. }
  nra.
Qed.

(** the value far to one side of the centre, with the position measured in widths *)
Lemma cdf_tail kind f x x0 g t : cdf_of kind f -> 1 / 100000000 < Rabs g -> x - x0 = t * g ->
  (0 < t -> 1 - / t <= f x x0 g) /\ (t < 0 -> f x x0 g <= / - t).
Proof.
  intros Hf Hg E.
  assert (C : isclose0 g = false) by (destruct (isclose0_spec g); auto; lra).
  assert (G0 : g <> 0) by (apply not_close_neq; auto).
  assert (T : (x - x0) / g = t) by (rewrite E; field; auto).
  destruct Hf as [[-> ->]|[-> ->]].
  - unfold sigmoid_cdf. rewrite C, T. split; intros H.
    + apply tanh_tail; auto.
    + pose proof (tanh_tail (- t) ltac:(lra)) as [P _]. rewrite tanh_odd in P. lra.
  - unfold cauchy_cdf. rewrite C, T. split; intros H.
    + apply atan_tail; auto.
    + pose proof (atan_tail (- t) ltac:(lra)) as [P _]. rewrite atan_opp in P. lra.
Qed.

Lemma Rsum_ge_const {A} (f : A -> R) l b : (forall x, In x l -> b <= f x) -> INR (length l) * b <= Rsum (map f l).
Proof.
  induction l as [|x t IH]; intros H; [simpl; lra|]. cbn [length map Rsum]. rewrite S_INR.
  pose proof (H x (or_introl eq_refl)). assert (INR (length t) * b <= Rsum (map f t)) by (apply IH; intros; apply H; right; auto). lra.
Qed.
Lemma Rsum_le_const {A} (f : A -> R) l b : (forall x, In x l -> f x <= b) -> Rsum (map f l) <= INR (length l) * b.
Proof.
  induction l as [|x t IH]; intros H; [simpl; lra|]. cbn [length map Rsum]. rewrite S_INR.
  pose proof (H x (or_introl eq_refl)). assert (Rsum (map f t) <= INR (length t) * b) by (apply IH; intros; apply H; right; auto). lra.
Qed.

Lemma list_bound (f : nat -> R) l : exists B, 0 <= B /\ forall k, In k l -> Rabs (f k) <= B.
Proof.
  induction l as [|x t (B & HB & H)]; [exists 0; split; [lra|intros k []]|].
  exists (Rmax B (Rabs (f x))). split; [pose proof (Rmax_l B (Rabs (f x))); lra|].
  intros k [->|Hk]; [apply Rmax_r|]. pose proof (Rmax_l B (Rabs (f x))). specialize (H k Hk). lra.
Qed.

Lemma dot1_limits kind f g po u l n : cdf_of kind f -> 0 < g -> u <> l ->
  1 / 100000000 * g * dist2 u l < Rabs (cross (vec u l) (coupling_vector po)) ->
  forall eps, 0 < eps -> exists D, forall q,
  (D <= cross (vec u l) (vec l q) * cross (vec u l) (coupling_vector po) -> INR n - eps <= dot1_formula f g po u l n q) /\
  (cross (vec u l) (vec l q) * cross (vec u l) (coupling_vector po) <= - D -> dot1_formula f g po u l n q <= eps).
Proof.
  intros Hf Hg Hul Hw eps He.
  pose proof (vec_norm_pos u l Hul) as N. rewrite dist2_vec in Hw. set (nn := sqrt _) in *.
  set (w := cross (vec u l) (coupling_vector po)) in *.
  assert (W0 : w <> 0). { intros E. rewrite E, Rabs_R0 in Hw. nra. }
  set (s := fun q => cross (vec u l) (vec l q)).
  set (gam := - w / nn / g).
  assert (Gam : 1 / 100000000 < Rabs gam).
  { unfold gam, Rdiv. rewrite !Rabs_mult, Rabs_Ropp. rewrite (Rabs_pos_eq (/ nn)), (Rabs_pos_eq (/ g))
      by (left; apply Rinv_0_lt_compat; auto).
    apply (Rmult_lt_reg_r (nn * g)); [nra|]. replace (Rabs w * / nn * / g * (nn * g)) with (Rabs w) by (field; lra). nra. }
  destruct (list_bound (fun k => s (peak_point po l k) * g / w) (seq 0 n)) as (B & HB & Bk).
  set (T := B + (INR n + 1) / eps).
  assert (Hn1 : 0 <= INR n) by apply pos_INR.
  assert (HT : 0 < (INR n + 1) / eps) by (apply Rdiv_lt_0_compat; lra).
  assert (Key : forall q k, line_distance u l q - line_distance u l (peak_point po l k)
               = (s q * g / w - s (peak_point po l k) * g / w) * gam).
  { intros q k. rewrite line_distance_diff. fold nn.
    replace (cross (vec u l) (vec (peak_point po l k) q)) with (s q - s (peak_point po l k))
      by (unfold s, cross, vec; simpl; ring).
    unfold gam. field. repeat split; lra. }
  assert (Inv : / ((INR n + 1) / eps) = eps / (INR n + 1)) by (field; lra).
  assert (W2 : 0 < w ^ 2) by (apply RPrelude.sqr_pos; auto).
  exists (T * w ^ 2 / g). intros q. fold (s q). split; intros H.
  - assert (Q : T <= s q * g / w).
    { replace (s q * g / w) with (s q * w * (g / w ^ 2)) by (field; auto).
      replace T with (T * w ^ 2 / g * (g / w ^ 2)) by (field; split; lra).
      apply Rmult_le_compat_r; auto. left; apply Rdiv_lt_0_compat; auto. }
    unfold dot1_formula. fold w nn gam.
    apply Rle_trans with (INR (length (seq 0 n)) * (1 - eps / (INR n + 1))).
    + rewrite seq_length. assert (INR n * (eps / (INR n + 1)) <= eps); [|lra].
      replace (INR n * (eps / (INR n + 1))) with (eps * (INR n / (INR n + 1))) by (field; lra).
      assert (INR n / (INR n + 1) <= 1) by (apply Rmult_le_reg_r with (INR n + 1); [lra|]; unfold Rdiv; rewrite Rmult_assoc, Rinv_l; lra).
      nra.
    + apply Rsum_ge_const. intros k Hk.
      specialize (Bk k Hk). cbv beta in Bk. pose proof (Rle_abs (s (peak_point po l k) * g / w)) as RA.
      set (t := s q * g / w - s (peak_point po l k) * g / w).
      assert (Ht : (INR n + 1) / eps <= t) by (unfold t, T in *; lra).
      destruct (cdf_tail kind f _ _ gam t Hf Gam (Key q k)) as [C _].
      specialize (C ltac:(lra)). refine (Rle_trans _ _ _ _ C).
      assert (/ t <= eps / (INR n + 1)); [|lra]. rewrite <- Inv. apply Rinv_le_contravar; lra.
  - assert (Q : s q * g / w <= - T).
    { replace (s q * g / w) with (s q * w * (g / w ^ 2)) by (field; auto).
      replace (- T) with (- (T * w ^ 2 / g) * (g / w ^ 2)) by (field; split; lra).
      apply Rmult_le_compat_r; auto. left; apply Rdiv_lt_0_compat; auto. }
    unfold dot1_formula. fold w nn gam.
    apply Rle_trans with (INR (length (seq 0 n)) * (eps / (INR n + 1))).
    + apply Rsum_le_const. intros k Hk.
      specialize (Bk k Hk). cbv beta in Bk. pose proof (Rle_abs (- (s (peak_point po l k) * g / w))) as RA. rewrite Rabs_Ropp in RA.
      set (t := s q * g / w - s (peak_point po l k) * g / w).
      assert (Ht : (INR n + 1) / eps <= - t) by (unfold t, T in *; lra).
      destruct (cdf_tail kind f _ _ gam t Hf Gam (Key q k)) as [_ C].
      specialize (C ltac:(lra)). refine (Rle_trans _ _ _ C _).
      rewrite <- Inv. apply Rinv_le_contravar; lra.
    + rewrite seq_length.
      replace (INR n * (eps / (INR n + 1))) with (eps * (INR n / (INR n + 1))) by (field; lra).
      assert (INR n / (INR n + 1) <= 1) by (apply Rmult_le_reg_r with (INR n + 1); [lra|]; unfold Rdiv; rewrite Rmult_assoc, Rinv_l; lra).
      nra.
Qed.
