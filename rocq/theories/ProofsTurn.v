(** Proofs about turning the ideal charge stability diagram. *)
From Verif Require Import RPrelude Arr ModelSupport ModelTct ModelCsd SpecTct SpecCsd ProofsSupport ProofsCsd ProofsOcc ProofsDriver ProofsScan
  ProofsRegions ProofsFine ProofsSimilar ProofsSimilar2.
Local Open Scope R_scope.

Section Turn.
Variables (phi rot : R).
Notation tv := (rotate_point phi).
Notation ta := (fun a : anchors => (tv (fst (fst a)), tv (snd (fst a)), tv (snd a))).

Lemma view_turn v : tct_view (rot + phi) (tv v) = tct_view rot v.
Proof. unfold tct_view. rewrite rotate_compose. f_equal. ring. Qed.
Lemma dist_turn p l0 l1 : signed_dist (tv p) (tv l0) (tv l1) = signed_dist p l0 l1.
Proof.
  destruct p as [px py], l0 as [ax ay], l1 as [bx by_]. unfold signed_dist, rotate_point. cbn [fst snd].
  pose proof (sin2_cos2 phi) as U. unfold Rsqr in U. set (c := cos phi) in *. set (s := sin phi) in *. clearbody c s.
  f_equal.
  - f_equal. transitivity ((s * s + c * c) * ((bx - ax) * (py - ay) - (by_ - ay) * (px - ax))); [ring|]. rewrite U. ring.
  - f_equal. transitivity ((s * s + c * c) * ((bx - ax) ^ 2 + (by_ - ay) ^ 2)); [ring|]. rewrite U. ring.
Qed.

Definition coords_turn (c : list (nat * list anchors)) : list (nat * list anchors) := map (fun x => (fst x, map ta (snd x))) c.
Lemma coords_turned params m :
  calculate_all_bezier_anchors params m (rot + phi) = coords_turn (calculate_all_bezier_anchors params m rot).
Proof.
  unfold calculate_all_bezier_anchors, coords_turn. rewrite map_map. apply map_ext. intros [i p]. cbn [fst snd]. f_equal.
  rewrite map_map. apply map_ext. intros [[a b] c]. unfold rotate_anchors. cbn [fst snd]. rewrite !rotate_compose. reflexivity.
Qed.
Lemma get_turn c r : dict_get (coords_turn c) r = let? x := dict_get c r in Ok (map ta x).
Proof. induction c as [|[i x] c IH]; [reflexivity|]. cbn [coords_turn map dict_get fst snd]. destruct (i =? r)%nat; [reflexivity|exact IH]. Qed.
Lemma setup_turn c g r : region_setup (coords_turn c) g r = let? s := region_setup c g r in let '(l0, l1, ps) := s in Ok (tv l0, tv l1, ps).
Proof.
  unfold region_setup. rewrite !get_turn. destruct (dict_get c (S r)) as [u|e]; [|destruct e; reflexivity]. cbn [bind key_to_index]. rewrite item_map.
  destruct (get_item u 1) as [a|e]; [|reflexivity]. cbn [bind]. destruct (dict_get c r) as [o|e]; [|destruct e; reflexivity]. cbn [bind key_to_index]. rewrite item_map.
  destruct (get_item o 0) as [b|e]; [|reflexivity]. cbn [bind fst snd]. apply f_equal. apply f_equal. rewrite every_other_map. generalize (every_other o). intros l.
  induction l as [|[[al ac] ar] l IH]; [reflexivity|]. cbn [map flat_map fst snd app]. rewrite IH. rewrite !dist_turn. reflexivity.
Qed.
Lemma func_turn kind ps l0 l1 q : occupation_func kind ps (tv l0) (tv l1) (tv q) = occupation_func kind ps l0 l1 q.
Proof. unfold occupation_func. rewrite dist_turn. reflexivity. Qed.
Lemma fill_turn kind c g pixels :
  fill_occupations kind (coords_turn c) g (map (fun x => (tv (fst x), snd x)) pixels) = fill_occupations kind c g pixels.
Proof.
  unfold fill_occupations. rewrite !map_map. cbn [snd].
  apply foldM_ext. intros occ r. destruct (r =? 0)%nat; [reflexivity|]. rewrite setup_turn. destruct (region_setup c g r) as [[[l0 l1] ps]|e] eqn:E; [|reflexivity].
  cbn [bind]. clear E.
  assert (C : combine (map (fun x : point * nat => (tv (fst x), snd x)) pixels) occ = map (fun po => ((tv (fst (fst po)), snd (fst po)), snd po)) (combine pixels occ)).
  { revert occ. induction pixels as [|x pixels IH]; intros [|o occ]; try reflexivity. cbn [map combine fst snd]. rewrite IH. reflexivity. }
  rewrite C, mapM_map. clear C. generalize (combine pixels occ). intros l. induction l as [|[[q n] o] l IH]; [reflexivity|]. cbn [mapM]. rewrite IH. cbn [fst snd].
  rewrite func_turn. reflexivity.
Qed.
Lemma regions_turn points tcts lut : regions_1d (map tv points) tcts (rot + phi) lut = regions_1d points tcts rot lut.
Proof.
  unfold regions_1d. rewrite map_length. unfold rotate_points. rewrite (map_map tv).
  replace (map (fun x => rotate_point (- (rot + phi)) (tv x)) points) with (map (rotate_point (- rot)) points); [reflexivity|].
  apply map_ext. intros v. symmetry. apply view_turn.
Qed.
(** the turned line *)
Lemma grid_turn a b n i : 
  (grid (fst (tv a), fst (tv b)) n i, grid (snd (tv a), snd (tv b)) n i) = tv (grid (fst a, fst b) n i, grid (snd a, snd b) n i).
Proof. unfold grid, rotate_point, Rdiv. cbn [fst snd]. f_equal; ring. Qed.
Lemma occ_1d_turn n a b params lut kind gf :
  occupation_1d n (fst (tv a), fst (tv b)) (snd (tv a), snd (tv b)) (calculate_all_bezier_anchors params 1 (rot + phi)) (initialize_tct_functions params 1) (rot + phi) lut kind gf
  = occupation_1d n (fst a, fst b) (snd a, snd b) (calculate_all_bezier_anchors params 1 rot) (initialize_tct_functions params 1) rot lut kind gf.
Proof.
  unfold occupation_1d. destruct (default_gamma_factor kind gf) as [g|e]; [|reflexivity]. cbn [bind]. rewrite coords_turned.
  set (points := map (fun i => (grid (fst a, fst b) n i, grid (snd a, snd b) n i) : point) (seq 0 n)).
  replace (map (fun i => (grid (fst (tv a), fst (tv b)) n i, grid (snd (tv a), snd (tv b)) n i) : point) (seq 0 n)) with (map tv points)
    by (unfold points; rewrite map_map; apply map_ext; intros i; symmetry; apply grid_turn).
  rewrite regions_turn. destruct (regions_1d points _ rot lut) as [regs|e]; [|reflexivity]. cbn [bind]. rewrite <- (fill_turn kind _ g (combine points regs)). f_equal.
  clearbody points. revert regs. induction points as [|x points IH]; intros [|r regs]; try reflexivity. cbn [map combine fst snd]. rewrite <- IH. reflexivity.
Qed.

Lemma turned_electrons params lut v n : electrons params lut (rot + phi) (tv v) n <-> electrons params lut rot v n.
Proof. unfold electrons, on_or_above, strictly_below. rewrite view_turn. reflexivity. Qed.
Lemma turned_above_all params lut v : above_all params lut (rot + phi) (tv v) <-> above_all params lut rot v.
Proof. unfold above_all, on_or_above. rewrite view_turn. reflexivity. Qed.

Lemma turned_pixel_occ kind params g v n o :
  pixel_occ kind (calculate_all_bezier_anchors params 1 rot) g v n o -> pixel_occ kind (calculate_all_bezier_anchors params 1 (rot + phi)) g (tv v) n o.
Proof.
  rewrite coords_turned. intros [H|(H & l0 & l1 & ps & E1 & E2)]; [left; auto|]. right. split; [auto|]. exists (tv l0), (tv l1), ps.
  rewrite setup_turn, E1. split; [reflexivity|]. rewrite func_turn. auto.
Qed.
End Turn.

Lemma turned_line phi label params a1 b1 a2 b2 res rot lut kind gf : length (res_list res) = 1%nat ->
  ideal_csd_geometric label params [cos phi * a1 - sin phi * a2; cos phi * b1 - sin phi * b2] [sin phi * a1 + cos phi * a2; sin phi * b1 + cos phi * b2]
    res (rot + phi) lut kind gf
  = ideal_csd_geometric label params [a1; b1] [a2; b2] res rot lut kind gf.
Proof.
  intros Hr. unfold ideal_csd_geometric. destruct (res_list res) as [|n [|]]; try discriminate Hr. unfold check_request. cbn [length Nat.eqb bind Nat.ltb Nat.leb raise_if andb].
  destruct (n <? 0)%Z; [reflexivity|]. cbn [raise_if]. rewrite <- (occ_1d_turn phi rot (Z.to_nat n) (a1, a2) (b1, b2)). reflexivity.
Qed.

Lemma turned_pixels phi label params rot lut kind gf l1 l2 res d a1 b1 a2 b2 v o lab l1' l2' res' d' a1' b1' a2' b2' o' lab' :
  csd_config label params lut kind gf ->
  l1 = [a1; b1] -> l2 = [a2; b2] -> ideal_csd_geometric label params l1 l2 res rot lut kind gf = Ok d -> scan_pixel d (a1, b1) (a2, b2) v o lab ->
  l1' = [a1'; b1'] -> l2' = [a2'; b2'] -> ideal_csd_geometric label params l1' l2' res' (rot + phi) lut kind gf = Ok d' ->
  scan_pixel d' (a1', b1') (a2', b2') (cos phi * fst v - sin phi * snd v, sin phi * fst v + cos phi * snd v) o' lab' ->
  fst o + snd o = fst o' + snd o' -> o = o'.
Proof.
  intros C E1 E2 H Px E1' E2' H' Px' Sm.
  destruct (scan_occ _ _ _ _ _ _ _ _ _ _ _ _ _ _ _ _ _ C E1 E2 H Px) as (n & _ & Po).
  destruct (scan_occ _ _ _ _ _ _ _ _ _ _ _ _ _ _ _ _ _ C E1' E2' H' Px') as (n' & _ & Po').
  destruct (pixel_occ_bounds _ _ _ _ _ _ _ Po) as (_ & S1 & _). destruct (pixel_occ_bounds _ _ _ _ _ _ _ Po') as (_ & S2 & _).
  assert (n' = n) by (apply INR_eq; lra). subst n'.
  apply (turned_pixel_occ phi) in Po. exact (pixel_occ_fun _ _ _ _ _ _ _ Po Po').
Qed.

(** complete turns *)
Lemma rotate_period a v : rotate_point (a + 2 * PI) v = rotate_point a v.
Proof. unfold rotate_point. rewrite sin_plus, cos_plus, sin_2PI, cos_2PI. f_equal; ring. Qed.
Lemma rotate_period_neg a v : rotate_point (- (a + 2 * PI)) v = rotate_point (- a) v.
Proof. rewrite <- (rotate_period (- (a + 2 * PI))). f_equal. ring. Qed.
Lemma full_turn label params l1 l2 res rot lut kind gf :
  ideal_csd_geometric label params l1 l2 res (rot + 2 * PI) lut kind gf = ideal_csd_geometric label params l1 l2 res rot lut kind gf.
Proof.
  unfold ideal_csd_geometric. destruct (check_request l1 l2 (res_list res)) as [[xl yl]|e]; [|reflexivity]. cbn [bind].
  assert (Co : calculate_all_bezier_anchors params 1 (rot + 2 * PI) = calculate_all_bezier_anchors params 1 rot).
  { unfold calculate_all_bezier_anchors. apply map_ext. intros [i p]. cbn [fst snd]. f_equal. apply map_ext. intros [[a b] c]. unfold rotate_anchors. rewrite !rotate_period. reflexivity. }
  rewrite Co.
  assert (Rs : forall l, rotate_points (- (rot + 2 * PI)) l = rotate_points (- rot) l) by (intros l; apply map_ext; intros v; apply rotate_period_neg).
  assert (Rs' : forall l, rotate_points (rot + 2 * PI) l = rotate_points rot l) by (intros l; apply map_ext; intros v; apply rotate_period).
  assert (O1 : forall n, occupation_1d n xl yl (calculate_all_bezier_anchors params 1 rot) (initialize_tct_functions params 1) (rot + 2 * PI) lut kind gf
    = occupation_1d n xl yl (calculate_all_bezier_anchors params 1 rot) (initialize_tct_functions params 1) rot lut kind gf)
    by (intros n; unfold occupation_1d, regions_1d; rewrite Rs; reflexivity).
  assert (M : forall ny nx sx sy, lead_mask_2d ny nx sx sy (initialize_tct_functions params 1) (rot + 2 * PI) lut = lead_mask_2d ny nx sx sy (initialize_tct_functions params 1) rot lut).
  { intros ny nx sx sy. unfold lead_mask_2d, mask_samples. rewrite Rs. apply foldM_ext. intros m x. unfold mask_add_tct. destruct (snd x lut _) as [ys|e]; [|reflexivity]. cbn [bind]. rewrite Rs'. reflexivity. }
  assert (O2 : forall mask sx sy, occupation_2d label mask sx sy (calculate_all_bezier_anchors params 1 rot) (initialize_tct_functions params 1) (rot + 2 * PI) lut kind gf
    = occupation_2d label mask sx sy (calculate_all_bezier_anchors params 1 rot) (initialize_tct_functions params 1) rot lut kind gf).
  { intros mask sx sy. unfold occupation_2d, regions_2d. destruct (default_gamma_factor kind gf) as [g|e]; [|reflexivity]. cbn [bind].
    f_equal. apply foldM_ext. intros m r. destruct (filter _ _) as [|[i j] l]; [reflexivity|]. rewrite rotate_period_neg. reflexivity. }
  destruct (res_list res) as [|n [|n' [|]]]; try reflexivity.
  - rewrite O1. reflexivity.
  - rewrite M. destruct (lead_mask_2d _ _ _ _ _ _ _) as [lead|e]; [|reflexivity]. cbn [bind]. rewrite O2. reflexivity.
Qed.

Lemma turned_images phi label params a1 b1 a2 b2 nx ny c1 e1 c2 e2 nx' ny' rot lut kind gf occ lead occ' lead' L eps v o o' :
  csd_config label params lut kind gf -> 0 <= eps -> Forall (bounded_tct L eps lut) params ->
  fine_sampling (np_sort (a1, b1)) (np_sort (a2, b2)) (Z.to_nat nx) (Z.to_nat ny) rot L eps ->
  fine_sampling (np_sort (c1, e1)) (np_sort (c2, e2)) (Z.to_nat nx') (Z.to_nat ny') (rot + phi) L eps ->
  ideal_csd_geometric label params [a1; b1] [a2; b2] (ResArray [nx; ny]) rot lut kind gf = Ok (Csd2 occ lead) ->
  ideal_csd_geometric label params [c1; e1] [c2; e2] (ResArray [nx'; ny']) (rot + phi) lut kind gf = Ok (Csd2 occ' lead') ->
  scan_pixel (Csd2 occ lead) (a1, b1) (a2, b2) v o 0%nat ->
  scan_pixel (Csd2 occ' lead') (c1, e1) (c2, e2) (cos phi * fst v - sin phi * snd v, sin phi * fst v + cos phi * snd v) o' 0%nat -> o = o'.
Proof.
  intros C He HB F F' H H' Px Px'.
  destruct (scan_2d_unlabelled _ _ _ _ _ _ _ _ _ _ _ _ _ _ _ _ C He HB F H v o Px) as (n & En & Po).
  destruct (scan_2d_unlabelled _ _ _ _ _ _ _ _ _ _ _ _ _ _ _ _ C He HB F' H' _ o' Px') as (n' & En' & Po').
  apply (turned_electrons phi rot) in En'. assert (n' = n) by exact (electrons_unique _ _ _ _ _ _ En' En). subst n'.
  apply (turned_pixel_occ phi) in Po. exact (pixel_occ_fun _ _ _ _ _ _ _ Po Po').
Qed.
