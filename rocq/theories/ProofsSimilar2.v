(** Stretching and shifting a configuration together with the voltages: diagrams. *)
From Verif Require Import RPrelude Arr ModelSupport ModelTct ModelCsd ModelInstance SpecCsd SpecSimilar ProofsTct ProofsOcc ProofsSimilar.
Local Open Scope R_scope.

Section SimilarCsd.
Variables (k : R) (t : point) (rot : R).
Hypothesis Hk : 0 < k.
Notation d := (tct_view rot t).
Notation sx := (stretch k (fst d)).
Notation sy := (stretch k (snd d)).
Notation v1 := (stretch k (fst t)).
Notation v2 := (stretch k (snd t)).
Notation st := (stretch_tct k d).
Notation sp := (stretch_point k d).
Notation sv := (stretch_point k t).
Notation lim1 := (stretch_lims k (fst t)).
Notation lim2 := (stretch_lims k (snd t)).

Lemma view_stretch v : rotate_point (- rot) (sv v) = sp (rotate_point (- rot) v).
Proof. unfold tct_view, rotate_point, stretch_point, stretch. cbn [fst snd]. f_equal; ring. Qed.
Lemma back_stretch q : rotate_point rot (sp q) = sv (rotate_point rot q).
Proof.
  pose proof (view_rotate rot t) as E. revert E. generalize d. intros [a b] E. rewrite <- E. unfold stretch_point, rotate_point, stretch. cbn [fst snd]. f_equal; ring.
Qed.

Lemma dist_stretch p l0 l1 : signed_dist (sv p) (sv l0) (sv l1) = k * signed_dist p l0 l1.
Proof.
  unfold signed_dist, stretch_point. cbn [fst snd]. rewrite !(stretch_diff k).
  replace ((k * (fst l1 - fst l0)) ^ 2 + (k * (snd l1 - snd l0)) ^ 2) with (k² * ((fst l1 - fst l0) ^ 2 + (snd l1 - snd l0) ^ 2)) by (unfold Rsqr; ring).
  rewrite sqrt_mult_alt by apply Rle_0_sqr. rewrite sqrt_Rsqr by lra. unfold Rdiv. rewrite Rinv_mult. set (s := / sqrt _).
  generalize (fst l1 - fst l0) (snd p - snd l0) (snd l1 - snd l0) (fst p - fst l0). intros a b e f.
  replace (- (k * a * (k * b) - k * e * (k * f)) * (/ k * s)) with (k * / k * (k * (- (a * b - e * f) * s))) by ring. rewrite Rinv_r by lra. ring.
Qed.

(** ** lead transition mask *)
Lemma step_stretch e l n : pixel_step (stretch_lims k e l) n = k * pixel_step l n.
Proof. unfold pixel_step, stretch_lims. cbn [fst snd]. rewrite stretch_diff. unfold Rdiv. ring. Qed.
Lemma fold_min_stretch e l a : fold_right Rmin (stretch k e a) (map (stretch k e) l) = stretch k e (fold_right Rmin a l).
Proof. induction l as [|x l IH]; [reflexivity|]. cbn [map fold_right]. rewrite IH. apply stretch_min; auto. Qed.
Lemma fold_max_stretch e l a : fold_right Rmax (stretch k e a) (map (stretch k e) l) = stretch k e (fold_right Rmax a l).
Proof. induction l as [|x l IH]; [reflexivity|]. cbn [map fold_right]. rewrite IH. apply stretch_max; auto. Qed.
Lemma linspace_stretch e a b n : linspace (stretch k e a) (stretch k e b) n = map (stretch k e) (linspace a b n).
Proof. unfold linspace. rewrite map_map. apply map_ext. intros i. rewrite stretch_diff. unfold stretch, Rdiv. ring. Qed.
Lemma samples_stretch xl yl nx ny : mask_samples (lim1 xl) (lim2 yl) nx ny rot = map sx (mask_samples xl yl nx ny rot).
Proof.
  unfold mask_samples.
  assert (E : map fst (rotate_points (- rot) [(fst (lim1 xl), fst (lim2 yl)); (fst (lim1 xl), snd (lim2 yl)); (snd (lim1 xl), fst (lim2 yl)); (snd (lim1 xl), snd (lim2 yl))])
    = map sx (map fst (rotate_points (- rot) [(fst xl, fst yl); (fst xl, snd yl); (snd xl, fst yl); (snd xl, snd yl)]))).
  { unfold rotate_points. rewrite !map_map.
    change [(fst (lim1 xl), fst (lim2 yl)); (fst (lim1 xl), snd (lim2 yl)); (snd (lim1 xl), fst (lim2 yl)); (snd (lim1 xl), snd (lim2 yl))]
      with (map sv [(fst xl, fst yl); (fst xl, snd yl); (snd xl, fst yl); (snd xl, snd yl)]).
    rewrite map_map. apply map_ext. intros q. rewrite view_stretch. reflexivity. }
  rewrite E. set (l := rotate_points _ _). assert (N : exists x l', l = x :: l') by (eexists; eexists; reflexivity). clearbody l. destruct N as (x & l' & ->).
  rewrite step_stretch. cbn [map hd]. rewrite <- !map_cons. rewrite fold_min_stretch, fold_max_stretch. rewrite <- linspace_stretch. f_equal; unfold stretch; ring.
Qed.
Lemma valid_stretch xl yl xs ys q : mask_valid (lim1 xl) (lim2 yl) (k * xs) (k * ys) (sv q) = mask_valid xl yl xs ys q.
Proof.
  unfold mask_valid, stretch_lims, stretch_point. cbn [fst snd].
  assert (A : forall e a b, stretch k e a - 1 / 2 * (k * b) = stretch k e (a - 1 / 2 * b)) by (intros; unfold stretch; ring).
  assert (B : forall e a b, stretch k e a + 1 / 2 * (k * b) = stretch k e (a + 1 / 2 * b)) by (intros; unfold stretch; ring).
  rewrite !A, !B, !(stretch_lt k Hk). reflexivity.
Qed.
Lemma id_stretch e l s v : pixel_id (stretch_lims k e l) (k * s) (stretch k e v) = pixel_id l s v.
Proof.
  unfold pixel_id. cbn [stretch_lims fst].
  replace (stretch k e v + 1 / 2 * (k * s) - stretch k e (fst l)) with (k * (v + 1 / 2 * s - fst l)) by (unfold stretch; ring).
  rewrite (scale_div k Hk). reflexivity.
Qed.

(** TCT functions that agree up to the stretching *)
Definition follows (f f' : tct_function) : Prop := forall lut xs, f' lut (map sx xs) = let? ys := f lut xs in Ok (map sy ys).
Definition dict_follows (a b : tct_dict) : Prop := Forall2 (fun x y => fst x = fst y /\ follows (snd x) (snd y)) a b.

Lemma foldM_follows {A B S} (Q : A -> B -> Prop) (f : S -> A -> result S) (g : S -> B -> result S) la lb :
  Forall2 Q la lb -> (forall s a b, Q a b -> f s a = g s b) -> forall s, foldM f la s = foldM g lb s.
Proof.
  intros F H. induction F as [|a b la lb Hab F IH]; intros s; [reflexivity|]. cbn [foldM]. rewrite (H s a b Hab). destruct (g s b); cbn [bind]; auto.
Qed.
Lemma combine_stretch xs : forall ys, combine (map sx xs) (map sy ys) = map sp (combine xs ys).
Proof. induction xs as [|x xs IH]; intros [|y ys]; try reflexivity. cbn [map combine]. rewrite IH. reflexivity. Qed.
Lemma filter_map {A B} (f : B -> bool) (g : A -> B) l : filter f (map g l) = map g (filter (fun a => f (g a)) l).
Proof. induction l as [|a l IH]; [reflexivity|]. cbn [map filter]. rewrite IH. destruct (f (g a)); reflexivity. Qed.
Lemma foldM_map {A B S} (f : S -> B -> result S) (g : A -> B) l : forall s, foldM f (map g l) s = foldM (fun s a => f s (g a)) l s.
Proof. induction l as [|a l IH]; intros s; [reflexivity|]. cbn [map foldM]. destruct (f s (g a)); cbn [bind]; auto. Qed.
Lemma foldM_ext {A S} (f g : S -> A -> result S) l : (forall s a, f s a = g s a) -> forall s, foldM f l s = foldM g l s.
Proof. intros H. induction l as [|a l IH]; intros s; [reflexivity|]. cbn [foldM]. rewrite H. destruct (g s a); cbn [bind]; auto. Qed.

Lemma add_tct_stretch xl yl samples lut m a b : fst a = fst b /\ follows (snd a) (snd b) ->
  mask_add_tct (lim1 xl) (lim2 yl) (map sx samples) rot lut m b = mask_add_tct xl yl samples rot lut m a.
Proof.
  intros (E & F). unfold mask_add_tct. rewrite F. destruct (snd a lut samples) as [ys|e]; [|reflexivity]. cbn [bind].
  rewrite combine_stretch. unfold rotate_points. rewrite map_map. rewrite !step_stretch.
  rewrite (map_ext (fun q => rotate_point rot (sp q)) (fun q => sv (rotate_point rot q))) by (intros q; apply back_stretch).
  rewrite <- (map_map (rotate_point rot) sv). rewrite filter_map, foldM_map.
  rewrite (filter_ext (fun q => mask_valid (lim1 xl) (lim2 yl) _ _ (sv q)) (mask_valid xl yl (pixel_step xl (cols m)) (pixel_step yl (rows m)))) by (intros q; apply valid_stretch).
  apply foldM_ext. intros s q. rewrite E. cbn [stretch_point fst snd]. rewrite !id_stretch. reflexivity.
Qed.
Lemma mask_stretch ny nx xl yl a b lut : dict_follows a b -> lead_mask_2d ny nx (lim1 xl) (lim2 yl) b rot lut = lead_mask_2d ny nx xl yl a rot lut.
Proof.
  intros F. unfold lead_mask_2d. rewrite samples_stretch. symmetry. apply (foldM_follows _ _ _ _ _ F). intros s x y H. symmetry. apply add_tct_stretch. exact H.
Qed.

(** ** regions *)
Lemma insert_follows x y : fst x = fst y /\ follows (snd x) (snd y) -> forall a b, dict_follows a b -> dict_follows (insert_item x a) (insert_item y b).
Proof.
  intros H a b F. induction F as [|x' y' a b H' F IH]; [constructor; [exact H|constructor]|]. cbn [insert_item]. destruct H as (E & Fo). destruct H' as (E' & Fo').
  rewrite E, E'. destruct (fst y <=? fst y')%nat.
  - constructor; [auto|]. constructor; auto.
  - constructor; auto.
Qed.
Lemma sorted_follows a b : dict_follows a b -> dict_follows (sorted_items a) (sorted_items b).
Proof. intros F. induction F as [|x y a b H F IH]; [constructor|]. cbn [sorted_items fold_right]. apply insert_follows; auto. Qed.
Lemma Forall2_rev {A B} (Q : A -> B -> Prop) a b : Forall2 Q a b -> Forall2 Q (rev a) (rev b).
Proof. intros F. induction F as [|x y a b H F IH]; [constructor|]. cbn [rev]. apply Forall2_app; auto. Qed.

Lemma regions_1d_stretch points a b lut : dict_follows a b -> regions_1d (map sv points) b rot lut = regions_1d points a rot lut.
Proof.
  intros F. unfold regions_1d. rewrite map_length. unfold rotate_points.
  assert (V : map (rotate_point (- rot)) (map sv points) = map sp (map (rotate_point (- rot)) points)) by (rewrite !map_map; apply map_ext; intros q; apply view_stretch).
  rewrite V. clear V. set (q := map (rotate_point (- rot)) points). symmetry.
  apply (foldM_follows _ _ _ _ _ (Forall2_rev _ _ _ (sorted_follows a b F))). intros m x y (E & Fo).
  assert (M : map fst (map sp q) = map sx (map fst q)) by (rewrite !map_map; reflexivity). rewrite M, Fo. clear M. destruct x as [i f]. destruct y as [j g]. cbn [fst snd] in *.
  destruct (f lut (map fst q)) as [ys|e]; [|reflexivity]. cbn [bind]. f_equal. clearbody q. clear F Fo.
  revert ys m. induction q as [|p q IH]; intros [|z ys] [|n m]; try reflexivity. cbn [map combine]. rewrite <- IH. f_equal.
  cbn [stretch_point snd]. rewrite (stretch_lt k Hk), E. reflexivity.
Qed.

Lemma passed_stretch lut q a b : dict_follows a b -> forall r, passed b lut (sp q) r = passed a lut q r.
Proof.
  intros F. induction F as [|[i f] [j g] a b (E & Fo) F IH]; intros r; [reflexivity|]. cbn [fst] in E. subst j. cbn [passed snd] in *.
  unfold call_number. change [fst (sp q)] with (map sx [fst q]). rewrite Fo. destruct (f lut [fst q]) as [ys|e]; [|reflexivity]. cbn [bind].
  destruct ys as [|y ys]; [reflexivity|]. cbn [map get_item nth_error bind]. cbn [stretch_point snd]. rewrite (stretch_le k Hk). destruct (Rleb y (snd q)); [apply IH|reflexivity].
Qed.
Lemma regions_2d_stretch mask labels c c' r r' a b lut : dict_follows a b -> (forall j, c' j = v1 (c j)) -> (forall i, r' i = v2 (r i)) ->
  regions_2d mask labels c' r' b rot lut = regions_2d mask labels c r a rot lut.
Proof.
  intros F Hc Hr. unfold regions_2d. apply foldM_ext. intros m reg. destruct (filter _ _) as [|[i j] l]; [reflexivity|].
  rewrite Hc, Hr. change (v1 (c j), v2 (r i)) with (sv (c j, r i)). rewrite view_stretch. rewrite (passed_stretch lut _ _ _ (sorted_follows a b F)). reflexivity.
Qed.
Lemma grid_stretch e l n i : grid (stretch_lims k e l) n i = stretch k e (grid l n i).
Proof. unfold grid, stretch_lims. cbn [fst snd]. rewrite stretch_diff. unfold stretch, Rdiv. ring. Qed.

(** ** dictionaries of TCTs and anchors *)
Lemma dict_stretch params m : dict_follows (initialize_tct_functions params m) (initialize_tct_functions (map st params) m).
Proof.
  unfold initialize_tct_functions, dict_follows. rewrite map_length. generalize (seq 0 (length params)). intros l. revert params.
  induction l as [|i l IH]; intros [|p params]; try constructor; [|apply IH]. split; [reflexivity|]. intros lut xs. cbn [fst snd]. apply tct_stretch. exact Hk.
Qed.
Notation va := (fun a : anchors => (sv (fst (fst a)), sv (snd (fst a)), sv (snd a))).
Definition coords_stretch (c : list (nat * list anchors)) : list (nat * list anchors) := map (fun x => (fst x, map va (snd x))) c.
Lemma coords_follow params m : (forall p, In p params -> slope_left p <> slope_right p) ->
  calculate_all_bezier_anchors (map st params) m rot = coords_stretch (calculate_all_bezier_anchors params m rot).
Proof.
  intros Sl. unfold calculate_all_bezier_anchors, coords_stretch. rewrite map_length. generalize (seq 0 (length params)). intros l. revert params Sl.
  induction l as [|i l IH]; intros [|p params] Sl; try reflexivity. cbn [map combine fst snd]. rewrite IH by (intros q Hq; apply Sl; right; exact Hq). f_equal. f_equal.
  rewrite anchors_stretch by (auto; apply Sl; left; reflexivity). rewrite !map_map. apply map_ext. intros [[a b] c]. unfold rotate_anchors, stretch_anchors. cbn [fst snd].
  rewrite !back_stretch. reflexivity.
Qed.

Lemma get_stretch c r : dict_get (coords_stretch c) r = let? x := dict_get c r in Ok (map va x).
Proof. induction c as [|[i x] c IH]; [reflexivity|]. cbn [coords_stretch map dict_get fst snd]. destruct (i =? r)%nat; [reflexivity|exact IH]. Qed.
Lemma item_map {A B} (f : A -> B) l i : get_item (map f l) i = let? x := get_item l i in Ok (f x).
Proof. unfold get_item. rewrite nth_error_map. destruct (nth_error l i); reflexivity. Qed.
Lemma every_other_map {A B} (f : A -> B) : forall l, every_other (map f l) = map f (every_other l).
Proof.
  fix IH 1. intros [|a [|b l]]; [reflexivity|reflexivity|]. cbn [map every_other]. f_equal. apply IH.
Qed.
Lemma setup_stretch c g r : region_setup (coords_stretch c) g r
  = let? s := region_setup c g r in let '(l0, l1, ps) := s in Ok (sv l0, sv l1, map (Rmult k) ps).
Proof.
  unfold region_setup. rewrite !get_stretch. destruct (dict_get c (S r)) as [u|e]; [|destruct e; reflexivity]. cbn [bind key_to_index]. rewrite item_map.
  destruct (get_item u 1) as [a|e]; [|reflexivity]. cbn [bind]. destruct (dict_get c r) as [o|e]; [|destruct e; reflexivity]. cbn [bind key_to_index]. rewrite item_map.
  destruct (get_item o 0) as [b|e]; [|reflexivity]. cbn [bind fst snd]. apply f_equal. apply f_equal. rewrite every_other_map. generalize (every_other o). intros l.
  induction l as [|[[al ac] ar] l IH]; [reflexivity|]. cbn [map flat_map fst snd app]. rewrite IH. rewrite !dist_stretch. apply f_equal2; [reflexivity|]. apply f_equal2; [|reflexivity].
  unfold Rdiv. ring.
Qed.

(** ** CDFs *)
(** The parameters alternate between centres and widths. *)
Fixpoint widths (ps : list R) : list R := match ps with x :: w :: r => w :: widths r | _ => [] end.
Definition width_ok (w : R) : Prop := isclose0 (k * w) = isclose0 w.
Lemma step_cdf_scale x x0 : step_cdf (k * x) (k * x0) = step_cdf x x0.
Proof.
  unfold step_cdf. replace (k * x - k * x0) with (k * (x - x0)) by ring. pose proof (scale_lt k Hk 0 (x - x0)) as A. pose proof (scale_lt k Hk (x - x0) 0) as B. rewrite Rmult_0_r in A, B.
  rewrite A, B. destruct (Rltb_spec 0 (x - x0)); [reflexivity|]. destruct (Rltb_spec (x - x0) 0); [reflexivity|]. replace (x - x0) with 0 by lra. ring.
Qed.
Lemma sigmoid_scale x x0 w : width_ok w -> sigmoid_cdf (k * x) (k * x0) (k * w) = sigmoid_cdf x x0 w.
Proof.
  intros W. unfold sigmoid_cdf. rewrite W, step_cdf_scale. replace (k * x - k * x0) with (k * (x - x0)) by ring. rewrite (scale_div k Hk). reflexivity.
Qed.
Lemma cauchy_scale x x0 w : width_ok w -> cauchy_cdf (k * x) (k * x0) (k * w) = cauchy_cdf x x0 w.
Proof.
  intros W. unfold cauchy_cdf. rewrite W, step_cdf_scale. replace (k * x - k * x0) with (k * (x - x0)) by ring. rewrite (scale_div k Hk). reflexivity.
Qed.
Lemma multi_scale f x ps : (forall x x0 w, width_ok w -> f (k * x) (k * x0) (k * w) = f x x0 w) -> Forall width_ok (widths ps) ->
  multi_cdf f (k * x) (map (Rmult k) ps) = multi_cdf f x ps.
Proof.
  intros Hf. unfold multi_cdf. rewrite map_length. intros W.
  assert (E : sum_cdf f (k * x) (map (Rmult k) ps) = sum_cdf f x ps); [|rewrite E; reflexivity].
  revert ps W. fix IH 1. intros [|x0 [|w ps]] W; [reflexivity|reflexivity|]. cbn [widths map sum_cdf] in *. inversion W; subst. rewrite Hf, IH by assumption. reflexivity.
Qed.
Lemma func_stretch kind ps l0 l1 q : Forall width_ok (widths ps) -> occupation_func kind (map (Rmult k) ps) (sv l0) (sv l1) (sv q) = occupation_func kind ps l0 l1 q.
Proof.
  intros W. unfold occupation_func. rewrite map_length, dist_stretch. unfold multi_sigmoid_cdf, multi_cauchy_cdf.
  rewrite !multi_scale by (auto using sigmoid_scale, cauchy_scale). reflexivity.
Qed.

(** ** occupations *)
Definition coords_widths (c : list (nat * list anchors)) (g : R) : Prop := forall r l0 l1 ps, region_setup c g r = Ok (l0, l1, ps) -> Forall width_ok (widths ps).
Lemma fill_stretch kind c g pixels : coords_widths c g ->
  fill_occupations kind (coords_stretch c) g (map (fun x => (sv (fst x), snd x)) pixels) = fill_occupations kind c g pixels.
Proof.
  intros W. unfold fill_occupations. rewrite !map_map. cbn [snd].
  apply foldM_ext. intros occ r. destruct (r =? 0)%nat; [reflexivity|]. rewrite setup_stretch. destruct (region_setup c g r) as [[[l0 l1] ps]|e] eqn:E; [|reflexivity].
  cbn [bind]. specialize (W _ _ _ _ E). clear E.
  assert (C : combine (map (fun x : point * nat => (sv (fst x), snd x)) pixels) occ = map (fun po => ((sv (fst (fst po)), snd (fst po)), snd po)) (combine pixels occ)).
  { revert occ. induction pixels as [|x pixels IH]; intros [|o occ]; try reflexivity. cbn [map combine fst snd]. rewrite IH. reflexivity. }
  rewrite C, mapM_map. clear C. generalize (combine pixels occ). intros l. induction l as [|[[q n] o] l IH]; [reflexivity|]. cbn [mapM]. rewrite IH. cbn [fst snd].
  rewrite func_stretch by exact W. reflexivity.
Qed.
Lemma occ_1d_stretch n xl yl c a b lut kind gf : dict_follows a b -> (forall g, default_gamma_factor kind gf = Ok g -> coords_widths c g) ->
  occupation_1d n (lim1 xl) (lim2 yl) (coords_stretch c) b rot lut kind gf = occupation_1d n xl yl c a rot lut kind gf.
Proof.
  intros F W. unfold occupation_1d. destruct (default_gamma_factor kind gf) as [g|e]; [|reflexivity]. cbn [bind]. specialize (W _ eq_refl).
  assert (P : map (fun i => (grid (lim1 xl) n i, grid (lim2 yl) n i) : point) (seq 0 n) = map sv (map (fun i => (grid xl n i, grid yl n i) : point) (seq 0 n))).
  { rewrite map_map. apply map_ext. intros i. rewrite !grid_stretch. reflexivity. }
  rewrite P. generalize (map (fun i => (grid xl n i, grid yl n i) : point) (seq 0 n)). intros points. rewrite (regions_1d_stretch points a b lut F).
  destruct (regions_1d points a rot lut) as [regs|e]; [|reflexivity]. cbn [bind]. rewrite <- (fill_stretch kind c g _ W). f_equal.
  clear. revert regs. induction points as [|x points IH]; intros [|r regs]; try reflexivity. cbn [map combine fst snd]. rewrite <- IH. reflexivity.
Qed.
Lemma occ_2d_stretch label m xl yl c a b lut kind gf : dict_follows a b -> (forall g, default_gamma_factor kind gf = Ok g -> coords_widths c g) ->
  occupation_2d label m (lim1 xl) (lim2 yl) (coords_stretch c) b rot lut kind gf = occupation_2d label m xl yl c a rot lut kind gf.
Proof.
  intros F W. unfold occupation_2d. destruct (default_gamma_factor kind gf) as [g|e]; [|reflexivity]. cbn [bind]. specialize (W _ eq_refl).
  rewrite (regions_2d_stretch m (label m) (grid xl (cols m)) (grid (lim1 xl) (cols m)) (grid yl (rows m)) (grid (lim2 yl) (rows m)) a b lut F (grid_stretch _ _ _) (grid_stretch _ _ _)).
  destruct (regions_2d _ _ _ _ _ _ _) as [regs|e]; [|reflexivity]. cbn [bind]. rewrite <- (fill_stretch kind c g _ W). rewrite map_map. cbn [fst snd].
  match goal with |- context [fill_occupations kind _ g (map ?f ?l)] => match goal with |- context [fill_occupations kind _ g (map ?h l)] => rewrite (map_ext f h) end end; [reflexivity|].
  intros [i j]. cbn [fst snd]. rewrite !grid_stretch. reflexivity.
Qed.

(** ** the diagram *)
Lemma fixed_stretch e l : fixed_voltage (map (stretch k e) l) = fixed_voltage l.
Proof.
  unfold fixed_voltage. rewrite !item_map. destruct (get_item l 0) as [a|]; [|reflexivity]. cbn [bind]. destruct (get_item l 1) as [b|]; [|reflexivity]. cbn [bind].
  rewrite (stretch_eq k Hk). reflexivity.
Qed.
Lemma check_stretch l1 l2 res : check_request (map v1 l1) (map v2 l2) res = let? x := check_request l1 l2 res in Ok (lim1 (fst x), lim2 (snd x)).
Proof.
  unfold check_request. rewrite !fixed_stretch.
  match goal with |- (let? _ := ?c in _) = _ => destruct c as [[]|e] end; [|reflexivity]. cbn [bind].
  destruct l1 as [|a1 [|b1 [|? ?]]]; try reflexivity. destruct l2 as [|a2 [|b2 [|? ?]]]; try reflexivity. cbn [map]. unfold raise_if.
  destruct (2 <? length res)%nat; [reflexivity|]. destruct (_ && _); reflexivity.
Qed.
Lemma sort_stretch e l : np_sort (stretch_lims k e l) = stretch_lims k e (np_sort l).
Proof. unfold np_sort. cbn [stretch_lims fst snd]. rewrite (stretch_le k Hk). destruct (Rleb _ _); reflexivity. Qed.

Theorem csd_stretch label params l1 l2 res lut kind gf :
  (forall p, In p params -> slope_left p <> slope_right p) ->
  (forall g, default_gamma_factor kind gf = Ok g -> coords_widths (calculate_all_bezier_anchors params 1 rot) g) ->
  ideal_csd_geometric label (map st params) (map v1 l1) (map v2 l2) res rot lut kind gf
  = ideal_csd_geometric label params l1 l2 res rot lut kind gf.
Proof.
  intros Sl W. unfold ideal_csd_geometric. rewrite check_stretch. destruct (check_request l1 l2 (res_list res)) as [[xl yl]|e]; [|reflexivity]. cbn [bind fst snd].
  pose proof (dict_stretch params 1) as F. revert F. generalize (initialize_tct_functions params 1) (initialize_tct_functions (map st params) 1). intros a b F.
  rewrite coords_follow by exact Sl. revert W. generalize (calculate_all_bezier_anchors params 1 rot). intros c W.
  destruct (res_list res) as [|n [|n' [|? ?]]]; try reflexivity.
  - unfold raise_if. destruct (n <? 0)%Z; [reflexivity|]. rewrite (occ_1d_stretch _ xl yl c a b) by assumption. reflexivity.
  - rewrite !sort_stretch. rewrite (mask_stretch _ _ (np_sort xl) (np_sort yl) a b lut F).
    destruct (lead_mask_2d _ _ _ _ _ _ _) as [lead|e]; [|reflexivity]. cbn [bind]. rewrite (occ_2d_stretch label lead _ _ c a b) by assumption.
    destruct (occupation_2d _ _ _ _ _ _ _ _ _ _) as [occ|e]; [|reflexivity]. cbn [bind stretch_lims fst snd]. rewrite !(stretch_lt k Hk). reflexivity.
Qed.
End SimilarCsd.

Lemma width_ok_one w : width_ok 1 w.
Proof. unfold width_ok. rewrite Rmult_1_l. reflexivity. Qed.
Lemma widths_one ps : Forall (width_ok 1) (widths ps).
Proof. apply Forall_forall. intros w _. apply width_ok_one. Qed.
