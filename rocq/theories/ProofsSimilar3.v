(** Stretching and shifting a configuration together with the voltages: distortions and measurements. *)
From Coq Require Import FunctionalExtensionality.
From Verif Require Import RPrelude Arr ModelSupport ModelTct ModelCsd ModelJumps ModelDistortions ModelSensor ModelSimulation ModelInstance ModelNoise SpecSupport SpecTct SpecCsd SpecSimilar ProofsSupport ProofsTct ProofsOcc ProofsSimilar ProofsSimilar2.
Local Open Scope R_scope.

Section SimilarNoise.
Variables (k : R) (t : point).
Hypothesis Hk : 0 < k.
Notation lim1 := (stretch_lims k (fst t)).
Notation lim2 := (stretch_lims k (snd t)).

(** ** limits *)
Lemma range_stretch e l : volt_range (stretch_lims k e l) = k * volt_range l.
Proof. unfold volt_range, stretch_lims. cbn [fst snd]. rewrite (stretch_max k Hk), (stretch_min k Hk), stretch_diff. reflexivity. Qed.
Lemma sorted_stretch e l : sort_limits (stretch_lims k e l) = stretch_lims k e (sort_limits l).
Proof. unfold sort_limits, stretch_lims. cbn [fst snd]. rewrite (stretch_max k Hk), (stretch_min k Hk). reflexivity. Qed.
Lemma desc_stretch e l : descending (stretch_lims k e l) = descending l.
Proof. unfold descending, stretch_lims. cbn [fst snd]. apply (stretch_lt k Hk). Qed.
Lemma gate_stretch e l : fixed_gate (stretch_lims k e l) = fixed_gate l.
Proof. unfold fixed_gate, stretch_lims. cbn [fst snd]. apply (stretch_eq k Hk). Qed.
Notation per r := (let? x := r in Ok (x / k)).
Lemma div_stretch e n l : div_range n (stretch_lims k e l) = per (div_range n l).
Proof.
  unfold div_range. rewrite range_stretch. pose proof (scale_eq k Hk (volt_range l) 0) as E. rewrite Rmult_0_r in E. rewrite E.
  destruct (Reqb (volt_range l) 0); [reflexivity|]. cbn [bind]. f_equal. unfold Rdiv. rewrite Rinv_mult. ring.
Qed.
Lemma max_div a b : Rmax (a / k) (b / k) = Rmax a b / k.
Proof.
  assert (H : 0 < / k) by (apply Rinv_0_lt_compat; auto). unfold Rmax. destruct (Rle_dec (a / k) (b / k)) as [C|C]; destruct (Rle_dec a b) as [D|D]; auto; exfalso.
  - apply D. apply Rmult_le_reg_r with (/ k); auto.
  - apply C. apply Rmult_le_compat_r; lra.
Qed.
Lemma jump_px_stretch axis sh l1 l2 : (axis = 0 \/ axis = 1)%Z -> jump_px_per_volt axis sh (lim1 l1) (lim2 l2) = per (jump_px_per_volt axis sh l1 l2).
Proof. intros [-> | ->]; destruct sh; cbn [jump_px_per_volt Z.eqb Pos.eqb]; apply div_stretch. Qed.
Lemma rtn_px_stretch sh l1 l2 : rtn_px_per_volt sh (lim1 l1) (lim2 l2) = per (rtn_px_per_volt sh l1 l2).
Proof.
  destruct sh as [n|r c]; unfold rtn_px_per_volt.
  - rewrite !range_stretch. rewrite RmaxRmult by lra. pose proof (scale_eq k Hk (Rmax (volt_range l1) (volt_range l2)) 0) as E. rewrite Rmult_0_r in E. rewrite E. clear E.
    destruct (Reqb _ 0); [reflexivity|]. cbn [bind]. f_equal. unfold Rdiv. rewrite Rinv_mult. ring.
  - rewrite !gate_stretch, !div_stretch. destruct (fixed_gate l1); [reflexivity|]. destruct (fixed_gate l2); [reflexivity|].
    destruct (div_range r l1) as [a|]; [|reflexivity]. cbn [bind]. destruct (div_range c l2) as [b|]; [|reflexivity]. cbn [bind]. rewrite max_div. reflexivity.
Qed.
Lemma blur_px_stretch sh l1 l2 : blur_px_per_volt sh (lim1 l1) (lim2 l2) = per (blur_px_per_volt sh l1 l2).
Proof.
  destruct sh as [n|r c]; unfold blur_px_per_volt; [|apply div_stretch]. rewrite !gate_stretch, !div_stretch. destruct (fixed_gate l1); [reflexivity|]. destruct (fixed_gate l2); [reflexivity|].
  destruct (div_range n l1) as [a|]; [|reflexivity]. cbn [bind]. destruct (div_range n l2) as [b|]; [|reflexivity]. cbn [bind]. rewrite max_div. reflexivity.
Qed.
Lemma scale_px v p : k * v * (p / k) = v * p.
Proof. field. lra. Qed.
Lemma shifted_stretch e l s step : shifted_limits (stretch_lims k e l) s (k * step) = stretch_lims k e (shifted_limits l s step).
Proof. unfold shifted_limits, stretch_lims, stretch. cbn [fst snd]. f_equal; ring. Qed.

Context {G : Type}.
Variable src : sources G.
Notation C := (@scale_world G k).
Definition moved {A} (r : result A * noise_world G) : result A * noise_world G := (fst r, C (snd r)).
Lemma moved_bind {A B} (m m' : action (noise_world G) A) (f f' : A -> action (noise_world G) B) w :
  m' (C w) = moved (m w) -> (forall a w, f' a (C w) = moved (f a w)) -> mbind m' f' (C w) = moved (mbind m f w).
Proof. intros M F. unfold mbind. rewrite M. destruct (m w) as [[a|e] w1]; unfold moved; cbn [fst snd]; [apply F|reflexivity]. Qed.

(** ** potential and response distortions *)
Lemma image_noise_stretch d im l1 l2 g : image_noise_function src (scale_image_noise k d) im (lim1 l1) (lim2 l2) g = image_noise_function src d im l1 l2 g.
Proof.
  destruct d as [sigma fmin|sigma|ratio scale std height]; [reflexivity|reflexivity|]. cbn [scale_image_noise image_noise_function]. unfold rtn_noise_function.
  destruct (src_binomial src ratio g) as [[] g1]; [|reflexivity]. cbn [negb]. unfold scale_param. destruct (scale g1) as [v g2]. cbn [fst snd]. rewrite rtn_px_stretch.
  destruct (rtn_px_per_volt (image_shape im) l1 l2) as [p|e]; [|reflexivity]. cbn [bind]. rewrite scale_px. reflexivity.
Qed.
Lemma image_object_stretch d x l1 l2 w : image_object src (scale_image_noise k d) x (lim1 l1) (lim2 l2) (C w) = moved (image_object src d x l1 l2 w).
Proof.
  destruct x as [im|v]; [|reflexivity]. unfold image_object. cbn [scale_world w_rng]. rewrite image_noise_stretch.
  destruct (image_noise_function src d im l1 l2 (w_rng w)) as [[im' g']|e]; reflexivity.
Qed.
Lemma image_loop_stretch ds l1 l2 : forall x w,
  image_loop (map (image_object src) (map (scale_image_noise k) ds)) (lim1 l1) (lim2 l2) x (C w) = moved (image_loop (map (image_object src) ds) l1 l2 x w).
Proof.
  induction ds as [|d ds IH]; intros x w; [reflexivity|]. cbn [map image_loop]. apply moved_bind; [apply image_object_stretch|exact IH].
Qed.

(** ** occupation distortions *)
Definition gen_follows (gen' gen : generator (noise_world G) lead_mask) : Prop :=
  forall l1 l2 res w, gen' (lim1 l1) (lim2 l2) res (C w) = moved (gen l1 l2 res w).
Definition occ_follows (d' d : occ_distortion (noise_world G) lead_mask) : Prop :=
  forall gen' gen occ lead l1 l2 fr w, gen_follows gen' gen -> od_noise d' occ lead (lim1 l1) (lim2 l2) gen' fr (C w) = moved (od_noise d occ lead l1 l2 gen fr w).

Lemma set_key_scale (f : nat -> option R) key st :
  set_key (fun i => option_map (Rmult k) (f i)) key (option_map (Rmult k) st) = fun i => option_map (Rmult k) (set_key f key st i).
Proof. apply functional_extensionality. intros i. unfold set_key. destruct (i =? key)%nat; reflexivity. Qed.
Lemma blur_function_stretch (sigma : param G) kernel radius fr st g s l1 l2 :
  blur_noise_function (scale_param k sigma) kernel radius fr (option_map (Rmult k) st) g s (lim1 l1) (lim2 l2)
  = let? r := blur_noise_function sigma kernel radius fr st g s l1 l2 in let '(s', st', g') := r in Ok (s', option_map (Rmult k) st', g').
Proof.
  unfold blur_noise_function.
  assert (E : forall v g1,
    (if Rltb 0 (k * v) then let? p := blur_px_per_volt (scan_shape s) (lim1 l1) (lim2 l2) in Ok (blur_scan kernel radius (k * v * p) s, Some (k * v), g1) else Ok (s, Some (k * v), g1))
    = let? r := (if Rltb 0 v then let? p := blur_px_per_volt (scan_shape s) l1 l2 in Ok (blur_scan kernel radius (v * p) s, Some v, g1) else Ok (s, Some v, g1)) in
      let '(s', st', g') := r in Ok (s', option_map (Rmult k) st', g' : G)).
  { intros v g1. pose proof (scale_lt k Hk 0 v) as L. rewrite Rmult_0_r in L. rewrite L. destruct (Rltb 0 v); [|reflexivity]. rewrite blur_px_stretch.
    destruct (blur_px_per_volt (scan_shape s) l1 l2) as [p|e]; [|reflexivity]. cbn [bind]. rewrite scale_px. reflexivity. }
  destruct fr.
  - destruct st as [v|]; [|reflexivity]. cbn [option_map bind]. apply E.
  - unfold scale_param. destruct (sigma g) as [v g1]. cbn [bind fst snd]. apply E.
Qed.
Lemma blur_object_stretch key sigma kernel radius : occ_follows (blur_object key (scale_param k sigma) kernel radius) (blur_object key sigma kernel radius).
Proof.
  intros gen' gen occ lead l1 l2 fr w _. cbn [blur_object od_noise]. destruct (occ_scan occ) as [s|]; [|reflexivity]. cbn [scale_world w_sigma w_rng].
  rewrite blur_function_stretch. destruct (blur_noise_function sigma kernel radius fr (w_sigma w key) (w_rng w) s l1 l2) as [[[s' st] g']|e]; [|reflexivity].
  cbn [bind]. unfold moved, scale_world. cbn [fst snd w_sigma w_jump w_rng]. rewrite set_key_scale. reflexivity.
Qed.

(** The generated strips. *)
Lemma generated1_stretch gen' gen w l1 l2 n : gen_follows gen' gen -> generated1 gen' (C w) (lim1 l1) (lim2 l2) n = generated1 gen w l1 l2 n.
Proof. intros F. unfold generated1. rewrite F. reflexivity. Qed.
Lemma generated2_stretch gen' gen w l1 l2 n : gen_follows gen' gen -> generated2 gen' (C w) (lim1 l1) (lim2 l2) n = generated2 gen w l1 l2 n.
Proof. intros F. unfold generated2. rewrite F. reflexivity. Qed.
Lemma calls_stretch axis noise sh l1 l2 :
  jump_calls axis noise sh (lim1 l1) (lim2 l2) = map (fun c => (lim1 (fst (fst c)), lim2 (snd (fst c)), snd c)) (jump_calls axis noise sh l1 l2).
Proof.
  unfold jump_calls. rewrite !sorted_stretch. destruct (0 <? list_max noise)%nat; [|reflexivity]. set (a := sort_limits l1). set (b := sort_limits l2).
  assert (S1 : forall n, (snd (lim1 a) - fst (lim1 a)) / INR n = k * ((snd a - fst a) / INR n)) by (intros n; unfold stretch_lims; cbn [fst snd]; rewrite stretch_diff; unfold Rdiv; ring).
  assert (S2 : forall n, (snd (lim2 b) - fst (lim2 b)) / INR n = k * ((snd b - fst b) / INR n)) by (intros n; unfold stretch_lims; cbn [fst snd]; rewrite stretch_diff; unfold Rdiv; ring).
  assert (P : forall e (l : R * R) m x, (fst (stretch_lims k e l) - m * (k * x), fst (stretch_lims k e l) - k * x) = stretch_lims k e (fst l - m * x, fst l - x)).
  { intros. unfold stretch_lims, stretch. cbn [fst snd]. f_equal; ring. }
  destruct sh as [n|r c].
  - rewrite S1. destruct (axis =? 1)%Z.
    + rewrite map_map. apply map_ext. intros i. rewrite shifted_stretch. reflexivity.
    + destruct (axis =? 0)%Z; [|reflexivity]. rewrite map_map. apply map_ext. intros i. rewrite shifted_stretch. reflexivity.
  - destruct (axis =? 1)%Z; [rewrite S1, P; reflexivity|]. destruct (axis =? 0)%Z; [rewrite S2, P; reflexivity|reflexivity].
Qed.
Lemma run_stretch gen' gen calls : gen_follows gen' gen -> forall w,
  run_calls gen' (map (fun c => (lim1 (fst (fst c)), lim2 (snd (fst c)), snd c)) calls) (C w) = moved (run_calls gen calls w).
Proof.
  intros F. induction calls as [|[[l1 l2] res] calls IH]; intros w; [reflexivity|]. cbn [map run_calls fst snd]. apply moved_bind; [apply F|]. intros _ w1. apply IH.
Qed.
Lemma fold_left_ext {X Y} (f f' : X -> Y -> X) l : (forall x y, f x y = f' x y) -> forall x, fold_left f l x = fold_left f' l x.
Proof. intros H. induction l as [|y l IH]; intros x; [reflexivity|]. cbn [fold_left]. rewrite H. apply IH. Qed.

Section Apply.
Variables gen1 gen1' : limits -> limits -> nat -> arr1 (option R * option R) * arr1 (option R).
Variables gen2 gen2' : limits -> limits -> nat * nat -> arr2 (option R * option R) * arr2 (option R).
Hypothesis F1 : forall l1 l2 n, gen1' (lim1 l1) (lim2 l2) n = gen1 l1 l2 n.
Hypothesis F2 : forall l1 l2 n, gen2' (lim1 l1) (lim2 l2) n = gen2 l1 l2 n.
Lemma comp1_stretch hg axis l1 l2 noise z comp em data :
  jump1d_component is_nan None gen1' hg axis (lim1 l1) (lim2 l2) noise z comp em data = jump1d_component is_nan None gen1 hg axis l1 l2 noise z comp em data.
Proof.
  unfold jump1d_component.
  assert (S1 : (snd (lim1 l1) - fst (lim1 l1)) / INR (len1 data) = k * ((snd l1 - fst l1) / INR (len1 data))) by (unfold stretch_lims; cbn [fst snd]; rewrite stretch_diff; unfold Rdiv; ring).
  rewrite S1.
  rewrite (fold_left_ext (fun im i => push_col None (comp (gen1' (shifted_limits (lim1 l1) (i + 1) (k * ((snd l1 - fst l1) / INR (len1 data)))) (lim2 l2) (len1 data))) im)
    (fun im i => push_col None (comp (gen1 (shifted_limits l1 (i + 1) ((snd l1 - fst l1) / INR (len1 data))) l2 (len1 data))) im)) by (intros im i; rewrite shifted_stretch, F1; reflexivity).
  rewrite (fold_left_ext (fun im i => push_row None (comp (gen1' (lim1 l1) (shifted_limits (lim2 l2) (i + 1) (k * ((snd l1 - fst l1) / INR (len1 data)))) (len1 data))) im)
    (fun im i => push_row None (comp (gen1 l1 (shifted_limits l2 (i + 1) ((snd l1 - fst l1) / INR (len1 data))) (len1 data))) im)) by (intros im i; rewrite shifted_stretch, F1; reflexivity).
  reflexivity.
Qed.
Lemma strip1_stretch c1 c2 l1 l2 m img : strip_axis_1 gen1' gen2' c1 c2 (lim1 l1) (lim2 l2) m img = strip_axis_1 gen1 gen2 c1 c2 l1 l2 m img.
Proof.
  unfold strip_axis_1.
  assert (P : (fst (lim1 l1) - INR m * ((snd (lim1 l1) - fst (lim1 l1)) / INR (cols img)), fst (lim1 l1) - (snd (lim1 l1) - fst (lim1 l1)) / INR (cols img))
    = lim1 (fst l1 - INR m * ((snd l1 - fst l1) / INR (cols img)), fst l1 - (snd l1 - fst l1) / INR (cols img))).
  { unfold stretch_lims, stretch. cbn [fst snd]. unfold Rdiv. f_equal; ring. }
  rewrite P, F1, F2. reflexivity.
Qed.
Lemma strip0_stretch c1 c2 l1 l2 m img : strip_axis_0 gen1' gen2' c1 c2 (lim1 l1) (lim2 l2) m img = strip_axis_0 gen1 gen2 c1 c2 l1 l2 m img.
Proof.
  unfold strip_axis_0.
  assert (P : (fst (lim2 l2) - INR m * ((snd (lim2 l2) - fst (lim2 l2)) / INR (rows img)), fst (lim2 l2) - (snd (lim2 l2) - fst (lim2 l2)) / INR (rows img))
    = lim2 (fst l2 - INR m * ((snd l2 - fst l2) / INR (rows img)), fst l2 - (snd l2 - fst l2) / INR (rows img))).
  { unfold stretch_lims, stretch. cbn [fst snd]. unfold Rdiv. f_equal; ring. }
  rewrite P, F1, F2. reflexivity.
Qed.
Lemma comp2_stretch hg axis l1 l2 noise z c1 c2 em img :
  jump2d_component is_nan gen1' gen2' hg axis (lim1 l1) (lim2 l2) noise z c1 c2 em img = jump2d_component is_nan gen1 gen2 hg axis l1 l2 noise z c1 c2 em img.
Proof. unfold jump2d_component. rewrite strip1_stretch, strip0_stretch. reflexivity. Qed.
Lemma option_mapM_ext {X Y} (f f' : X -> result Y) o : (forall x, f x = f' x) -> option_mapM f o = option_mapM f' o.
Proof. intros H. destruct o; cbn [option_mapM]; [rewrite H|]; reflexivity. Qed.
Lemma apply_stretch junk hg axis noise s l1 l2 :
  jump_apply is_nan None junk hg gen1' gen2' axis noise s (lim1 l1) (lim2 l2) = jump_apply is_nan None junk hg gen1 gen2 axis noise s l1 l2.
Proof.
  unfold jump_apply. destruct s as [occ lead|occ lead].
  - rewrite !desc_stretch, !sorted_stretch. rewrite !comp1_stretch.
    rewrite (option_mapM_ext _ _ lead (fun l => comp1_stretch hg axis (sort_limits l1) (sort_limits l2) noise false snd _ (if (descending l2 || descending l1)%bool then flip1 l else l))). reflexivity.
  - rewrite !desc_stretch, !sorted_stretch. rewrite !comp2_stretch.
    rewrite (option_mapM_ext _ _ lead (fun l => comp2_stretch hg axis (sort_limits l1) (sort_limits l2) noise false snd snd _ (if descending l1 then flip_cols l else if descending l2 then flip_rows l else l))). reflexivity.
Qed.
End Apply.

Lemma draw_stretch axis ratio scale lam fr st g sh l1 l2 :
  jump_draw src axis ratio (scale_param k scale) (scale_param k lam) fr st g sh (lim1 l1) (lim2 l2) = jump_draw src axis ratio scale lam fr st g sh l1 l2.
Proof.
  unfold jump_draw. destruct (fr && negb _)%bool; [reflexivity|]. destruct fr; [reflexivity|]. destruct (src_binomial src ratio g) as [[] g1]; [|reflexivity]. cbn [negb].
  unfold scale_param. destruct (scale g1) as [v g2]. cbn [fst snd]. destruct (lam g2) as [u g3]. cbn [fst snd].
  assert (A : (axis = 0 \/ axis = 1)%Z \/ exists e, (forall sh, jump_size axis sh = Err e) /\ (forall sh l1 l2, jump_px_per_volt axis sh l1 l2 = Ok 1)).
  { destruct (Z.eqb_spec axis 0) as [A0|A0]; [auto|]. destruct (Z.eqb_spec axis 1) as [A1|A1]; [auto|]. right. exists IndexError.
    assert (E0 : (axis =? 0)%Z = false) by (apply Z.eqb_neq; auto). assert (E1 : (axis =? 1)%Z = false) by (apply Z.eqb_neq; auto).
    split; intros [|]; intros; unfold jump_size, jump_px_per_volt; rewrite E0, E1; reflexivity. }
  destruct A as [A|(e & A & B)]; [|rewrite !B, A; reflexivity]. rewrite (jump_px_stretch axis sh l1 l2 A).
  destruct (jump_px_per_volt axis sh l1 l2) as [p|e]; [|reflexivity]. cbn [bind]. rewrite !scale_px. reflexivity.
Qed.
Lemma jumps_object_stretch key axis ratio scale lam :
  occ_follows (jumps_object src key axis ratio (scale_param k scale) (scale_param k lam)) (jumps_object src key axis ratio scale lam).
Proof.
  intros gen' gen occ lead l1 l2 fr w F. cbn [jumps_object od_noise]. destruct (jump_scan occ lead) as [s|]; [|reflexivity]. cbn [scale_world w_jump w_rng].
  rewrite draw_stretch. destruct (jump_draw src axis ratio scale lam fr (w_jump w key) (w_rng w) (scan_shape s) l1 l2) as [[[noise st] g']|e]; [|reflexivity].
  set (w1 := mk_noise_world (w_sigma w) (set_key (w_jump w) key st) g').
  change (mk_noise_world (w_sigma (C w)) (set_key (w_jump w) key st) g') with (C w1). destruct noise as [noise|]; [|reflexivity].
  rewrite calls_stretch. apply moved_bind; [apply run_stretch; exact F|]. intros _ w2. unfold moved. cbn [fst snd].
  rewrite (apply_stretch (generated1 gen w1) (generated1 gen' (C w1)) (generated2 gen w1) (generated2 gen' (C w1))); [reflexivity| |].
  - intros. apply generated1_stretch. exact F.
  - intros. apply generated2_stretch. exact F.
Qed.
Lemma occ_object_stretch d : occ_follows (occ_object src (scale_occ_noise k d)) (occ_object src d).
Proof. destruct d; [apply blur_object_stretch|apply jumps_object_stretch]. Qed.
Lemma with_noise_stretch gen' gen d' d : gen_follows gen' gen -> occ_follows d' d -> gen_follows (with_noise gen' d') (with_noise gen d).
Proof.
  intros F D l1 l2 res w. unfold with_noise. apply moved_bind; [apply F|]. intros ol w1. apply moved_bind; [apply D; exact F|]. intros r w2. reflexivity.
Qed.
Lemma occupation_loop_stretch ds l1 l2 : forall gen' gen ol w, gen_follows gen' gen ->
  occupation_loop (map (occ_object src) (map (scale_occ_noise k) ds)) gen' (lim1 l1) (lim2 l2) ol (C w) = moved (occupation_loop (map (occ_object src) ds) gen l1 l2 ol w).
Proof.
  induction ds as [|d ds IH]; intros gen' gen ol w F; [reflexivity|]. cbn [map occupation_loop]. apply moved_bind.
  - apply occ_object_stretch. exact F.
  - intros r w1. apply IH. apply with_noise_stretch; [exact F|apply occ_object_stretch].
Qed.

(** ** sensor *)
Lemma potential_stretch s occ l1 l2 : generic_potential (stretch_sensor k t s) occ (lim1 l1) (lim2 l2) = generic_potential s occ l1 l2.
Proof.
  assert (GS : forall e l n i, grid (stretch_lims k e l) n i = stretch k e (grid l n i)) by (intros; unfold grid, stretch_lims, stretch, Rdiv; cbn [fst snd]; ring).
  unfold generic_potential. cbn [stretch_sensor gs_dot gs_gate gs_offset].
  assert (M : forall a x y, a + dot2 (stretch k (fst t) x, stretch k (snd t) y) (fst (gs_gate s) / k, snd (gs_gate s) / k)
    + (gs_offset s - (fst t * (fst (gs_gate s) / k) + snd t * (snd (gs_gate s) / k))) = a + dot2 (x, y) (gs_gate s) + gs_offset s).
  { intros a x y. unfold dot2, stretch. cbn [fst snd]. field. lra. }
  destruct occ as [a|a|]; [| |reflexivity].
  - do 4 f_equal. apply functional_extensionality. intros i. unfold volts1. rewrite !GS. apply M.
  - do 4 f_equal. apply functional_extensionality. intros i. apply functional_extensionality. intros j. unfold volts2. rewrite !GS. apply M.
Qed.

(** ** measurements *)
Lemma outside_stretch e l s : range_outside (option_map (stretch_lims k e) l) (stretch_lims k e s) = range_outside l s.
Proof.
  destruct l as [[lo hi]|]; [|reflexivity]. cbn [option_map range_outside]. unfold stretch_lims. cbn [fst snd]. rewrite (stretch_max k Hk), (stretch_min k Hk), !(stretch_lt k Hk). reflexivity.
Qed.
Lemma measure_stretch label lim1' lim2' x x' s occs pots resps s1 s2 sv1 sv2 res w :
  gen_follows (get_csd_data label x') (get_csd_data label x) ->
  same_measurement k
    (measure (noisy_config src label (option_map lim1 lim1') (option_map lim2 lim2') x' (stretch_sensor k t s)
       (map (scale_occ_noise k) occs) (map (scale_image_noise k) pots) (map (scale_image_noise k) resps))
       (map (stretch k (fst t)) s1) (map (stretch k (snd t)) s2) sv1 sv2 res (C w))
    (measure (noisy_config src label lim1' lim2' x s occs pots resps) s1 s2 sv1 sv2 res w).
Proof.
  intros F. unfold measure, check_measure. cbn [noisy_config ideal_csd_config volt_limits_g1 volt_limits_g2 volt_limits_sensor_g1 volt_limits_sensor_g2].
  destruct s1 as [|a1 [|b1 [|? ?]]]; try (split; reflexivity). destruct s2 as [|a2 [|b2 [|? ?]]]; try (split; reflexivity). cbn [map].
  change (stretch k (fst t) a1, stretch k (fst t) b1) with (lim1 (a1, b1)). change (stretch k (snd t) a2, stretch k (snd t) b2) with (lim2 (a2, b2)). rewrite !outside_stretch.
  assert (FX : forall e l, ModelSimulation.fixed_range (stretch_lims k e l) = ModelSimulation.fixed_range l) by (intros; apply (stretch_eq k Hk)). rewrite !FX. unfold raise_if. cbn [sensor_volt_outside bind].
  destruct (_ || _); [split; reflexivity|]. destruct (xorb _ _); [split; reflexivity|]. destruct (too_long res); [split; reflexivity|]. destruct (_ && _); [split; reflexivity|].
  destruct (_ && _); [split; reflexivity|].
  cbn [noisy_config occupation_distortions sensor_potential_distortions sensor_response_distortions sensor opt_list].
  set (l1 := (a1, b1)). set (l2 := (a2, b2)).
  unfold mbind at 1 7. rewrite F. destruct (get_csd_data label x l1 l2 res w) as [[ideal|e] w1]; unfold moved; cbn [fst snd]; [|split; reflexivity].
  unfold mbind at 1 6. rewrite (occupation_loop_stretch occs l1 l2 _ _ ideal w1 F). destruct (occupation_loop _ _ l1 l2 ideal w1) as [[[occ lead]|e] w2]; unfold moved; cbn [fst snd]; [|split; reflexivity].
  unfold mbind at 1 5. cbn [generic_object so_potential so_scan so_response sweep_arg as_limits]. rewrite <- !surjective_pairing. rewrite potential_stretch.
  destruct (generic_potential s occ l1 l2) as [im|e]; cbn [bind]; [|split; reflexivity].
  assert (D : distort_potential (Some (map (image_object src) (map (scale_image_noise k) pots))) (lim1 l1) (lim2 l2) occ (PotOne (RImage im)) (C w2)
    = moved (distort_potential (Some (map (image_object src) pots)) l1 l2 occ (PotOne (RImage im)) w2)).
  { destruct occ; cbn [distort_potential opt_list]; [| |reflexivity]; (apply moved_bind; [apply image_loop_stretch|reflexivity]). }
  unfold mbind at 1 4. rewrite D. destruct (distort_potential (Some (map (image_object src) pots)) l1 l2 occ _ w2) as [[p|e] w3]; unfold moved; cbn [fst snd]; [|split; reflexivity].
  unfold mbind at 1 3. destruct p as [[im'|v]|ps|p]; try (split; reflexivity). change (generic_response (stretch_sensor k t s) im') with (generic_response s im').
  generalize (generic_response s im'). intros r. unfold mbind. rewrite image_loop_stretch.
  destruct (image_loop (map (image_object src) resps) l1 l2 r w3) as [[csd|e] w4]; unfold moved; cbn [fst snd]; split; try reflexivity. split; [reflexivity|split; reflexivity].
Qed.
End SimilarNoise.

(** ** widths *)
Lemma widths_flat {A} (f : A -> R) v l : widths (flat_map (fun a => [f a; v]) l) = map (fun _ => v) l.
Proof. induction l as [|a l IH]; [reflexivity|]. cbn [flat_map app widths map]. rewrite IH. reflexivity. Qed.
Lemma region_zero params rot g : region_setup (calculate_all_bezier_anchors params 1 rot) g 0 = Err IndexError.
Proof.
  unfold region_setup. rewrite !coords_get. destruct params as [|p params]; [reflexivity|]. cbn [nth_error bind key_to_index].
  destruct (get_item (map (rotate_anchors rot) (tct_anchors p 1)) 1) as [a|e] eqn:E; [reflexivity|]. unfold get_item in E. destruct (nth_error _ 1); [discriminate|]. injection E as <-. reflexivity.
Qed.
Lemma gamma_default kind gf g : default_gamma_factor kind gf = Ok g -> g = gamma_of kind gf.
Proof. unfold default_gamma_factor, gamma_of. destruct gf; [congruence|]. destruct kind; congruence. Qed.
Lemma visible_widths k x g : 0 < k -> Forall admissible (g_tcts x) -> visible_couplings k x -> default_gamma_factor (g_cdf x) (g_gamma x) = Ok g ->
  coords_widths k (calculate_all_bezier_anchors (g_tcts x) 1 (g_rotation x)) g.
Proof.
  intros Hk HA V Eg r l0 l1 ps E. apply gamma_default in Eg.
  destruct r as [|r]; [rewrite region_zero in E; discriminate|]. set (n := S r) in *. assert (Hn : (1 <= n)%nat) by lia.
  destruct (region_setup_inv _ _ _ _ _ _ _ Hn E) as [L _]. destruct (interdot_exists (g_tcts x) n HA ltac:(lia)) as (u & l & I).
  destruct I as (pu & cu & po & I1 & I2 & I3 & I4 & I5). assert (I : interdot_line (g_tcts x) n u l) by (exists pu, cu, po; auto).
  rewrite (region_closed (g_tcts x) (g_rotation x) g n u l po HA Hn I I4) in E. apply (f_equal (fun r => match r with Ok (_, _, p) => p | Err _ => [] end)) in E. cbv beta iota in E. rewrite <- E, widths_flat. apply Forall_forall. intros w Hw. apply in_map_iff in Hw. destruct Hw as (_ & <- & _).
  specialize (V n u l po Hn I I4). rewrite <- Eg in V.
  assert (Ed : dist2 u l = sqrt (fst (vec u l) ^ 2 + snd (vec u l) ^ 2)) by (unfold dist2, vec; cbn [fst snd]; f_equal; ring). rewrite Ed in V.
  set (c := cross (vec u l) (coupling_vector po)) in *. set (q := sqrt _) in *. assert (Q0 : 0 <= q) by apply sqrt_pos. clearbody c q. clear - V Q0 Hk. unfold width_ok.
  destruct (Req_dec g 0) as [->|G0]; [unfold Rdiv; rewrite Rinv_0, !Rmult_0_r; reflexivity|]. destruct (Req_dec q 0) as [->|Q1]; [unfold Rdiv; rewrite Rinv_0, Rmult_0_r, Rmult_0_l, Rmult_0_r; reflexivity|].
  assert (Gp : 0 < Rabs g) by (apply Rabs_pos_lt; auto). assert (Qp : 0 < q) by lra. assert (P : 0 < Rabs g * q) by (apply Rmult_lt_0_compat; auto).
  assert (A : Rabs (- c / q / g) = Rabs c / (Rabs g * q)).
  { unfold Rdiv. rewrite !Rabs_mult, !Rabs_inv, Rabs_Ropp, (Rabs_pos_eq q Q0). rewrite Rinv_mult. ring. }
  assert (B : Rabs (k * (- c / q / g)) = k * Rabs c / (Rabs g * q)) by (rewrite Rabs_mult, A, (Rabs_pos_eq k) by lra; unfold Rdiv; ring).
  pose proof (Rabs_pos c) as C0. pose proof (Rmult_le_compat_r (Rabs c) _ _ C0 (Rmin_l 1 k)) as M1. pose proof (Rmult_le_compat_r (Rabs c) _ _ C0 (Rmin_r 1 k)) as M2.
  assert (N : forall m, 1 / 100000000 * Rabs g * q < m -> 1 / 100000000 < m / (Rabs g * q)).
  { intros m H. apply Rmult_lt_reg_r with (Rabs g * q); auto. unfold Rdiv at 2. rewrite Rmult_assoc, Rinv_l by lra. lra. }
  destruct (isclose0_spec (- c / q / g)) as [D|D]; destruct (isclose0_spec (k * (- c / q / g))) as [D'|D']; try reflexivity; exfalso.
  - rewrite A in D. pose proof (N (Rabs c) ltac:(lra)). lra.
  - rewrite B in D'. pose proof (N (k * Rabs c) ltac:(lra)). lra.
Qed.

Section Main.
Context {G : Type}.
Lemma geometric_stretch label k t x : 0 < k -> bent x -> (k = 1 \/ Forall admissible (g_tcts x) /\ visible_couplings k x) ->
  @gen_follows k t G (get_csd_data label (stretch_csd k t x)) (get_csd_data label x).
Proof.
  intros Hk Hb HV l1 l2 res w. unfold get_csd_data, moved. cbn [fst snd stretch_csd g_tcts g_rotation g_lut g_cdf g_gamma]. f_equal.
  pose proof (csd_stretch k t (g_rotation x) Hk label (g_tcts x) [fst l1; snd l1] [fst l2; snd l2] res (g_lut x) (g_cdf x) (g_gamma x) Hb) as E. cbn [map] in E.
  unfold stretch_lims. cbn [fst snd]. rewrite E; [reflexivity|]. intros g Eg. destruct HV as [->|[HA V]].
  - intros r l0 l3 ps _. apply widths_one.
  - apply visible_widths; auto.
Qed.
Lemma csd_shift label x t l1 l2 res : bent x ->
  ideal_csd_geometric label (g_tcts (stretch_csd 1 t x)) (map (stretch 1 (fst t)) l1) (map (stretch 1 (snd t)) l2) res (g_rotation x) (g_lut x) (g_cdf x) (g_gamma x)
  = ideal_csd_geometric label (g_tcts x) l1 l2 res (g_rotation x) (g_lut x) (g_cdf x) (g_gamma x).
Proof. intros Hb. apply (csd_stretch 1 t (g_rotation x) ltac:(lra)); [exact Hb|]. intros g _ r l0 l3 ps _. apply widths_one. Qed.
Lemma csd_scale label k x t l1 l2 res : 0 < k -> Forall admissible (g_tcts x) -> visible_couplings k x ->
  ideal_csd_geometric label (g_tcts (stretch_csd k t x)) (map (stretch k (fst t)) l1) (map (stretch k (snd t)) l2) res (g_rotation x) (g_lut x) (g_cdf x) (g_gamma x)
  = ideal_csd_geometric label (g_tcts x) l1 l2 res (g_rotation x) (g_lut x) (g_cdf x) (g_gamma x).
Proof.
  intros Hk HA V. apply (csd_stretch k t (g_rotation x) Hk).
  - intros p Hp. rewrite Forall_forall in HA. apply (HA p Hp).
  - intros g Eg. apply visible_widths; auto.
Qed.
Lemma measure_similar (src : sources G) label k t lims1 lims2 x s occs pots resps s1 s2 sv1 sv2 res w :
  0 < k -> bent x -> (k = 1 \/ Forall admissible (g_tcts x) /\ visible_couplings k x) ->
  same_measurement k
    (measure (noisy_config src label (option_map (stretch_lims k (fst t)) lims1) (option_map (stretch_lims k (snd t)) lims2) (stretch_csd k t x) (stretch_sensor k t s)
       (map (scale_occ_noise k) occs) (map (scale_image_noise k) pots) (map (scale_image_noise k) resps))
       (map (stretch k (fst t)) s1) (map (stretch k (snd t)) s2) sv1 sv2 res (scale_world k w))
    (measure (noisy_config src label lims1 lims2 x s occs pots resps) s1 s2 sv1 sv2 res w).
Proof. intros Hk Hb HV. apply measure_stretch; [exact Hk|]. apply geometric_stretch; auto. Qed.
End Main.
