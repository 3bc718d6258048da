(** Proofs about simulations with the distortions of the package. *)
From Verif Require Import RPrelude Arr ModelSupport ModelTct ModelCsd ModelJumps ModelDistortions ModelSensor ModelSimulation ModelInstance
  ModelNoise SpecSupport SpecTct SpecCsd SpecSensor SpecDistortions SpecInstance SpecNoise ProofsJumps ProofsDistortions ProofsCsd ProofsOcc ProofsRegions ProofsDriver ProofsScan ProofsInstance.
Local Open Scope R_scope.

Section Additive.
Context {G : Type}.
Variable src : sources G.

(** The noise a distortion adds to any image of a shape. *)
Definition drawn (d : image_noise G) (sh : shape) (l1 l2 : limits) (g : G) : result (list R * G) :=
  let n := shape_size sh in
  match d with
  | Pink sigma fmin =>
      let '(sg, g1) := sigma g in let '(z, g2) := src_powerlaw src n fmin g1 in Ok (map (fun x => x * sg) z, g2)
  | White sigma =>
      let '(sg, g1) := sigma g in
      if Rltb sg 0 then Err ValueError
      else let '(z, g2) := src_standard src n g1 in Ok (map (fun x => 0 + sg * x) z, g2)
  | Telegraph ratio scale std height =>
      let '(act, g1) := src_binomial src ratio g in
      if negb act then Ok (repeat 0 n, g1)
      else
        let '(scale_v, g2) := scale g1 in
        let? k := rtn_px_per_volt sh l1 l2 in
        let '(sd, g3) := std g2 in
        let '(h, g4) := height g3 in
        if Reqb (scale_v * k) 0 then Ok (repeat 0 n, g4)
        else if Rltb (scale_v * k) 1 then Err ValueError
        else
          let '(ls, g5) := src_geometric src (1 / (scale_v * k)) n g4 in
          let '(z, g6) := block_noise 0 (src_normal src h sd) ls n g5 in Ok (z, g6)
  end.

Lemma length_plus_pixels a b : length a = length b -> length (plus_pixels a b) = length a.
Proof. intros H. unfold plus_pixels. rewrite map_length, combine_length. lia. Qed.
Lemma plus_pixels_assoc a : forall b c, plus_pixels (plus_pixels a b) c = plus_pixels a (plus_pixels b c).
Proof.
  unfold plus_pixels. induction a as [|x a IH]; intros [|y b] [|z c]; cbn; auto. rewrite IH. f_equal. ring.
Qed.
Lemma plus_zero a n : n = length a -> plus_pixels a (repeat 0 n) = a.
Proof. intros ->. induction a as [|x a IH]; cbn; auto. unfold plus_pixels in *. rewrite IH. f_equal. ring. Qed.
Lemma nth_plus_pixels a : forall b k, length a = length b -> nth k (plus_pixels a b) 0 = nth k a 0 + nth k b 0.
Proof.
  unfold plus_pixels. induction a as [|x a IH]; intros [|y b] [|k]; cbn; try discriminate; intros H; try ring.
  - apply IH. lia.
Qed.
Lemma shape_add im z : image_shape (add_noise im z) = image_shape im.
Proof. destruct im; reflexivity. Qed.


Hypothesis Sok : sources_ok src.
Lemma drawn_spec d im l1 l2 g :
  match drawn d (image_shape im) l1 l2 g with
  | Ok (z, g') => length z = shape_size (image_shape im) /\
      exists im', image_noise_function src d im l1 l2 g = Ok (im', g') /\ image_shape im' = image_shape im /\
        pixels im' = plus_pixels (pixels im) z
  | Err e => image_noise_function src d im l1 l2 g = Err e
  end.
Proof.
  destruct Sok as (Sg & Ss & Sp). destruct d as [sigma fmin|sigma|ratio scale std height]; cbn [drawn image_noise_function].
  - unfold pink_noise_function, pink_gaussian_noise. destruct (sigma g) as [sg g1]. pose proof (Sp (shape_size (image_shape im)) fmin g1) as L.
    destruct (src_powerlaw src (shape_size (image_shape im)) fmin g1) as [y g2]. cbn [fst] in L.
    assert (L' : length (map (fun x => x * sg) y) = shape_size (image_shape im)) by (rewrite map_length; exact L).
    split; [exact L'|]. eexists. split; [reflexivity|]. split; [apply shape_add|apply pixels_add_noise, L'].
  - unfold white_noise_function, white_gaussian_noise. destruct (sigma g) as [sg g1]. destruct (Rltb sg 0); [reflexivity|]. pose proof (Ss (shape_size (image_shape im)) g1) as L.
    destruct (src_standard src (shape_size (image_shape im)) g1) as [y g2]. cbn [fst] in L.
    assert (L' : length (map (fun x => 0 + sg * x) y) = shape_size (image_shape im)) by (rewrite map_length; exact L).
    split; [exact L'|]. eexists. split; [reflexivity|]. split; [apply shape_add|apply pixels_add_noise, L'].
  - unfold rtn_noise_function, random_telegraph_noise. destruct (src_binomial src ratio g) as [act g1]. destruct act; cbn [negb].
    2: { split; [apply repeat_length|]. exists im. split; [reflexivity|]. split; [reflexivity|]. symmetry. apply plus_zero. symmetry. apply length_pixels. }
    destruct (scale g1) as [sv g2]. destruct (rtn_px_per_volt (image_shape im) l1 l2) as [k|]; [|reflexivity]. cbn [bind].
    destruct (std g2) as [sd g3]. destruct (height g3) as [h g4].
    destruct (Reqb (sv * k) 0).
    { split; [apply repeat_length|]. exists im. split; [reflexivity|]. split; [reflexivity|]. symmetry. apply plus_zero. symmetry. apply length_pixels. }
    destruct (Rltb (sv * k) 1); [reflexivity|].
    destruct (Sg (1 / (sv * k)) (shape_size (image_shape im)) g4) as [L Pos].
    destruct (src_geometric src (1 / (sv * k)) (shape_size (image_shape im)) g4) as [ls g5]. cbn [fst] in *.
    pose proof (block_noise_spec 0 (src_normal src h sd) ls (shape_size (image_shape im)) g5 Pos L) as [Q _].
    destruct (block_noise 0 (src_normal src h sd) ls (shape_size (image_shape im)) g5) as [z g6]. cbn [fst] in Q.
    split; [exact Q|]. eexists. split; [reflexivity|]. split; [apply shape_add|apply pixels_add_noise, Q].
Qed.

(** The noise of a list of distortions: the sum. *)
Fixpoint drawn_all (ds : list (image_noise G)) (sh : shape) (l1 l2 : limits) (g : G) : result (list R * G) :=
  match ds with
  | [] => Ok (repeat 0 (shape_size sh), g)
  | d :: t =>
      let? r := drawn d sh l1 l2 g in
      let? r' := drawn_all t sh l1 l2 (snd r) in
      Ok (plus_pixels (fst r) (fst r'), snd r')
  end.
Lemma loop_spec l1 l2 ds : forall im w,
  match drawn_all ds (image_shape im) l1 l2 (w_rng w) with
  | Ok (z, g') => length z = shape_size (image_shape im) /\
      exists im', image_loop (map (image_object src) ds) l1 l2 (RImage im) w = (Ok (RImage im'), mk_noise_world (w_sigma w) (w_jump w) g') /\
        image_shape im' = image_shape im /\ pixels im' = plus_pixels (pixels im) z
  | Err e => fst (image_loop (map (image_object src) ds) l1 l2 (RImage im) w) = Err e
  end.
Proof.
  induction ds as [|d ds IH]; intros im w; cbn [drawn_all map image_loop].
  - split; [apply repeat_length|]. exists im. split; [destruct w; reflexivity|]. split; [reflexivity|].
    symmetry. apply plus_zero. symmetry. apply length_pixels.
  - unfold mbind. cbn [image_object]. pose proof (drawn_spec d im l1 l2 (w_rng w)) as D.
    destruct (drawn d (image_shape im) l1 l2 (w_rng w)) as [[z g1]|e]; cbn [bind fst snd].
    + destruct D as (L & im1 & E & Sh & P). rewrite E. specialize (IH im1 (mk_noise_world (w_sigma w) (w_jump w) g1)). cbn [w_rng w_sigma w_jump] in IH.
      rewrite Sh in IH. destruct (drawn_all ds (image_shape im) l1 l2 g1) as [[z' g2]|e]; cbn [bind fst snd].
      * destruct IH as (L' & im2 & E' & Sh' & P'). split; [rewrite length_plus_pixels; congruence|].
        exists im2. split; [exact E'|]. split; [congruence|]. rewrite P', P. apply plus_pixels_assoc.
      * exact IH.
    + rewrite D. reflexivity.
Qed.
End Additive.

(** ** Occupation distortions keep the shape *)
Section Occ.
Context {G : Type}.
Variable src : sources G.

Lemma occ_part_scan occ s : occ_scan occ = Some s -> occ_part s = occ.
Proof. destruct occ; cbn; intros E; inversion E; reflexivity. Qed.
Lemma shape_occ_part s : shape_of_occ (occ_part s) = Some (scan_shape s).
Proof. destruct s; reflexivity. Qed.
Lemma blur_shape {H} (sample : H -> R * H) kernel radius freeze st g s l1 l2 s' st' g' :
  blur_noise_function sample kernel radius freeze st g s l1 l2 = Ok (s', st', g') -> scan_shape s' = scan_shape s.
Proof.
  unfold blur_noise_function. destruct (if freeze then _ else _) as [[sigma g1]|]; [|discriminate]. cbn [bind].
  destruct (Rltb 0 sigma).
  - destruct (blur_px_per_volt (scan_shape s) l1 l2); [|discriminate]. cbn [bind]. intros E. injection E as <- _ _. destruct s; reflexivity.
  - intros E. injection E as <- _ _. reflexivity.
Qed.
Lemma jump_apply_shape {A} isnan (nan : A) junk have gen1 gen2 axis noise s l1 l2 s' :
  jump_apply isnan nan junk have gen1 gen2 axis noise s l1 l2 = Ok s' -> scan_shape s' = scan_shape s.
Proof.
  assert (R1 : forall comp lim1 lim2 data out, jump1d_component isnan nan gen1 have axis lim1 lim2 noise false comp (fun r c => mk_arr2 r c junk) data = Ok out -> len1 out = len1 data).
  { intros comp lim1 lim2 data out. unfold jump1d_component. destruct (dot_jumps_blockwise _ _ _ _ _ _); [|discriminate]. cbn [bind].
    destruct (axis =? 1)%Z; intros E; inversion E; reflexivity. }
  assert (R2 : forall c1 c2 lim1 lim2 data out, jump2d_component isnan gen1 gen2 have axis lim1 lim2 noise false c1 c2 (fun r c => mk_arr2 r c junk) data = Ok out -> rows out = rows data /\ cols out = cols data).
  { intros c1 c2 lim1 lim2 data out. unfold jump2d_component. destruct (negb _); [intros E; inversion E; auto|].
    destruct (dot_jumps_blockwise _ _ _ _ _ _); [|discriminate]. cbn [bind]. destruct (axis =? 1)%Z; intros E; inversion E; auto. }
  destruct s as [occ lead|occ lead]; unfold jump_apply.
  - destruct (jump1d_component _ _ _ _ _ _ _ _ _ _ _ _) as [o1|] eqn:E1; [|discriminate]. cbn [bind].
    destruct (jump1d_component _ _ _ _ _ _ _ _ _ (fun d => amap1 snd (fst d)) _ _) as [o2|] eqn:E2; [|discriminate]. cbn [bind].
    destruct (option_mapM _ lead); [|discriminate]. cbn [bind]. intros E. injection E as <-. apply R1 in E1. cbn.
    destruct (_ || _)%bool; cbn in *; rewrite E1; reflexivity.
  - destruct (jump2d_component _ _ _ _ _ _ _ _ _ _ _ _ _) as [o1|] eqn:E1; [|discriminate]. cbn [bind].
    destruct (jump2d_component _ _ _ _ _ _ _ _ _ (fun d => amap1 snd (fst d)) _ _ _) as [o2|] eqn:E2; [|discriminate]. cbn [bind].
    destruct (option_mapM _ lead); [|discriminate]. cbn [bind]. intros E. injection E as <-. apply R2 in E1. destruct E1 as [E1 E1']. cbn.
    destruct (descending l1); [|destruct (descending l2)]; cbn in *; rewrite E1, E1'; reflexivity.
Qed.
Lemma jump_scan_shape occ lead s : jump_scan occ lead = Some s -> shape_of_occ occ = Some (scan_shape s).
Proof. destruct occ, lead; cbn; intros E; inversion E; reflexivity. Qed.
Lemma scan_jump_shape s lead : shape_of_occ (fst (scan_jump s lead)) = Some (scan_shape s).
Proof. destruct s; reflexivity. Qed.

Lemma object_shape d occ lead l1 l2 gen freeze w a b w' :
  od_noise (occ_object src d) occ lead l1 l2 gen freeze w = (Ok (a, b), w') -> shape_of_occ (fst a) = shape_of_occ occ.
Proof.
  destruct d as [k sigma kernel radius|k axis ratio scale lam]; cbn [occ_object od_noise blur_object jumps_object].
  - destruct (occ_scan occ) as [s|] eqn:Es; [|discriminate].
    destruct (blur_noise_function _ _ _ _ _ _ _ _ _) as [[[s' st] g']|] eqn:E; [|discriminate]. intros H. inversion H; subst. cbn [fst].
    rewrite shape_occ_part, (blur_shape _ _ _ _ _ _ _ _ _ _ _ _ E), <- shape_occ_part. rewrite (occ_part_scan _ _ Es). reflexivity.
  - destruct (jump_scan occ lead) as [s|] eqn:Es; [|discriminate].
    destruct (jump_draw _ _ _ _ _ _ _ _ _ _ _) as [[[[noise|] st] g']|] eqn:E; [| |discriminate].
    + unfold mbind. destruct (run_calls _ _ _) as [[u|] w2]; [|discriminate].
      destruct (jump_apply _ _ _ _ _ _ _ _ _ _ _) as [s'|] eqn:Ea; [|discriminate]. cbn [bind]. intros H. inversion H; subst.
      rewrite scan_jump_shape, (jump_apply_shape _ _ _ _ _ _ _ _ _ _ _ _ Ea). symmetry. eapply jump_scan_shape; eauto.
    + intros H. inversion H; subst. reflexivity.
Qed.
Lemma loop_shape ds : forall gen l1 l2 ol w ol' w',
  occupation_loop (map (occ_object src) ds) gen l1 l2 ol w = (Ok ol', w') -> shape_of_occ (fst ol') = shape_of_occ (fst ol).
Proof.
  induction ds as [|d ds IH]; intros gen l1 l2 ol w ol' w'; cbn [map occupation_loop].
  - unfold ret. intros E. inversion E; reflexivity.
  - unfold mbind. destruct (od_noise _ _ _ _ _ _ _ _) as [[[a b]|] w1] eqn:E; [|discriminate]. cbn [fst]. intros H.
    rewrite (IH _ _ _ _ _ _ _ H). eapply object_shape; eauto.
Qed.
End Occ.

(** ** Measurements *)
Section Measure.
Context {G : Type}.
Variable src : sources G.
Variable label : arr2 nat -> arr2 nat.

Lemma noisy_inv lim1 lim2 x s occs pots resps s1 s2 v1 v2 res w w' m :
  measure (noisy_config src label lim1 lim2 x s occs pots resps) s1 s2 v1 v2 res w = (Ok m, w') ->
  exists a1 b1 a2 b2 d ol w1 im im' w2, s1 = [a1; b1] /\ s2 = [a2; b2] /\ ideal_of label x a1 b1 a2 b2 res = Ok d /\
    occupation_loop (map (occ_object src) occs) (get_csd_data label x) (a1, b1) (a2, b2) (csd_arrays d) w = (Ok ol, w1) /\
    generic_potential s (fst ol) (a1, b1) (a2, b2) = Ok im /\
    image_loop (map (image_object src) pots) (a1, b1) (a2, b2) (RImage im) w1 = (Ok (RImage im'), w2) /\
    image_loop (map (image_object src) resps) (a1, b1) (a2, b2) (generic_response s im') w2 = (Ok (m_csd m), w') /\
    m_occ m = fst ol /\ m_lead m = snd ol.
Proof.
  set (c := noisy_config src label lim1 lim2 x s occs pots resps). unfold measure.
  assert (C : forall gen l1 l2, check_measure c s1 s2 v1 v2 res = Ok (gen, l1, l2) ->
    gen = get_csd_data label x /\ s1 = [fst l1; snd l1] /\ s2 = [fst l2; snd l2]).
  { intros gen l1 l2. unfold check_measure, c, noisy_config. cbn [ideal_csd_config].
    destruct s1 as [|u1 [|u2 [|u3 s1']]]; try discriminate. destruct s2 as [|u4 [|u5 [|u6 s2']]]; try discriminate.
    unfold raise_if. cbn [volt_limits_sensor_g1 volt_limits_sensor_g2 sensor_volt_outside bind].
    repeat match goal with |- context [if ?b then _ else _] => destruct b end; try discriminate; intros E; inversion E; auto. }
  destruct (check_measure c s1 s2 v1 v2 res) as [[[gen [a1 b1]] [a2 b2]]|e]; [|discriminate].
  destruct (C gen _ _ eq_refl) as (-> & E1 & E2). clear C. cbn [fst snd] in E1, E2.
  unfold mbind at 1. unfold get_csd_data at 1. cbn [fst snd].
  change (ideal_csd_geometric label (g_tcts x) [a1; b1] [a2; b2] res (g_rotation x) (g_lut x) (g_cdf x) (g_gamma x)) with (ideal_of label x a1 b1 a2 b2 res).
  destruct (ideal_of label x a1 b1 a2 b2 res) as [d|e] eqn:Ed; [|discriminate]. cbn [bind].
  unfold c at 1 2 3 4. cbn [noisy_config occupation_distortions opt_list sensor so_scan so_potential generic_object sensor_potential_distortions sensor_response_distortions so_response].
  unfold mbind at 1. destruct (occupation_loop _ _ _ _ _ _) as [[ol|] w1] eqn:Eo; [|discriminate].
  unfold mbind at 1. cbn [sweep_arg as_limits fst snd].
  destruct (generic_potential s (fst ol) (a1, b1) (a2, b2)) as [im|] eqn:Ei; [|discriminate]. cbn [bind].
  unfold mbind at 1. unfold distort_potential. unfold c. cbn [sensor_potential_distortions noisy_config opt_list].
  assert (H : match fst ol with OccOther => False | _ => True end).
  { destruct (fst ol); auto. discriminate Ei. }
  assert (K : (match fst ol with
               | OccOther => ret (PotOne (RImage im))
               | _ => do y <- image_loop (map (image_object src) pots) (a1, b1) (a2, b2) (RImage im); ret (PotOne y)
               end) = (do y <- image_loop (map (image_object src) pots) (a1, b1) (a2, b2) (RImage im); @ret (noise_world G) _ (PotOne y))).
  { destruct (fst ol); [reflexivity|reflexivity|contradiction]. }
  rewrite K. unfold mbind at 1.
  destruct (image_loop (map (image_object src) pots) (a1, b1) (a2, b2) (RImage im) w1) as [[y|] w2] eqn:Ep; [|discriminate].
  unfold ret. unfold mbind at 1. cbn [noisy_config sensor so_response generic_object sensor_response_distortions opt_list].
  destruct y as [im'|]; [|discriminate].
  unfold mbind at 1. destruct (image_loop (map (image_object src) resps) (a1, b1) (a2, b2) (generic_response s im') w2) as [[csd|] w3] eqn:Er; [|discriminate].
  intros Q; inversion Q; subst; cbn [m_csd m_occ m_lead].
  exists a1, b1, a2, b2, d, ol, w1, im, im', w2. auto 12.
Qed.

Lemma nth_pixels1 a k : (k < len1 a)%nat -> nth k (pixels (Img1 a)) 0 = cell1 a k.
Proof. intros H. cbn. unfold to_list1. rewrite (nth_indep _ 0 (cell1 a 0)) by (rewrite map_length, seq_length; lia). rewrite map_nth, seq_nth by lia. reflexivity. Qed.
Lemma nth_pixels2 a i j : (i < rows a)%nat -> (j < cols a)%nat -> nth (i * cols a + j) (pixels (Img2 a)) 0 = cell a i j.
Proof. intros Hi Hj. cbn. unfold to_list2. apply nth_error_nth. apply (nth_error_concat_rows (cell a)); auto. Qed.
Lemma pixels_map f im : pixels (map_image f im) = map f (pixels im).
Proof.
  destruct im as [a|a]; cbn.
  - unfold to_list1. rewrite map_map. reflexivity.
  - unfold to_list2. rewrite concat_map, map_map. cbn. f_equal. apply map_ext. intros i. rewrite map_map. reflexivity.
Qed.
Lemma potential_values s occ l1 l2 im : generic_potential s occ l1 l2 = Ok im ->
  shape_of_occ occ = Some (image_shape im) /\
  match occ with
  | Occ1 a => forall k, (k < len1 a)%nat ->
      nth k (pixels im) 0 = affine (gs_offset s) (gs_gate s) (gs_dot s) (pixel_voltage l1 (len1 a) k, pixel_voltage l2 (len1 a) k) (cell1 a k)
  | Occ2 a => forall i j, (i < rows a)%nat -> (j < cols a)%nat ->
      nth (i * cols a + j) (pixels im) 0 = affine (gs_offset s) (gs_gate s) (gs_dot s) (pixel_voltage l1 (cols a) j, pixel_voltage l2 (rows a) i) (cell a i j)
  | OccOther => False
  end.
Proof.
  unfold generic_potential, raise_if.
  destruct occ as [a|a|]; [destruct (_ =? _)%nat|destruct (_ || _)|]; try discriminate; intros E; inversion E; subst im; (split; [reflexivity|]).
  - intros k Hk. rewrite nth_pixels1 by exact Hk. cbn [cell1]. unfold affine, dot2, volts1. cbn [fst snd]. rewrite (grid_voltage l1), (grid_voltage l2). ring.
  - intros i j Hi Hj. pose proof (nth_pixels2 (mk_arr2 (rows a) (cols a) (fun i j => dot2 (cell a i j) (gs_dot s) + dot2 (volts2 l1 l2 (rows a) (cols a) i j) (gs_gate s) + gs_offset s)) i j Hi Hj) as N.
    cbn [cols cell] in N. rewrite N. unfold affine, dot2, volts2. cbn [fst snd]. rewrite (grid_voltage l1), (grid_voltage l2). ring.
Qed.
Lemma numbered_value {W} (m : @measurement W lead_mask response unit) im xl yl k v o y :
  m_csd m = RImage im -> numbered_pixel m xl yl k v o y ->
  exists sh, shape_of_occ (m_occ m) = Some sh /\ (k < shape_size sh)%nat /\ y = nth k (pixels im) 0.
Proof.
  intros E. unfold numbered_pixel. rewrite E. destruct im as [c|c], (m_occ m) as [a|a|]; try contradiction.
  - intros (Hk & L & _ & _ & ->). exists (Shape1 (len1 a)). split; [reflexivity|]. split; [exact Hk|]. symmetry. apply nth_pixels1. lia.
  - intros (i & j & Hi & Hj & -> & [Rr Cc] & _ & _ & ->). exists (Shape2 (rows a) (cols a)). split; [reflexivity|]. split; [cbn; nia|].
    rewrite <- Cc. symmetry. apply nth_pixels2; lia.
Qed.
Lemma numbered_exists {W} (m : @measurement W lead_mask response unit) im xl yl k :
  m_csd m = RImage im -> shape_of_occ (m_occ m) = Some (image_shape im) -> (k < shape_size (image_shape im))%nat ->
  exists v o y, numbered_pixel m xl yl k v o y.
Proof.
  intros E. unfold numbered_pixel. rewrite E. destruct im as [c|c], (m_occ m) as [a|a|]; try discriminate; intros Sh; inversion Sh as [X].
  - cbn. intros Hk. exists (pixel_voltage xl (len1 a) k, pixel_voltage yl (len1 a) k), (cell1 a k), (cell1 c k). repeat split; auto; congruence.
  - cbn. intros Hk. destruct (split_index (cols c) k (rows c) Hk) as (i & j & Hi & Hj & Ek).
    exists (pixel_voltage xl (cols a) j, pixel_voltage yl (rows a) i), (cell a i j), (cell c i j). exists i, j. repeat split; auto; congruence.
Qed.
Lemma ideal_requested x a1 b1 a2 b2 res d : config_ok label x -> ideal_of label x a1 b1 a2 b2 res = Ok d ->
  exists sh, shape_of_occ (fst (csd_arrays d)) = Some sh /\ requested res sh.
Proof.
  intros C E. pose proof (ideal_shape label x a1 b1 a2 b2 res d C E) as H. destruct d as [occ lead|occ lead].
  - destruct H as (n & Hr & Ho & _). exists (Shape1 n). split; [cbn; rewrite Ho; reflexivity|exact Hr].
  - destruct H as (nx & ny & -> & _ & _ & Hr & Hc & _). exists (Shape2 ny nx). split; [cbn; rewrite Hr, Hc; reflexivity|reflexivity].
Qed.
Lemma loop_nil ds gen l1 l2 ol (w : noise_world G) ol' w' : ds = [] ->
  occupation_loop (map (occ_object src) ds) gen l1 l2 ol w = (Ok ol', w') -> ol' = ol /\ w' = w.
Proof. intros ->. cbn. unfold ret. intros E. inversion E; auto. Qed.

Hypothesis Sok : sources_ok src.
Lemma drawn_all_length ds sh l1 l2 : forall g z g', drawn_all src ds sh l1 l2 g = Ok (z, g') -> length z = shape_size sh.
Proof.
  intros g z g' E.
  set (im := match sh with Shape1 n => Img1 (mk_arr1 n (fun _ => 0)) | Shape2 r c => Img2 (mk_arr2 r c (fun _ _ => 0)) end).
  assert (Hs : image_shape im = sh) by (destruct sh; reflexivity).
  pose proof (loop_spec src Sok l1 l2 ds im (mk_noise_world (fun _ => None) (fun _ => jump_init) g)) as L. rewrite Hs in L. cbn [w_rng] in L.
  rewrite E in L. apply L.
Qed.

Lemma superposition pots resps :
  exists np nr : shape -> limits -> limits -> G -> result (list R * G),
  (forall sh l1 l2 g z g', np sh l1 l2 g = Ok (z, g') \/ nr sh l1 l2 g = Ok (z, g') -> length z = shape_size sh) /\
  forall lim1 lim2 x s ps occs a1 b1 a2 b2 v1 v2 res w w' m,
  gs_peaks s = Some ps -> ps <> [] -> config_ok label x ->
  measure (noisy_config src label lim1 lim2 x s occs pots resps) [a1; b1] [a2; b2] v1 v2 res w = (Ok m, w') ->
  exists sh g1 g2 z1 z2, requested res sh /\ (occs = [] -> g1 = w_rng w) /\
    np sh (a1, b1) (a2, b2) g1 = Ok (z1, g2) /\ nr sh (a1, b1) (a2, b2) g2 = Ok (z2, w_rng w') /\
    (forall k, (k < shape_size sh)%nat -> exists v o y, numbered_pixel m (a1, b1) (a2, b2) k v o y) /\
    forall k v o y, numbered_pixel m (a1, b1) (a2, b2) k v o y ->
      y = peak_total ps (affine (gs_offset s) (gs_gate s) (gs_dot s) v o + nth k z1 0) + nth k z2 0.
Proof.
  exists (drawn_all src pots), (drawn_all src resps). split.
  { intros sh l1 l2 g z g' [E|E]; eapply drawn_all_length; eauto. }
  intros lim1 lim2 x s ps occs a1 b1 a2 b2 v1 v2 res w w' m Hp Hn C M.
  destruct (noisy_inv _ _ _ _ _ _ _ _ _ _ _ _ _ _ _ M) as (c1 & e1 & c2 & e2 & d & ol & w1 & im & im' & w2 & Q1 & Q2 & Ed & Eo & Ei & Ep & Er & Mo & Ml).
  injection Q1 as <- <-. injection Q2 as <- <-.
  destruct (ideal_requested _ _ _ _ _ _ _ C Ed) as (sh & Hs & Hr).
  destruct (potential_values _ _ _ _ _ Ei) as (Hs' & V).
  assert (Hi : image_shape im = sh).
  { pose proof (loop_shape src _ _ _ _ _ _ _ _ Eo) as L. congruence. }
  pose proof (loop_spec src Sok (a1, b1) (a2, b2) pots im w1) as L1. rewrite Hi in L1.
  destruct (drawn_all src pots sh (a1, b1) (a2, b2) (w_rng w1)) as [[z1 g2]|] eqn:D1.
  2: { rewrite Ep in L1. discriminate. }
  destruct L1 as (Len1 & im1 & E1 & Sh1 & P1). rewrite Ep in E1. injection E1 as <- ->.
  assert (Rs : generic_response s im' = RImage (map_image (sum_peaks ps) im')).
  { unfold generic_response. rewrite Hp. destruct ps; [congruence|reflexivity]. }
  rewrite Rs in Er. pose proof (loop_spec src Sok (a1, b1) (a2, b2) resps (map_image (sum_peaks ps) im') (mk_noise_world (w_sigma w1) (w_jump w1) g2)) as L2.
  assert (Sm : image_shape (map_image (sum_peaks ps) im') = sh) by (rewrite <- Sh1; destruct im'; reflexivity).
  rewrite Sm in L2. cbn [w_rng w_sigma w_jump] in L2.
  destruct (drawn_all src resps sh (a1, b1) (a2, b2) g2) as [[z2 g3]|] eqn:D2.
  2: { rewrite Er in L2. discriminate. }
  destruct L2 as (Len2 & im2 & E2 & Sh2 & P2). rewrite Er in E2. injection E2 as Em ->.
  exists sh, (w_rng w1), g2, z1, z2. split; [exact Hr|]. split.
  { intros O. destruct (loop_nil _ _ _ _ _ _ _ _ O Eo) as [_ ->]. reflexivity. }
  split; [exact D1|]. split; [exact D2|].
  assert (Ho : shape_of_occ (m_occ m) = Some sh) by (rewrite Mo, Hs'; congruence).
  split.
  { intros k Hk. eapply numbered_exists; [exact Em| |]; rewrite Sh2; auto. }
  intros k v o y N. destruct (numbered_value _ _ _ _ _ _ _ _ Em N) as (sh' & Hsh & Hk & ->). rewrite Ho in Hsh. injection Hsh as <-.
  rewrite P2, nth_plus_pixels by (rewrite length_pixels, Sm; symmetry; exact Len2). f_equal.
  rewrite pixels_map. rewrite (nth_indep _ 0 (sum_peaks ps 0)) by (rewrite map_length, length_pixels, Sh1; exact Hk).
  rewrite map_nth, P1, nth_plus_pixels by (rewrite length_pixels, Hi; symmetry; exact Len1).
  replace (nth k (pixels im) 0) with (affine (gs_offset s) (gs_gate s) (gs_dot s) v o); [reflexivity|].
  unfold numbered_pixel in N. rewrite Em, Mo in N. destruct (fst ol) as [a|a|].
  - destruct im2; [|contradiction]. destruct N as (Hk' & _ & -> & -> & _). symmetry. apply V. exact Hk'.
  - destruct im2; [contradiction|]. destruct N as (i & j & Hi' & Hj & -> & _ & -> & -> & _). symmetry. apply V; auto.
  - destruct im2; contradiction.
Qed.

Lemma requested_unique res sh sh' : requested res sh -> requested res sh' -> sh = sh'.
Proof.
  destruct sh as [n|r c], sh' as [n'|r' c']; cbn; intros -> E; inversion E as [X]; try (f_equal; lia).
Qed.
Lemma common_noise pots resps a1 b1 a2 b2 res w :
  exists z1 z2 : list R, forall lim1 lim2 x s ps v1 v2 w' m,
  gs_peaks s = Some ps -> ps <> [] -> config_ok label x ->
  measure (noisy_config src label lim1 lim2 x s [] pots resps) [a1; b1] [a2; b2] v1 v2 res w = (Ok m, w') ->
  forall k v o y, numbered_pixel m (a1, b1) (a2, b2) k v o y ->
    y = peak_total ps (affine (gs_offset s) (gs_gate s) (gs_dot s) v o + nth k z1 0) + nth k z2 0.
Proof.
  destruct (superposition pots resps) as (np & nr & _ & H).
  set (sh := match res_list res with [n] => Shape1 (Z.to_nat n) | [c; r] => Shape2 (Z.to_nat r) (Z.to_nat c) | _ => Shape1 0 end).
  assert (Hsh : forall sh', requested res sh' -> sh' = sh).
  { intros sh' Q. unfold sh. destruct sh' as [n|r c]; cbn in Q; rewrite Q; rewrite ?Nat2Z.id; reflexivity. }
  exists (match np sh (a1, b1) (a2, b2) (w_rng w) with Ok (z, _) => z | Err _ => [] end),
         (match np sh (a1, b1) (a2, b2) (w_rng w) with Ok (_, g2) => match nr sh (a1, b1) (a2, b2) g2 with Ok (z, _) => z | Err _ => [] end | Err _ => [] end).
  intros lim1 lim2 x s ps v1 v2 w' m Hp Hn C M.
  destruct (H _ _ _ _ _ _ _ _ _ _ _ _ _ _ _ _ Hp Hn C M) as (sh' & g1 & g2 & z1 & z2 & Hr & Hg & N1 & N2 & _ & V).
  rewrite (Hsh _ Hr), (Hg eq_refl) in N1. rewrite (Hsh _ Hr) in N2. rewrite N1, N2. exact V.
Qed.

(** ** Silent distortions *)
Lemma zeros (f : R -> R) l : (forall x, f x = 0) -> map f l = repeat 0 (length l).
Proof. intros H. induction l as [|a l IH]; cbn; [reflexivity|]. rewrite H, IH. reflexivity. Qed.
Lemma drawn_silent d sh l1 l2 g : silent_image src d -> exists g', drawn src d sh l1 l2 g = Ok (repeat 0 (shape_size sh), g').
Proof.
  destruct Sok as (Sg & Ss & Sp). destruct d as [sigma fmin|sigma|ratio scale std height]; cbn [silent_image drawn]; intros H; specialize (H g).
  - destruct (sigma g) as [sg g1]. cbn in H. subst sg. pose proof (Sp (shape_size sh) fmin g1) as L. destruct (src_powerlaw src (shape_size sh) fmin g1) as [z g2].
    cbn in L. exists g2. rewrite zeros by (intros; ring). rewrite L. reflexivity.
  - destruct (sigma g) as [sg g1]. cbn in H. subst sg. rewrite Rltb_false by lra. pose proof (Ss (shape_size sh) g1) as L. destruct (src_standard src (shape_size sh) g1) as [z g2].
    cbn in L. exists g2. rewrite zeros by (intros; ring). rewrite L. reflexivity.
  - destruct (src_binomial src ratio g) as [act g1]. cbn in H. subst act. exists g1. reflexivity.
Qed.
Lemma plus_zeros n : plus_pixels (repeat 0 n) (repeat 0 n) = repeat 0 n.
Proof. apply plus_zero. symmetry. apply repeat_length. Qed.
Lemma drawn_all_silent ds sh l1 l2 : Forall (silent_image src) ds -> forall g,
  exists g', drawn_all src ds sh l1 l2 g = Ok (repeat 0 (shape_size sh), g').
Proof.
  induction 1 as [|d ds Hd _ IH]; intros g; cbn [drawn_all].
  - eauto.
  - destruct (drawn_silent d sh l1 l2 g Hd) as [g1 ->]. cbn [bind fst snd]. destruct (IH g1) as [g2 ->]. cbn [bind fst snd]. rewrite plus_zeros. eauto.
Qed.
Lemma silent_images ds l1 l2 im w : Forall (silent_image src) ds ->
  exists im' w', image_loop (map (image_object src) ds) l1 l2 (RImage im) w = (Ok (RImage im'), w') /\
    image_shape im' = image_shape im /\ pixels im' = pixels im.
Proof.
  intros H. destruct (drawn_all_silent ds (image_shape im) l1 l2 H (w_rng w)) as [g' D].
  pose proof (loop_spec src Sok l1 l2 ds im w) as L. rewrite D in L. destruct L as (_ & im' & E & Sh & P).
  exists im', (mk_noise_world (w_sigma w) (w_jump w) g'). split; [exact E|]. split; [exact Sh|]. rewrite P. apply plus_zero. symmetry. apply length_pixels.
Qed.
Lemma same_pixels a b : image_shape a = image_shape b -> pixels a = pixels b -> same_response (RImage a) (RImage b).
Proof.
  destruct a as [a|a], b as [b|b]; cbn [image_shape]; intros Sh P; try discriminate; cbn [same_response].
  - injection Sh as Sh. split; [exact Sh|]. intros i Hi. rewrite <- !nth_pixels1 by lia. rewrite P. reflexivity.
  - injection Sh as Sr Sc. split; [exact Sr|]. split; [exact Sc|]. intros i j Hi Hj.
    rewrite <- nth_pixels2 by auto. rewrite P, Sc. rewrite nth_pixels2 by lia. reflexivity.
Qed.
(** occupations and lead transitions of the same dimension *)
Definition matching (ol : occupation * lead_mask) : Prop :=
  match ol with (Occ1 _, Lead1 _) | (Occ2 _, Lead2 _) => True | _ => False end.
Lemma arrays_match d : matching (csd_arrays d).
Proof. destruct d; exact I. Qed.
Lemma silent_object d ol l1 l2 gen w : silent_occ src d -> matching ol ->
  exists w', od_noise (occ_object src d) (fst ol) (snd ol) l1 l2 gen false w = (Ok (ol, ol), w').
Proof.
  destruct ol as [occ lead]. destruct d as [k sigma kernel radius|k axis ratio scale lam]; cbn [silent_occ occ_object od_noise blur_object jumps_object fst snd]; intros H M; specialize (H (w_rng w)).
  - unfold blur_noise_function. destruct (sigma (w_rng w)) as [sg g1]. cbn [bind fst] in *. rewrite Rltb_false by exact H.
    destruct occ as [a|a|], lead; try contradiction; cbn [occ_scan occ_part]; eexists; reflexivity.
  - unfold jump_draw. cbn [andb]. destruct (src_binomial src ratio (w_rng w)) as [act g1]. cbn in H. subst act.
    destruct occ as [a|a|], lead; try contradiction; cbn [jump_scan negb]; eexists; reflexivity.
Qed.
Lemma silent_loop ds : Forall (silent_occ src) ds -> forall gen l1 l2 ol w, matching ol ->
  exists w', occupation_loop (map (occ_object src) ds) gen l1 l2 ol w = (Ok ol, w').
Proof.
  induction 1 as [|d ds Hd _ IH]; intros gen l1 l2 ol w M; cbn [map occupation_loop].
  - exists w. reflexivity.
  - unfold mbind. destruct (silent_object d ol l1 l2 gen w Hd M) as [w1 ->]. cbn [fst]. apply IH. exact M.
Qed.

Lemma silent_measure lim1 lim2 x s occs pots resps s1 s2 v1 v2 res w :
  gs_peaks s <> Some [] -> Forall (silent_occ src) occs -> Forall (silent_image src) pots -> Forall (silent_image src) resps ->
  match fst (measure (noisy_config src label lim1 lim2 x s occs pots resps) s1 s2 v1 v2 res w),
        fst (measure (W := noise_world G) (plain_config label lim1 lim2 x s) s1 s2 v1 v2 res w) with
  | Ok m, Ok m0 => same_response (m_csd m) (m_csd m0) /\ m_occ m = m_occ m0 /\ m_lead m = m_lead m0
  | Err e, Err e0 => e = e0
  | _, _ => False
  end.
Proof.
  intros Hs Ho Hp Hr. rewrite plain_measure. unfold measure.
  change (check_measure (noisy_config src label lim1 lim2 x s occs pots resps) s1 s2 v1 v2 res)
    with (check_measure (W := noise_world G) (plain_config label lim1 lim2 x s) s1 s2 v1 v2 res).
  assert (C : forall gen l1 l2, check_measure (W := noise_world G) (plain_config label lim1 lim2 x s) s1 s2 v1 v2 res = Ok (gen, l1, l2) -> gen = get_csd_data label x).
  { intros gen l1 l2. unfold check_measure, plain_config. cbn [ideal_csd_config].
    destruct s1 as [|u1 [|u2 [|u3 s1']]]; try discriminate. destruct s2 as [|u4 [|u5 [|u6 s2']]]; try discriminate.
    unfold raise_if. cbn [volt_limits_sensor_g1 volt_limits_sensor_g2 sensor_volt_outside bind].
    repeat match goal with |- context [if ?b then _ else _] => destruct b end; try discriminate; intros E; inversion E; auto. }
  destruct (check_measure (plain_config label lim1 lim2 x s) s1 s2 v1 v2 res) as [[[gen [a1 b1]] [a2 b2]]|e]; [|reflexivity].
  rewrite (C gen _ _ eq_refl). clear C. cbn [fst]. unfold plain_result.
  unfold mbind at 1. unfold get_csd_data at 1. cbn [fst snd].
  change (ideal_csd_geometric label (g_tcts x) [a1; b1] [a2; b2] res (g_rotation x) (g_lut x) (g_cdf x) (g_gamma x)) with (ideal_of label x a1 b1 a2 b2 res).
  destruct (ideal_of label x a1 b1 a2 b2 res) as [d|e]; [|reflexivity]. cbn [bind].
  cbn [noisy_config occupation_distortions opt_list sensor so_scan so_potential generic_object sensor_potential_distortions sensor_response_distortions so_response].
  unfold mbind at 1. destruct (silent_loop occs Ho (get_csd_data label x) (a1, b1) (a2, b2) (csd_arrays d) w (arrays_match d)) as [w1 ->].
  unfold mbind at 1. cbn [sweep_arg as_limits fst snd].
  destruct (generic_potential s (fst (csd_arrays d)) (a1, b1) (a2, b2)) as [im|e] eqn:Ei; [|reflexivity]. cbn [bind fst snd].
  unfold mbind at 1. unfold distort_potential. cbn [opt_list].
  assert (H : match fst (csd_arrays d) with OccOther => False | _ => True end) by (destruct d; exact I).
  assert (K : (match fst (csd_arrays d) with
               | OccOther => ret (PotOne (RImage im))
               | _ => do y <- image_loop (map (image_object src) pots) (a1, b1) (a2, b2) (RImage im); ret (PotOne y)
               end) = (do y <- image_loop (map (image_object src) pots) (a1, b1) (a2, b2) (RImage im); @ret (noise_world G) _ (PotOne y))).
  { destruct d; reflexivity. }
  rewrite K. clear K. unfold mbind at 1.
  destruct (silent_images pots (a1, b1) (a2, b2) im w1 Hp) as (im1 & w2 & -> & Sh1 & P1).
  unfold ret. unfold mbind at 1.
  assert (Q : exists r r0, generic_response s im1 = RImage r /\ generic_response s im = RImage r0 /\ image_shape r = image_shape r0 /\ pixels r = pixels r0).
  { unfold generic_response. destruct (gs_peaks s) as [[|p ps]|]; [congruence| |].
    - do 2 eexists. split; [reflexivity|]. split; [reflexivity|]. rewrite !pixels_map, P1. split; [|reflexivity].
      destruct im1, im; cbn in *; congruence.
    - do 2 eexists. split; [reflexivity|]. split; [reflexivity|]. auto. }
  destruct Q as (r & r0 & Er & Er0 & Sr & Pr). rewrite Er, Er0. unfold mbind at 1.
  destruct (silent_images resps (a1, b1) (a2, b2) r w2 Hr) as (r1 & w3 & -> & Sh2 & P2).
  cbn [fst m_csd m_occ m_lead]. split; [|auto]. apply same_pixels; congruence.
Qed.

(** Without occupation distortions a measurement succeeds if the noise can be drawn. *)
Lemma noisy_run lim1 lim2 x s ps pots resps a1 b1 a2 b2 v1 v2 res w m0 w0 sh z1 g2 z2 g3 :
  gs_peaks s = Some ps -> ps <> [] -> config_ok label x -> requested res sh ->
  measure (W := noise_world G) (plain_config label lim1 lim2 x s) [a1; b1] [a2; b2] v1 v2 res w = (Ok m0, w0) ->
  drawn_all src pots sh (a1, b1) (a2, b2) (w_rng w) = Ok (z1, g2) ->
  drawn_all src resps sh (a1, b1) (a2, b2) g2 = Ok (z2, g3) ->
  exists m w', measure (noisy_config src label lim1 lim2 x s [] pots resps) [a1; b1] [a2; b2] v1 v2 res w = (Ok m, w') /\
    m_occ m = m_occ m0 /\ m_lead m = m_lead m0 /\
    forall k v o y, numbered_pixel m0 (a1, b1) (a2, b2) k v o y ->
      numbered_pixel m (a1, b1) (a2, b2) k v o (peak_total ps (affine (gs_offset s) (gs_gate s) (gs_dot s) v o + nth k z1 0) + nth k z2 0).
Proof.
  intros Hp Hn C Hr M0 D1 D2.
  assert (E : exists m w', measure (noisy_config src label lim1 lim2 x s [] pots resps) [a1; b1] [a2; b2] v1 v2 res w = (Ok m, w') /\ m_occ m = m_occ m0 /\ m_lead m = m_lead m0).
  { rewrite plain_measure in M0. unfold measure.
    change (check_measure (noisy_config src label lim1 lim2 x s [] pots resps) [a1; b1] [a2; b2] v1 v2 res)
      with (check_measure (W := noise_world G) (plain_config label lim1 lim2 x s) [a1; b1] [a2; b2] v1 v2 res).
    assert (Cm : forall gen l1 l2, check_measure (W := noise_world G) (plain_config label lim1 lim2 x s) [a1; b1] [a2; b2] v1 v2 res = Ok (gen, l1, l2) -> gen = get_csd_data label x /\ l1 = (a1, b1) /\ l2 = (a2, b2)).
    { intros gen l1 l2. unfold check_measure, plain_config. cbn [ideal_csd_config]. unfold raise_if. cbn [volt_limits_sensor_g1 volt_limits_sensor_g2 sensor_volt_outside bind].
      repeat match goal with |- context [if ?b then _ else _] => destruct b end; try discriminate; intros E; inversion E; auto. }
    destruct (check_measure (plain_config label lim1 lim2 x s) [a1; b1] [a2; b2] v1 v2 res) as [[[gen [c1 e1]] [c2 e2]]|e]; [|discriminate].
    destruct (Cm gen _ _ eq_refl) as (-> & Q1 & Q2). injection Q1 as -> ->. injection Q2 as -> ->. clear Cm.
    unfold plain_result in M0. unfold mbind at 1. unfold get_csd_data at 1. cbn [fst snd].
    change (ideal_csd_geometric label (g_tcts x) [a1; b1] [a2; b2] res (g_rotation x) (g_lut x) (g_cdf x) (g_gamma x)) with (ideal_of label x a1 b1 a2 b2 res).
    destruct (ideal_of label x a1 b1 a2 b2 res) as [d|e] eqn:Ed; [|discriminate]. cbn [bind] in M0 |- *.
    cbn [noisy_config occupation_distortions opt_list sensor so_scan so_potential generic_object sensor_potential_distortions sensor_response_distortions so_response map occupation_loop].
    unfold mbind at 1. unfold ret at 1.
    unfold mbind at 1. cbn [sweep_arg as_limits fst snd].
    destruct (generic_potential s (fst (csd_arrays d)) (a1, b1) (a2, b2)) as [im|e] eqn:Ei; [|discriminate]. cbn [bind fst snd] in M0 |- *.
    destruct (ideal_requested _ _ _ _ _ _ _ C Ed) as (sh' & Hs & Hr'). rewrite (requested_unique _ _ _ Hr' Hr) in Hs. clear sh' Hr'.
    destruct (potential_values _ _ _ _ _ Ei) as (Hs' & _). assert (Hi : image_shape im = sh) by congruence.
    unfold mbind at 1. unfold distort_potential. cbn [opt_list].
    assert (K : (match fst (csd_arrays d) with
                 | OccOther => ret (PotOne (RImage im))
                 | _ => do y <- image_loop (map (image_object src) pots) (a1, b1) (a2, b2) (RImage im); ret (PotOne y)
                 end) = (do y <- image_loop (map (image_object src) pots) (a1, b1) (a2, b2) (RImage im); @ret (noise_world G) _ (PotOne y))).
    { destruct d; reflexivity. }
    rewrite K. clear K. unfold mbind at 1.
    pose proof (loop_spec src Sok (a1, b1) (a2, b2) pots im w) as L1. rewrite Hi, D1 in L1. destruct L1 as (_ & im1 & -> & Sh1 & _).
    unfold ret. unfold mbind at 1.
    assert (Rs : generic_response s im1 = RImage (map_image (sum_peaks ps) im1)).
    { unfold generic_response. rewrite Hp. destruct ps; [congruence|reflexivity]. }
    rewrite Rs. unfold mbind at 1.
    pose proof (loop_spec src Sok (a1, b1) (a2, b2) resps (map_image (sum_peaks ps) im1) (mk_noise_world (w_sigma w) (w_jump w) g2)) as L2.
    assert (Sm : image_shape (map_image (sum_peaks ps) im1) = sh) by (rewrite <- Sh1; destruct im1; reflexivity).
    rewrite Sm in L2. cbn [w_rng w_sigma w_jump] in L2. rewrite D2 in L2. destruct L2 as (_ & im2 & -> & _).
    injection M0 as <- _. eexists. eexists. split; [reflexivity|]. auto. }
  destruct E as (m & w' & M & Eo & El). exists m, w'. split; [exact M|]. split; [exact Eo|]. split; [exact El|].
  intros k v o y N.
  destruct (measured_shape_ok label x s ps lim1 lim2 a1 b1 a2 b2 v1 v2 res w w0 m0 Hp Hn C M0) as (nc0 & nr0 & _).
  destruct (noisy_inv _ _ _ _ _ _ _ _ _ _ _ _ _ _ _ M) as (c1 & e1 & c2 & e2 & d & ol & w1 & im & im' & w2 & Q1 & Q2 & Ed & Eol & Ei & Ep & Er & Mo & Ml).
  injection Q1 as <- <-. injection Q2 as <- <-.
  destruct (loop_nil _ _ _ _ _ _ _ _ eq_refl Eol) as [-> ->].
  destruct (ideal_requested _ _ _ _ _ _ _ C Ed) as (sh' & Hs & Hr'). rewrite (requested_unique _ _ _ Hr' Hr) in Hs. clear sh' Hr'.
  destruct (potential_values _ _ _ _ _ Ei) as (Hs' & V). assert (Hi : image_shape im = sh) by congruence.
  pose proof (loop_spec src Sok (a1, b1) (a2, b2) pots im w) as L1. rewrite Hi, D1 in L1. destruct L1 as (Ln1 & im1 & E1 & Sh1 & P1).
  rewrite Ep in E1. injection E1 as <- ->.
  assert (Rs : generic_response s im' = RImage (map_image (sum_peaks ps) im')).
  { unfold generic_response. rewrite Hp. destruct ps; [congruence|reflexivity]. }
  rewrite Rs in Er.
  pose proof (loop_spec src Sok (a1, b1) (a2, b2) resps (map_image (sum_peaks ps) im') (mk_noise_world (w_sigma w) (w_jump w) g2)) as L2.
  assert (Sm : image_shape (map_image (sum_peaks ps) im') = sh) by (rewrite <- Sh1; destruct im'; reflexivity).
  rewrite Sm in L2. cbn [w_rng w_sigma w_jump] in L2. rewrite D2 in L2. destruct L2 as (Ln2 & im2 & E2 & Sh2 & P2).
  rewrite Er in E2. injection E2 as Em Ew.
  assert (Val : (k < shape_size sh)%nat -> nth k (pixels im) 0 = affine (gs_offset s) (gs_gate s) (gs_dot s) v o ->
            nth k (pixels im2) 0 = peak_total ps (affine (gs_offset s) (gs_gate s) (gs_dot s) v o + nth k z1 0) + nth k z2 0).
  { intros Hk Hv. rewrite P2, nth_plus_pixels by (rewrite length_pixels, Sm; symmetry; exact Ln2). f_equal.
    rewrite pixels_map. rewrite (nth_indep _ 0 (sum_peaks ps 0)) by (rewrite map_length, length_pixels, Sh1; exact Hk).
    rewrite map_nth, P1, nth_plus_pixels by (rewrite length_pixels, Hi; symmetry; exact Ln1). rewrite Hv. reflexivity. }
  unfold numbered_pixel in N |- *. rewrite Em, Eo. rewrite <- Mo in V, Hs'. rewrite Eo in V, Hs'. 
  destruct (m_csd m0) as [[c|c]|]; [| |contradiction]; destruct (m_occ m0) as [a|a|]; try contradiction.
  - destruct N as (Hk & Lc & Hv & Ho & Hy). assert (Ks : (k < shape_size sh)%nat) by (rewrite <- Hi; destruct im; inversion Hs'; cbn; lia).
    specialize (Val Ks ltac:(rewrite V by exact Hk; congruence)). rewrite <- Hi in Sh2.
    destruct im2 as [c2|c2]; destruct im; inversion Hs'; cbn in Sh2; try discriminate. injection Sh2 as Sh2. rewrite nth_pixels1 in Val by lia.
    repeat split; auto; congruence.
  - destruct N as (i & j & Hi' & Hj & Ek & Sc & Hv & Ho & Hy). assert (Ks : (k < shape_size sh)%nat) by (rewrite <- Hi; destruct im; inversion Hs'; subst k; cbn; nia).
    specialize (Val Ks ltac:(rewrite Ek, V by auto; congruence)). rewrite <- Hi in Sh2.
    destruct im2 as [c2|c2]; destruct im; inversion Hs' as [[A B]]; cbn in Sh2; try discriminate. injection Sh2 as Sr2 Sc2.
    assert (A' : rows a = rows c2) by congruence. assert (B' : cols a = cols c2) by congruence.
    assert (Kc : k = (i * cols c2 + j)%nat) by (rewrite <- B'; exact Ek).
    rewrite Kc, nth_pixels2 in Val by lia.
    exists i, j. split; [exact Hi'|]. split; [exact Hj|]. split; [exact Ek|]. split; [split; congruence|]. split; [exact Hv|]. split; [exact Ho|]. rewrite Kc. symmetry. exact Val.
Qed.
End Measure.

(** The dot jumps of [ModelDistortions] are the drawing followed by the application used here. *)
Lemma jump_noise_draw {A G} (src : sources G) isnan (nan : A) junk gen1 gen2 axis ratio scale lam freeze st g s l1 l2 :
  jump_noise_function isnan nan junk true gen1 gen2 (src_binomial src ratio) scale lam (src_geometric src) (src_poisson src) axis freeze st g s l1 l2 =
  (let? r := jump_draw src axis ratio scale lam freeze st g (scan_shape s) l1 l2 in
   match r with
   | (None, st', g') => Ok (s, st', g')
   | (Some noise, st', g') => let? s' := jump_apply isnan nan junk true gen1 gen2 axis noise s l1 l2 in Ok (s', st', g')
   end).
Proof.
  unfold jump_noise_function, jump_draw.
  destruct (freeze && negb _)%bool; [reflexivity|]. destruct freeze; [destruct (js_noise st); reflexivity|].
  destruct (src_binomial src ratio g) as [act g1]. destruct (negb act); [reflexivity|].
  destruct (scale g1) as [sv g2]. destruct (lam g2) as [lv g3]. destruct (jump_px_per_volt _ _ _ _) as [k|]; [|reflexivity]. cbn [bind].
  destruct (jump_size _ _) as [n|]; [|reflexivity]. cbn [bind].
  destruct (generate_dot_jumps_blockwise _ _ _ _ _) as [noise g4]. reflexivity.
Qed.
