(** Proofs about measurements of a simulation with geometric ideal data and a generic sensor. *)
From Verif Require Import RPrelude Arr ModelSupport ModelTct ModelCsd ModelDistortions ModelSensor ModelSimulation ModelInstance
  SpecTct SpecCsd SpecSensor SpecInstance ProofsCsd ProofsOcc ProofsRegions ProofsDriver ProofsScan.
Local Open Scope R_scope.

Section Measure.
Context {W : Type}.
Variable label : arr2 nat -> arr2 nat.

Definition ideal_of (x : geometric) (a1 b1 a2 b2 : R) (res : resolution) : result csd_data :=
  ideal_csd_geometric label (g_tcts x) [a1; b1] [a2; b2] res (g_rotation x) (g_lut x) (g_cdf x) (g_gamma x).

(** the part of a measurement after the checks *)
Definition plain_result (x : geometric) (s : generic_sensor) a1 b1 a2 b2 res : result (response * occupation * lead_mask) :=
  let? d := ideal_of x a1 b1 a2 b2 res in
  let? im := generic_potential s (fst (csd_arrays d)) (a1, b1) (a2, b2) in
  Ok (generic_response s im, fst (csd_arrays d), snd (csd_arrays d)).

Lemma plain_measure lim1 lim2 x s s1 s2 v1 v2 res (w : W) :
  let c := plain_config label lim1 lim2 x s in
  measure c s1 s2 v1 v2 res w =
  (match check_measure c s1 s2 v1 v2 res with
   | Err e => Err e
   | Ok (_, (a1, b1), (a2, b2)) =>
       let? r := plain_result x s a1 b1 a2 b2 res in
       Ok (mk_measurement (fst (fst r)) (snd (fst r)) (snd r) (mk_metadata (a1, b1) (a2, b2) v1 v2 res c w))
   end, w).
Proof.
  intros c. unfold measure.
  assert (G : forall gen l1 l2, check_measure c s1 s2 v1 v2 res = Ok (gen, l1, l2) -> gen = get_csd_data label x).
  { intros gen l1 l2. unfold check_measure, c, plain_config. cbn [ideal_csd_config].
    destruct s1 as [|u1 [|u2 [|u3 s1]]]; try discriminate. destruct s2 as [|u4 [|u5 [|u6 s2]]]; try discriminate.
    unfold raise_if. cbn [volt_limits_sensor_g1 volt_limits_sensor_g2 sensor_volt_outside bind].
    repeat match goal with |- context [if ?b then _ else _] => destruct b end; try discriminate; intros E; inversion E; auto. }
  destruct (check_measure c s1 s2 v1 v2 res) as [[[gen [a1 b1]] [a2 b2]]|e]; [|reflexivity].
  rewrite (G gen _ _ eq_refl). clear G.
  unfold mbind, get_csd_data, plain_result, ideal_of. cbn [fst snd].
  destruct (ideal_csd_geometric _ _ _ _ _ _ _ _ _) as [d|e]; [|reflexivity]. cbn [bind].
  unfold c, plain_config. cbn [occupation_distortions opt_list occupation_loop ret sensor so_potential so_scan generic_object sweep_arg as_limits fst snd].
  destruct (generic_potential s (fst (csd_arrays d)) (a1, b1) (a2, b2)) as [im|e]; [|reflexivity]. cbn [bind].
  cbn [sensor_potential_distortions sensor_response_distortions opt_list image_loop distort_potential so_response generic_object].
  unfold distort_potential, mbind, image_loop, opt_list, ret.
  destruct (fst (csd_arrays d)); reflexivity.
Qed.

Lemma check_request_measure lim1 lim2 x s s1 s2 v1 v2 res gen l1 l2 :
  check_measure (W := W) (plain_config label lim1 lim2 x s) s1 s2 v1 v2 res = Ok (gen, l1, l2) ->
  s1 = [fst l1; snd l1] /\ s2 = [fst l2; snd l2].
Proof.
  unfold check_measure, plain_config. cbn [ideal_csd_config].
  destruct s1 as [|u1 [|u2 [|u3 s1]]]; try discriminate. destruct s2 as [|u4 [|u5 [|u6 s2]]]; try discriminate.
  unfold raise_if. cbn [volt_limits_sensor_g1 volt_limits_sensor_g2 sensor_volt_outside bind].
  repeat match goal with |- context [if ?b then _ else _] => destruct b end; try discriminate; intros E; inversion E; auto.
Qed.

(** shape of ideal data *)
Lemma ideal_shape x a1 b1 a2 b2 res d : config_ok label x -> ideal_of x a1 b1 a2 b2 res = Ok d ->
  match d with
  | Csd1 occ lead => exists n, res_list res = [Z.of_nat n] /\ length occ = n /\ length lead = n
  | Csd2 occ lead => exists nx ny, res = ResArray [Z.of_nat nx; Z.of_nat ny] /\ (2 <= nx)%nat /\ (2 <= ny)%nat /\
      rows occ = ny /\ cols occ = nx /\ rows lead = ny /\ cols lead = nx
  end.
Proof.
  intros (P & Len & K & Lab & _) H. unfold ideal_of in H.
  destruct (gamma_known (g_cdf x) (g_gamma x) K) as [g Hg].
  destruct (request_shape _ _ _ _ _ _ _ _ _ _ H) as (c1 & d1 & c2 & d2 & E1 & E2 & [[n Hn]|(nx & ny & Hx & Hy & R1 & R2 & D1 & D2)]).
  - destruct (csd_1d label (g_tcts x) a1 b1 a2 b2 res n (g_rotation x) (g_lut x) (g_cdf x) (g_gamma x) g P K Hg Hn)
      as (occ & lead & E & L1 & L2 & _). rewrite E in H. inversion H; subst d. exists n. auto.
  - injection E1 as <- <-. injection E2 as <- <-. subst res.
    destruct (csd_2d label (g_tcts x) a1 b1 a2 b2 nx ny (g_rotation x) (g_lut x) (g_cdf x) (g_gamma x) g P Len K Hg D1 D2 Hx Hy Lab)
      as (lead & Hr & Hc & _ & _ & [(occ & E & Or & Oc & _)|(E & _)]); rewrite E in H; inversion H; subst d.
    exists nx, ny. repeat split; auto.
Qed.

Lemma generic_pixel s ps occ l1 l2 im : gs_peaks s = Some ps -> ps <> [] ->
  generic_potential s occ l1 l2 = Ok im ->
  match occ with
  | Occ1 a => exists c, generic_response s im = RImage (Img1 c) /\ len1 c = len1 a /\ forall i,
      cell1 c i = sum_peaks ps (affine (gs_offset s) (gs_gate s) (gs_dot s)
                                  (pixel_voltage l1 (len1 a) i, pixel_voltage l2 (len1 a) i) (cell1 a i))
  | Occ2 a => exists c, generic_response s im = RImage (Img2 c) /\ same_shape c a /\ forall i j,
      cell c i j = sum_peaks ps (affine (gs_offset s) (gs_gate s) (gs_dot s)
                                  (pixel_voltage l1 (cols a) j, pixel_voltage l2 (rows a) i) (cell a i j))
  | OccOther => False
  end.
Proof.
  intros Hp Hn. unfold generic_potential, raise_if, generic_response. rewrite Hp.
  destruct occ as [a|a|]; [destruct (_ =? _)%nat|destruct (_ || _)|]; try discriminate; intros E; inversion E; subst im.
  - destruct ps as [|p ps]; [congruence|]. eexists. split; [reflexivity|]. split; [reflexivity|]. intros i.
    cbn [amap1 cell1]. f_equal. unfold affine, dot2, volts1. cbn [fst snd]. rewrite (grid_voltage l1), (grid_voltage l2). ring.
  - destruct ps as [|p ps]; [congruence|]. eexists. split; [reflexivity|]. split; [split; reflexivity|]. intros i j.
    cbn [amap2 cell]. f_equal. unfold affine, dot2, volts2. cbn [fst snd]. rewrite (grid_voltage l1), (grid_voltage l2). ring.
Qed.

Lemma measure_inv lim1 lim2 x s s1 s2 v1 v2 res (w w' : W) m :
  measure (plain_config label lim1 lim2 x s) s1 s2 v1 v2 res w = (Ok m, w') ->
  exists a1 b1 a2 b2 d im, s1 = [a1; b1] /\ s2 = [a2; b2] /\ ideal_of x a1 b1 a2 b2 res = Ok d /\
    generic_potential s (fst (csd_arrays d)) (a1, b1) (a2, b2) = Ok im /\
    m_csd m = generic_response s im /\ m_occ m = fst (csd_arrays d) /\ m_lead m = snd (csd_arrays d) /\ w' = w.
Proof.
  rewrite plain_measure. intros H.
  destruct (check_measure _ s1 s2 v1 v2 res) as [[[gen [a1 b1]] [a2 b2]]|e] eqn:C; [|discriminate].
  destruct (check_request_measure _ _ _ _ _ _ _ _ _ _ _ _ C) as [E1 E2]. cbn [fst snd] in E1, E2.
  unfold plain_result in H. destruct (ideal_of x a1 b1 a2 b2 res) as [d|e] eqn:I; [|discriminate].
  cbn [bind] in H. destruct (generic_potential s _ (a1, b1) (a2, b2)) as [im|e] eqn:P; [|discriminate].
  cbn [bind fst snd] in H. inversion H; subst. exists a1, b1, a2, b2, d, im. cbn [m_csd m_occ m_lead]. auto 10.
Qed.

(** the pixels of a measurement are those of the ideal data *)
Lemma measured_is_scan x s ps lim1 lim2 a1 b1 a2 b2 v1 v2 res (w w' : W) m : gs_peaks s = Some ps -> ps <> [] ->
  config_ok label x ->
  measure (plain_config label lim1 lim2 x s) [a1; b1] [a2; b2] v1 v2 res w = (Ok m, w') ->
  exists d, ideal_of x a1 b1 a2 b2 res = Ok d /\ forall v o lab y,
    measured_pixel m (a1, b1) (a2, b2) v o lab y <->
    scan_pixel d (a1, b1) (a2, b2) v o lab /\ y = sum_peaks ps (affine (gs_offset s) (gs_gate s) (gs_dot s) v o).
Proof.
  intros Hp Hn C H.
  destruct (measure_inv _ _ _ _ _ _ _ _ _ _ _ _ H) as (c1 & d1 & c2 & d2 & d & im & E1 & E2 & I & P & M1 & M2 & M3 & _).
  inversion E1; subst c1 d1. inversion E2; subst c2 d2. exists d. split; [exact I|]. intros v o lab y.
  pose proof (ideal_shape _ _ _ _ _ _ _ C I) as Sh. pose proof (generic_pixel s ps _ _ _ _ Hp Hn P) as GP.
  unfold measured_pixel. rewrite M1, M2, M3. destruct d as [occ lead|occ lead]; cbn [csd_arrays fst snd scan_pixel] in *.
  - destruct GP as (c & R1 & R2 & R3). rewrite R1. destruct Sh as (n & Hr & L1 & L2). cbn [of_list1 len1 cell1] in *. split.
    + intros (i & Hi & _ & _ & Hv & Ho & Hl & Hy). split.
      * exists i. split; [|auto]. rewrite Ho. apply nth_error_nth'. exact Hi.
      * rewrite Hy, R3, Hv, Ho. reflexivity.
    + intros [(i & Ho & Hl & Hv) Hy]. assert (Hi : (i < length occ)%nat) by (apply nth_error_Some; congruence).
      exists i. repeat (split; [first [exact Hi | exact R2 | congruence | assumption]|]).
      split; [symmetry; apply nth_error_nth; exact Ho|]. split; [exact Hl|].
      rewrite R3, (nth_error_nth _ _ _ Ho). rewrite Hy, Hv. reflexivity.
  - destruct GP as (c & R1 & R2 & R3). rewrite R1. destruct Sh as (nx & ny & _ & _ & _ & S1 & S2 & S3 & S4). split.
    + intros (i & j & Hi & Hj & _ & _ & Hv & Ho & Hl & Hy). split.
      * exists i, j. auto.
      * rewrite Hy, R3, Hv, Ho. reflexivity.
    + intros [(i & j & Hi & Hj & Ho & Hl & Hv) Hy]. exists i, j.
      split; [exact Hi|]. split; [exact Hj|]. split; [exact R2|]. split; [split; congruence|]. split; [exact Hv|].
      split; [exact Ho|]. split; [exact Hl|]. rewrite R3, Hy, Hv, Ho. reflexivity.
Qed.

Lemma measured_pixels x s ps lim1 lim2 a1 b1 a2 b2 v1 v2 res (w w' : W) m : gs_peaks s = Some ps -> ps <> [] ->
  config_ok label x ->
  measure (plain_config label lim1 lim2 x s) [a1; b1] [a2; b2] v1 v2 res w = (Ok m, w') ->
  forall v o lab y, measured_pixel m (a1, b1) (a2, b2) v o lab y ->
  y = Rsum (map (fun p => sensor_function p (affine (gs_offset s) (gs_gate s) (gs_dot s) v o)) ps) /\
  0 <= fst o /\ 0 <= snd o /\ exists n, (n < length (g_tcts x))%nat /\ fst o + snd o = INR n.
Proof.
  intros Hp Hn C H v o lab y M.
  destruct (measured_is_scan x s ps lim1 lim2 a1 b1 a2 b2 v1 v2 res w w' m Hp Hn C H) as (d & I & Eq).
  apply Eq in M. destruct M as [Sp Hy]. split; [exact Hy|].
  destruct (scan_bounds _ _ _ _ _ _ _ _ _ _ _ _ _ _ _ _ _ C eq_refl eq_refl I Sp) as [B1 B2].
  destruct (scan_total _ _ _ _ _ _ _ _ _ _ _ _ _ _ _ _ _ C eq_refl eq_refl I Sp) as (n & N1 & _ & N2).
  split; [lra|]. split; [lra|]. exists n. auto.
Qed.
Lemma measured_shape_ok x s ps lim1 lim2 a1 b1 a2 b2 v1 v2 res (w w' : W) m : gs_peaks s = Some ps -> ps <> [] ->
  config_ok label x ->
  measure (plain_config label lim1 lim2 x s) [a1; b1] [a2; b2] v1 v2 res w = (Ok m, w') ->
  exists nc nr, measured_shape m = Some (nc, nr) /\
    (res_list res = [Z.of_nat nc] /\ nr = 1%nat \/ res_list res = [Z.of_nat nc; Z.of_nat nr]) /\
  forall i j, (i < nr)%nat -> (j < nc)%nat ->
  exists v o lab y, measured_pixel m (a1, b1) (a2, b2) v o lab y /\
    v = (pixel_voltage (a1, b1) nc j, match res_list res with [_] => pixel_voltage (a2, b2) nc j | _ => pixel_voltage (a2, b2) nr i end).
Proof.
  intros Hp Hn C H.
  destruct (measure_inv _ _ _ _ _ _ _ _ _ _ _ _ H) as (c1 & d1 & c2 & d2 & d & im & E1 & E2 & I & P & M1 & M2 & M3 & _).
  inversion E1; subst c1 d1. inversion E2; subst c2 d2.
  pose proof (ideal_shape _ _ _ _ _ _ _ C I) as Sh. pose proof (generic_pixel s ps _ _ _ _ Hp Hn P) as GP.
  unfold measured_shape. rewrite M1. unfold measured_pixel. rewrite M1, M2, M3.
  destruct d as [occ lead|occ lead]; cbn [csd_arrays fst snd] in *.
  - destruct GP as (c & R1 & R2 & R3). rewrite R1. destruct Sh as (n & Hr & L1 & L2). cbn [of_list1 len1 cell1] in *.
    exists n, 1%nat. rewrite Hr. split; [congruence|]. split; [left; auto|]. intros i j Hi Hj.
    destruct (nth_error lead j) as [lab|] eqn:El; [|apply nth_error_None in El; lia].
    exists (pixel_voltage (a1, b1) n j, pixel_voltage (a2, b2) n j), (nth j occ (0, 0)), lab, (cell1 c j). split; [|reflexivity].
    exists j. split; [lia|]. split; [exact R2|]. split; [congruence|]. rewrite L1. auto.
  - destruct GP as (c & R1 & R2 & R3). rewrite R1. destruct Sh as (nx & ny & Hr & _ & _ & S1 & S2 & S3 & S4). destruct R2 as [T1 T2].
    exists nx, ny. rewrite Hr. cbn [res_list]. split; [congruence|]. split; [right; auto|]. intros i j Hi Hj.
    do 4 eexists. split; [|reflexivity]. exists i, j. split; [congruence|]. split; [congruence|]. split; [split; congruence|].
    split; [split; congruence|]. split; [rewrite S1, S2; reflexivity|]. auto.
Qed.

(** which measurements succeed *)
Lemma inside_limits lim a b : sweep_within lim a b -> range_outside lim (a, b) = false.
Proof.
  unfold sweep_within, range_outside. destruct lim as [[lo hi]|]; [|reflexivity]. cbn [fst snd]. intros [A B].
  unfold Rmin, Rmax. destruct (Rle_dec a b); rewrite !Rltb_false by lra; reflexivity.
Qed.
Lemma measure_outcome x s lim1 lim2 a1 b1 a2 b2 res (w : W) :
  config_ok label x -> well_formed_request [a1; b1] [a2; b2] (res_list res) -> res_list res <> [] ->
  Forall (fun n => (1 <= n)%Z) (res_list res) ->
  sweep_within lim1 a1 b1 -> sweep_within lim2 a2 b2 ->
  let r := measure (plain_config label lim1 lim2 x s) [a1; b1] [a2; b2] None None res w in
  match ideal_of x a1 b1 a2 b2 res with
  | Ok _ => exists m, r = (Ok m, w)
  | Err e => r = (Err e, w)
  end.
Proof.
  intros C (c1 & d1 & c2 & d2 & E1 & E2 & Hl & H2) Hne Hpos W1 W2 r. inversion E1; subst c1 d1. inversion E2; subst c2 d2.
  subst r. rewrite plain_measure.
  assert (K : check_measure (W := W) (plain_config label lim1 lim2 x s) [a1; b1] [a2; b2] None None res
              = Ok (get_csd_data label x, (a1, b1), (a2, b2))).
  { unfold check_measure, plain_config. cbn [ideal_csd_config volt_limits_g1 volt_limits_g2 volt_limits_sensor_g1 volt_limits_sensor_g2].
    rewrite (inside_limits _ _ _ W1), (inside_limits _ _ _ W2). cbn [orb raise_if sensor_volt_outside bind is_none xorb].
    assert (T1 : too_long res = false).
    { destruct res as [n|l]; [reflexivity|]. cbn [res_list] in Hl. unfold too_long. apply Nat.ltb_ge. exact Hl. }
    rewrite T1. cbn [raise_if].
    destruct (is_2d res) eqn:D; [|reflexivity]. cbn [andb].
    destruct res as [n|l]; [discriminate|]. cbn [is_2d] in D. apply Nat.eqb_eq in D. cbn [res_list] in *.
    destruct (H2 D) as (N1 & N2 & F). unfold fixed_range. cbn [fst snd]. rewrite (Reqb_false a1 b1 N1), (Reqb_false a2 b2 N2).
    cbn [orb raise_if too_small].
    replace (existsb (fun n => (n <=? 1)%Z) l) with false; [reflexivity|]. symmetry.
    apply Bool.not_true_is_false. intros X. apply existsb_exists in X. destruct X as (n & I & L).
    rewrite Forall_forall in F. specialize (F n I). apply Z.leb_le in L. lia. }
  rewrite K. unfold plain_result. destruct (ideal_of x a1 b1 a2 b2 res) as [d|e] eqn:I; [|reflexivity]. cbn [bind].
  assert (P : exists im, generic_potential s (fst (csd_arrays d)) (a1, b1) (a2, b2) = Ok im).
  { pose proof (ideal_shape _ _ _ _ _ _ _ C I) as Sh. destruct d as [occ lead|occ lead]; cbn [csd_arrays fst generic_potential of_list1 len1].
    - destruct Sh as (n & Hr & L1 & _). rewrite Hr in Hpos. inversion Hpos; subst.
      destruct (Nat.eqb_spec (length occ) 0); [lia|]. eexists. reflexivity.
    - destruct Sh as (nx & ny & _ & ? & ? & S1 & S2 & _). rewrite S1, S2.
      destruct (Nat.eqb_spec ny 0); [lia|]. destruct (Nat.eqb_spec nx 0); [lia|]. eexists. reflexivity. }
  destruct P as [im P]. rewrite P. cbn [bind]. eexists. reflexivity.
Qed.

(** the direction of the sweep does not matter *)
Lemma scan_reverse_g1 x a1 b1 a2 b2 res d d' v o lab : config_ok label x -> length (res_list res) = 2%nat ->
  ideal_of x a1 b1 a2 b2 res = Ok d -> ideal_of x b1 a1 a2 b2 res = Ok d' ->
  scan_pixel d (a1, b1) (a2, b2) v o lab -> scan_pixel d' (b1, a1) (a2, b2) v o lab.
Proof.
  intros C L2 I I'. pose proof (ideal_shape _ _ _ _ _ _ _ C I) as Sh. pose proof (ideal_shape _ _ _ _ _ _ _ C I') as Sh'.
  destruct res as [n|l]; [discriminate|]. destruct l as [|nx0 [|ny0 [|? l]]]; try discriminate.
  pose proof (reverse_g1 label (g_tcts x) a1 b1 [a2; b2] nx0 ny0 (g_rotation x) (g_lut x) (g_cdf x) (g_gamma x)) as Rv.
  unfold ideal_of in I, I'. rewrite I, I' in Rv. cbn [eq_result] in Rv.
  destruct d as [occ lead|occ lead]; [destruct Sh as (n & Hr & _); discriminate|].
  destruct d' as [occ' lead'|occ' lead']; [destruct Sh' as (n & Hr & _); discriminate|].
  cbn [mirror_g1 eq_csd] in Rv. destruct Rv as [[R1 [R2 R3]] [R4 [R5 R6]]].
  destruct Sh as (nx & ny & _ & X & Y & S1 & S2 & S3 & S4). cbn [flip_cols rows cols cell] in *.
  cbn [scan_pixel]. intros (i & j & Hi & Hj & Ho & Hl & Hv). exists i, (cols occ - 1 - j)%nat.
  split; [lia|]. split; [lia|]. split; [|split].
  - rewrite R3 by lia. replace (cols occ - 1 - (cols occ - 1 - j))%nat with j by lia. exact Ho.
  - rewrite R6 by lia. replace (cols lead - 1 - (cols occ - 1 - j))%nat with j by lia. exact Hl.
  - rewrite Hv, R1, R2. f_equal. change (b1, a1) with (swap (a1, b1)). rewrite pixel_voltage_swap by lia.
    f_equal. lia.
Qed.
Lemma scan_reverse_g2 x a1 b1 a2 b2 res d d' v o lab : config_ok label x -> length (res_list res) = 2%nat ->
  ideal_of x a1 b1 a2 b2 res = Ok d -> ideal_of x a1 b1 b2 a2 res = Ok d' ->
  scan_pixel d (a1, b1) (a2, b2) v o lab -> scan_pixel d' (a1, b1) (b2, a2) v o lab.
Proof.
  intros C L2 I I'. pose proof (ideal_shape _ _ _ _ _ _ _ C I) as Sh. pose proof (ideal_shape _ _ _ _ _ _ _ C I') as Sh'.
  destruct res as [n|l]; [discriminate|]. destruct l as [|nx0 [|ny0 [|? l]]]; try discriminate.
  pose proof (reverse_g2 label (g_tcts x) [a1; b1] a2 b2 nx0 ny0 (g_rotation x) (g_lut x) (g_cdf x) (g_gamma x)) as Rv.
  unfold ideal_of in I, I'. rewrite I, I' in Rv. cbn [eq_result] in Rv.
  destruct d as [occ lead|occ lead]; [destruct Sh as (n & Hr & _); discriminate|].
  destruct d' as [occ' lead'|occ' lead']; [destruct Sh' as (n & Hr & _); discriminate|].
  cbn [mirror_g2 eq_csd] in Rv. destruct Rv as [[R1 [R2 R3]] [R4 [R5 R6]]].
  destruct Sh as (nx & ny & _ & X & Y & S1 & S2 & S3 & S4). cbn [flip_rows rows cols cell] in *.
  cbn [scan_pixel]. intros (i & j & Hi & Hj & Ho & Hl & Hv). exists (rows occ - 1 - i)%nat, j.
  split; [lia|]. split; [lia|]. split; [|split].
  - rewrite R3 by lia. replace (rows occ - 1 - (rows occ - 1 - i))%nat with i by lia. exact Ho.
  - rewrite R6 by lia. replace (rows lead - 1 - (rows occ - 1 - i))%nat with i by lia. exact Hl.
  - rewrite Hv, R1, R2. f_equal. change (b2, a2) with (swap (a2, b2)). rewrite pixel_voltage_swap by lia.
    f_equal. lia.
Qed.
Lemma scan_reverse_1d x a1 b1 a2 b2 res d d' v o lab : config_ok label x -> length (res_list res) = 1%nat -> res_list res <> [1%Z] ->
  ideal_of x a1 b1 a2 b2 res = Ok d -> ideal_of x b1 a1 b2 a2 res = Ok d' ->
  scan_pixel d (a1, b1) (a2, b2) v o lab -> scan_pixel d' (b1, a1) (b2, a2) v o lab.
Proof.
  intros C L2 N1 I I'. pose proof (ideal_shape _ _ _ _ _ _ _ C I) as Sh. pose proof (ideal_shape _ _ _ _ _ _ _ C I') as Sh'.
  destruct (res_list res) as [|z [|? l]] eqn:Er; try discriminate.
  destruct C as (P & Len & K & Lab & Rest).
  assert (N : z <> 1%Z) by congruence.
  pose proof (reverse_1d label (g_tcts x) a1 b1 a2 b2 res z (g_rotation x) (g_lut x) (g_cdf x) (g_gamma x) P K Er N) as Rv.
  unfold ideal_of in I, I'. rewrite I, I' in Rv. cbn [eq_result] in Rv.
  destruct d as [occ lead|occ lead]; [|destruct Sh as (nx & ny & Hr & _); subst res; discriminate].
  destruct d' as [occ' lead'|occ' lead']; [|destruct Sh' as (nx & ny & Hr & _); subst res; discriminate].
  cbn [mirror_1d eq_csd] in Rv. destruct Rv as [-> ->].
  destruct Sh as (n & Hn & L1 & Ll). cbn [scan_pixel]. intros (i & Ho & Hl & Hv).
  assert (Hi : (i < length occ)%nat) by (apply nth_error_Some; congruence).
  exists (length occ - 1 - i)%nat. rewrite rev_length.
  assert (n <> 1)%nat by (intros En; apply N; rewrite En in Hn; injection Hn as Hz; exact Hz).
  split; [|split].
  - rewrite nth_error_rev by lia. replace (length occ - 1 - (length occ - 1 - i))%nat with i by lia. exact Ho.
  - rewrite nth_error_rev by lia. replace (length lead - 1 - (length occ - 1 - i))%nat with i by lia. exact Hl.
  - rewrite Hv. change (b1, a1) with (swap (a1, b1)). change (b2, a2) with (swap (a2, b2)).
    rewrite !pixel_voltage_swap by lia. replace (length occ - 1 - (length occ - 1 - i))%nat with i by lia. reflexivity.
Qed.

Lemma measured_reversed x s ps lim1 lim2 a1 b1 a2 b2 c1 e1 c2 e2 v1 v2 res (w w1 w2 : W) m m' :
  gs_peaks s = Some ps -> ps <> [] -> config_ok label x -> res_list res <> [1%Z] ->
  measure (plain_config label lim1 lim2 x s) [a1; b1] [a2; b2] v1 v2 res w = (Ok m, w1) ->
  measure (plain_config label lim1 lim2 x s) [c1; e1] [c2; e2] v1 v2 res w = (Ok m', w2) ->
  reversed_sweep res (a1, b1) (a2, b2) (c1, e1) (c2, e2) ->
  forall v o lab y, measured_pixel m (a1, b1) (a2, b2) v o lab y <-> measured_pixel m' (c1, e1) (c2, e2) v o lab y.
Proof.
  intros Hp Hn C N1 M M' Rv v o lab y.
  destruct (measured_is_scan x s ps lim1 lim2 a1 b1 a2 b2 v1 v2 res w w1 m Hp Hn C M) as (d & I & Eq).
  destruct (measured_is_scan x s ps lim1 lim2 c1 e1 c2 e2 v1 v2 res w w2 m' Hp Hn C M') as (d' & I' & Eq').
  rewrite Eq, Eq'.
  assert (Q : scan_pixel d (a1, b1) (a2, b2) v o lab <-> scan_pixel d' (c1, e1) (c2, e2) v o lab).
  { destruct Rv as [(L & [(X1 & X2)|(X1 & X2)])|(L & X1 & X2)]; injection X1 as -> ->; injection X2 as -> ->.
    - split; apply scan_reverse_g1 with (x := x) (res := res); auto.
    - split; apply scan_reverse_g2 with (x := x) (res := res); auto.
    - split; apply scan_reverse_1d with (x := x) (res := res); auto. }
  rewrite Q. tauto.
Qed.

(** a two-pixel measurement *)
Lemma measured_example x s ps lim1 lim2 a1 b1 a2 b2 o o' l l' (w : W) :
  gs_peaks s = Some ps -> ps <> [] -> config_ok label x -> sweep_within lim1 a1 b1 -> sweep_within lim2 a2 b2 ->
  ideal_of x a1 b1 a2 b2 (ResInt 2) = Ok (Csd1 [o; o'] [l; l']) ->
  exists m, measure (plain_config label lim1 lim2 x s) [a1; b1] [a2; b2] None None (ResInt 2) w = (Ok m, w) /\
  forall v p lab y,
  (v = (a1, a2) /\ p = o /\ lab = l \/ v = (b1, b2) /\ p = o' /\ lab = l') /\
  y = sum_peaks ps (affine (gs_offset s) (gs_gate s) (gs_dot s) v p) -> measured_pixel m (a1, b1) (a2, b2) v p lab y.
Proof.
  intros Hp Hn C W1 W2 E.
  assert (WF : well_formed_request [a1; b1] [a2; b2] (res_list (ResInt 2))).
  { exists a1, b1, a2, b2. cbn. split; [auto|]. split; [auto|]. split; [lia|]. discriminate. }
  pose proof (measure_outcome x s lim1 lim2 a1 b1 a2 b2 (ResInt 2) w C WF ltac:(discriminate) ltac:(repeat constructor; lia) W1 W2) as M.
  cbv zeta in M. rewrite E in M. destruct M as [m M]. exists m. split; [exact M|].
  destruct (measured_is_scan x s ps lim1 lim2 a1 b1 a2 b2 None None (ResInt 2) w w m Hp Hn C M) as (d & I & Q).
  rewrite E in I. injection I as <-. intros v p lab y [Hv Hy]. apply Q. split; [|exact Hy].
  cbn [scan_pixel]. destruct Hv as [(-> & -> & ->)|(-> & -> & ->)]; [exists 0%nat|exists 1%nat];
    (split; [reflexivity|]; split; [reflexivity|]); unfold pixel_voltage; cbn; f_equal; field.
Qed.
End Measure.
