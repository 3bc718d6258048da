(** Concrete noisy simulations for examples and counterexamples. *)
From Verif Require Import RPrelude Arr ModelSupport ModelTct ModelCsd ModelJumps ModelDistortions ModelSensor ModelSimulation ModelInstance
  ModelNoise SpecSupport SpecTct SpecCsd SpecSensor SpecDistortions SpecInstance SpecNoise ProofsTct ProofsJumps ProofsDistortions ProofsCsd ProofsOcc ProofsRegions ProofsDriver ProofsScan ProofsLabel ProofsInstance ProofsNoise ProofsReplay ExamplesCsd.
Local Open Scope R_scope.

(** Every binomial draw is 1, blocks have one pixel, jumps two pixels, normal draws are 1. *)
Definition demo_src : sources unit :=
  mk_sources (fun _ _ => (true, tt)) (fun _ n _ => (repeat 1%nat n, tt)) (fun _ _ => (2%nat, tt)) (fun _ _ _ => (1, tt))
             (fun n _ => (repeat 1 n, tt)) (fun n _ _ => (repeat 1 n, tt)) (fun _ _ => None).
Lemma demo_src_ok : sources_ok demo_src.
Proof.
  split; [|split].
  - intros p n g. cbn. split; [apply repeat_length|]. intros l Hl. apply repeat_spec in Hl. lia.
  - intros n g. apply repeat_length.
  - intros n f g. apply repeat_length.
Qed.
Definition fresh_world : noise_world unit := mk_noise_world (fun _ => None) (fun _ => jump_init) tt.
Definition fixed_param (x : R) : param unit := fun g => (x, g).
(** scipy: int(truncate * sigma + 0.5) with truncate = 4 *)
Definition gaussian_radius (sigma : R) : nat := Z.to_nat (Int_part (4 * sigma + 1 / 2)).
Lemma radius_one sigma : 1 / 8 <= sigma < 3 / 8 -> gaussian_radius sigma = 1%nat.
Proof.
  intros H. unfold gaussian_radius. rewrite (Int_part_unique _ 1); [reflexivity|]. lra.
Qed.

(** One more electron in the first dot for positive voltages of the first gate. *)
Definition edge (v : R) : R * R := (if Rltb 0 v then 1 else 0, 0).
Definition edge_data : generator (noise_world unit) lead_mask :=
  fun l1 l2 res w =>
    (match res with
     | ResInt n => Ok (Occ1 (mk_arr1 (Z.to_nat n) (fun i => edge (pixel_voltage l1 (Z.to_nat n) i))), Lead1 (repeat 0%nat (Z.to_nat n)))
     | ResArray [c; r] => Ok (Occ2 (mk_arr2 (Z.to_nat r) (Z.to_nat c) (fun _ j => edge (pixel_voltage l1 (Z.to_nat c) j))), Lead2 (mk_arr2 (Z.to_nat r) (Z.to_nat c) (fun _ _ => 0%nat)))
     | _ => Err ValueError
     end, w).
Lemma edge_undistorted : undistorted edge_data.
Proof. intros l1 l2 res w. split; reflexivity. Qed.
Lemma edge_ignores : ignores_g2 edge_data.
Proof. intros l1 l2 l2' res w. reflexivity. Qed.

(** The first pixel of a blurred edge between two pixels. *)
Lemma blurred_edge sigma line : gaussian_radius sigma = 1%nat -> line 0%nat = 0 -> line 1%nat = 1 ->
  filter_line gaussian_kernel gaussian_radius sigma 2 line 0 = gaussian_kernel sigma 1 / (1 + 2 * gaussian_kernel sigma 1).
Proof.
  intros Hr L0 L1. unfold filter_line, convolve_line. rewrite Hr. change (offsets 1) with [-1; 0; 1]%Z.
  cbn [map]. change (reflect_index 2 (Z.of_nat 0 - -1)) with 1%nat. change (reflect_index 2 (Z.of_nat 0 - 0)) with 0%nat. change (reflect_index 2 (Z.of_nat 0 - 1)) with 0%nat.
  rewrite L0, L1. unfold normalised. change (offsets 1) with [-1; 0; 1]%Z. cbn [map Rsum fold_right].
  pose proof (gaussian_kernel_even sigma 1) as Ev. change (- (1))%Z with (-1)%Z in Ev. rewrite Ev.
  assert (K0 : gaussian_kernel sigma 0 = 1). { unfold gaussian_kernel. replace (- (1 / 2) / sigma ^ 2 * 0 ^ 2) with 0 by ring. apply exp_0. }
  rewrite K0. pose proof (gaussian_kernel_pos sigma 1) as P. unfold Rsum. cbn [fold_right]. field. lra.
Qed.
Lemma kernel_differs : gaussian_kernel (1 / 12 * 3) 1 / (1 + 2 * gaussian_kernel (1 / 12 * 3) 1) <> gaussian_kernel (1 / 12 * 2) 1 / (1 + 2 * gaussian_kernel (1 / 12 * 2) 1).
Proof.
  assert (L : gaussian_kernel (1 / 12 * 2) 1 < gaussian_kernel (1 / 12 * 3) 1).
  { unfold gaussian_kernel. apply exp_increasing.
    replace (- (1 / 2) / (1 / 12 * 2) ^ 2 * 1 ^ 2) with (- 18) by field. replace (- (1 / 2) / (1 / 12 * 3) ^ 2 * 1 ^ 2) with (- 8) by field. lra. }
  pose proof (gaussian_kernel_pos (1 / 12 * 3) 1) as P3. pose proof (gaussian_kernel_pos (1 / 12 * 2) 1) as P2.
  intros E. apply Rmult_eq_compat_r with (r := (1 + 2 * gaussian_kernel (1 / 12 * 3) 1) * (1 + 2 * gaussian_kernel (1 / 12 * 2) 1)) in E.
  field_simplify in E; lra.
Qed.

Definition demo_blur : occ_noise unit := Blur 0 (fixed_param (1 / 12)) gaussian_kernel gaussian_radius.
Definition demo_jumps : occ_noise unit := Jumps 1 0 1 (fixed_param 1) (fixed_param 1).
(** The world after the blurring and after the jumps. *)
Definition world1 : noise_world unit := mk_noise_world (set_key (fun _ => None) 0 (Some (1 / 12))) (fun _ => jump_init) tt.
Definition world2 : noise_world unit := mk_noise_world (set_key (fun _ => None) 0 (Some (1 / 12))) (set_key (fun _ => jump_init) 1 (mk_jump_state (Some true) (Some [0; 2; 0]%nat))) tt.
Definition edge_scan (r : nat) (c : nat) (l1 : limits) : arr2 (R * R) := mk_arr2 r c (fun _ j => edge (pixel_voltage l1 c j)).
Definition zero_lead (r c : nat) : arr2 nat := mk_arr2 r c (fun _ _ => 0%nat).
Definition blurred_scan (sigma : R) (a : arr2 (R * R)) : occupation := occ_part (blur_scan gaussian_kernel gaussian_radius sigma (Scan2 a None)).

Lemma unit_range : volt_range (0, 1) = 1.
Proof. unfold volt_range. cbn. rewrite Rmax_right, Rmin_left by lra. ring. Qed.
Lemma unit_div n : div_range n (0, 1) = Ok (INR n / 1).
Proof. unfold div_range. rewrite unit_range. rewrite Reqb_false by lra. reflexivity. Qed.
Lemma blur_step r c l2 w : 
  od_noise (occ_object demo_src demo_blur) (Occ2 (edge_scan r c (0, 1))) (Lead2 (zero_lead r c)) (0, 1) l2 edge_data false w =
  (let p := (blurred_scan (1 / 12 * (INR r / 1)) (edge_scan r c (0, 1)), Lead2 (zero_lead r c)) in Ok (p, p),
   mk_noise_world (set_key (w_sigma w) 0 (Some (1 / 12))) (w_jump w) (w_rng w)).
Proof.
  cbn [demo_blur occ_object blur_object od_noise occ_scan blur_noise_function fixed_param bind scan_shape edge_scan rows cols blur_px_per_volt].
  unfold blur_noise_function. cbn [fixed_param bind scan_shape edge_scan rows cols blur_px_per_volt]. rewrite Rltb_true by lra. rewrite unit_div. reflexivity.
Qed.

Lemma frozen_blur r c l2 w : w_sigma w 0%nat = Some (1 / 12) ->
  with_noise edge_data (occ_object demo_src demo_blur) (0, 1) l2 (ResArray [Z.of_nat c; Z.of_nat r]) w =
  (Ok (blurred_scan (1 / 12 * (INR r / 1)) (edge_scan r c (0, 1)), Lead2 (zero_lead r c)), w).
Proof.
  intros Hw. unfold with_noise, mbind, edge_data. rewrite !Nat2Z.id. fold (edge_scan r c (0, 1)). fold (zero_lead r c).
  cbn [demo_blur occ_object blur_object od_noise occ_scan fst snd]. unfold blur_noise_function. rewrite Hw.
  cbn [bind scan_shape edge_scan rows cols blur_px_per_volt]. rewrite Rltb_true by lra. rewrite unit_div. cbn [bind ret fst].
  rewrite <- Hw, set_same, world_eta. reflexivity.
Qed.
Lemma demo_draw w : js_activated (w_jump w 1%nat) = None ->
  jump_draw demo_src 0 1 (fixed_param 1) (fixed_param 1) false (w_jump w 1%nat) (w_rng w) (Shape2 3 2) (0, 1) (0, 1) =
  Ok (Some [0; 2; 0]%nat, mk_jump_state (Some true) (Some [0; 2; 0]%nat), tt).
Proof.
  intros _. unfold jump_draw. cbn [andb demo_src src_binomial negb fixed_param jump_px_per_volt Z.eqb]. rewrite unit_div. cbn [bind jump_size Z.eqb].
  reflexivity.
Qed.
Lemma demo_loop : exists a lead w',
  occupation_loop (map (occ_object demo_src) [demo_blur; demo_jumps]) edge_data (0, 1) (0, 1)
    (Occ2 (edge_scan 3 2 (0, 1)), Lead2 (zero_lead 3 2)) fresh_world = (Ok (Occ2 a, lead), w') /\
  rows a = 3%nat /\ cols a = 2%nat /\
  fst (cell a 0 0) = gaussian_kernel (1 / 12 * 3) 1 / (1 + 2 * gaussian_kernel (1 / 12 * 3) 1) /\
  fst (cell a 1 0) = gaussian_kernel (1 / 12 * 2) 1 / (1 + 2 * gaussian_kernel (1 / 12 * 2) 1).
Proof.
  cbn [map occupation_loop]. unfold mbind at 1. cbn [fst snd]. rewrite blur_step. cbn [fst snd].
  set (w1 := mk_noise_world _ _ _). set (gen := with_noise edge_data (occ_object demo_src demo_blur)).
  unfold mbind. unfold blurred_scan at 1. cbn [blur_scan occ_part].
  set (occ := mk_arr2 (rows (edge_scan 3 2 (0, 1))) (cols (edge_scan 3 2 (0, 1))) _).
  cbn [demo_jumps occ_object jumps_object od_noise jump_scan scan_shape amap2 rows cols occ edge_scan].
  rewrite (demo_draw w1 eq_refl).
  set (w2 := mk_noise_world _ _ _).
  assert (Hw : w_sigma w2 0%nat = Some (1 / 12)) by reflexivity.
  set (calls := jump_calls _ _ _ _ _).
  assert (Ec : calls = [((0, 1), (0 - INR 2 * ((1 - 0) / INR 3), 0 - (1 - 0) / INR 3), ResArray [2%Z; 2%Z])]).
  { unfold calls, jump_calls. rewrite sort_id by (cbn; lra). reflexivity. }
  rewrite Ec. cbn [run_calls]. unfold mbind. unfold gen at 1.
  rewrite (frozen_blur 2 2 _ w2 Hw). cbn [ret].
  set (noise := [0; 2; 0]%nat).
  set (lead := amap2 (fun n => Some (INR n)) (zero_lead 3 2)).
  set (full := amap2 lift_occ occ).
  destruct (jump_apply_2d_0 is_nan None (src_empty demo_src) (generated1 gen w2) (generated2 gen w2) noise full lead (0, 1) (0, 1)) as (occ' & lead' & Ea & Sh & _ & V).
  all: try (cbn; lra).
  { reflexivity. } { split; reflexivity. }
  all: try (cbn [list_max noise fold_right Nat.max]; lia).
  all: assert (Gen : forall l2, generated2 gen w2 (0, 1) l2 (2, 2)%nat =
     (amap2 lift_occ (match blurred_scan (1 / 12 * (INR 2 / 1)) (edge_scan 2 2 (0, 1)) with Occ2 a => a | _ => edge_scan 2 2 (0, 1) end), amap2 (fun n => Some (INR n)) (zero_lead 2 2)))
   by (intros l2; unfold generated2; cbn [fst snd]; unfold gen; rewrite (frozen_blur 2 2 l2 w2 Hw); reflexivity).
  all: try (change (list_max noise) with 2%nat; change (cols full) with 2%nat; rewrite Gen).
  { split; reflexivity. } { split; reflexivity. }
  { intros i j _ _. split; reflexivity. } { intros i j _ _. split; reflexivity. } { reflexivity. } { reflexivity. }
  rewrite Ea. cbn [bind fst scan_jump]. do 3 eexists. split; [reflexivity|].
  destruct Sh as [Sr Sc]. cbn [amap2 rows cols cell]. split; [exact Sr|]. split; [exact Sc|].
  change (list_max noise) with 2%nat in V. change (cols full) with 2%nat in V. rewrite Gen in V.
  destruct (V 0%nat 0%nat ltac:(cbn; lia) ltac:(cbn; lia)) as [V0 _]. destruct (V 1%nat 0%nat ltac:(cbn; lia) ltac:(cbn; lia)) as [V1 _].
  cbn [noise nth Nat.leb Nat.sub fst] in V0, V1.
  assert (L0 : edge (pixel_voltage (0, 1) 2 0) = (0, 0)). { unfold edge, pixel_voltage. cbn. rewrite Rltb_false by lra. reflexivity. }
  assert (L1 : edge (pixel_voltage (0, 1) 2 1) = (1, 0)). { unfold edge, pixel_voltage. cbn. rewrite Rltb_true by lra. reflexivity. }
  rewrite V0, V1. cbn [full occ cell amap2 blurred_scan blur_scan occ_part lift_occ drop_occ fst snd number edge_scan rows cols].
  split.
  - replace (1 / 12 * (INR 3 / 1)) with (1 / 12 * 3) by (cbn; field). apply blurred_edge; [apply radius_one; lra| |]; rewrite ?L0, ?L1; reflexivity.
  - replace (1 / 12 * (INR 2 / 1)) with (1 / 12 * 2) by (cbn; field). apply blurred_edge; [apply radius_one; lra| |]; rewrite ?L0, ?L1; reflexivity.
Qed.

Lemma demo_strips : exists a lead w',
  occupation_loop (map (occ_object demo_src) [demo_blur; demo_jumps]) edge_data (0, 1) (0, 1)
    (Occ2 (edge_scan 3 2 (0, 1)), Lead2 (zero_lead 3 2)) fresh_world = (Ok (Occ2 a, lead), w') /\ ~ constant_columns a.
Proof.
  destruct demo_loop as (a & lead & w' & E & Hr & Hc & V0 & V1). exists a, lead, w'. split; [exact E|].
  intros C. apply kernel_differs. rewrite <- V0, <- V1. f_equal. apply C; lia.
Qed.
Lemma edge_samples : samples_g1 edge (fun _ => 0%nat) edge_data.
Proof.
  split.
  - intros l1 l2 n w. unfold edge_data. rewrite Nat2Z.id. do 2 eexists. split; [reflexivity|]. split; [reflexivity|]. split; [apply repeat_length|].
    intros i Hi. split; [reflexivity|]. rewrite nth_error_nth' with (d := 0%nat) by (rewrite repeat_length; exact Hi). f_equal. apply nth_repeat.
  - intros l1 l2 c r w. unfold edge_data. rewrite !Nat2Z.id. do 2 eexists. split; [reflexivity|]. cbn. repeat split; auto.
Qed.

Section Couple.
Notation x := (mk_geometric (couple 0) 0 None Sigmoid None).
Notation s := (mk_generic (Some [mk_peak 0 (fun m x => x - m)]) (2, 3) (10, 20) 5).
(** The couple configuration with pink noise of strength 1/4 in the potential and white noise of strength
    1/2 in the response; all draws are 1. *)
Lemma noisy_couple : exists m w',
  measure (noisy_config demo_src component_label None (Some (0, 2)) x s [] [Pink (fixed_param (1 / 4)) 0] [White (fixed_param (1 / 2))])
    [-3/4; 3/4] [1; 1] None None (ResInt 2) fresh_world = (Ok m, w') /\
  numbered_pixel m (-3/4, 3/4) (1, 1) 0 (-3/4, 1) (1, 0) (39/2 + 1/4 + 1/2) /\
  numbered_pixel m (-3/4, 3/4) (1, 1) 1 (3/4, 1) (0, 1) (71/2 + 1/4 + 1/2).
Proof.
  destruct zero_swapped as (l & l' & E).
  assert (C : config_ok component_label x) by (apply couple_config; [lra|discriminate|simpl; lra]).
  destruct (measured_example component_label x s _ None (Some (0, 2)) (-3/4) (3/4) 1 1 (1, 0) (0, 1) l l' fresh_world
              eq_refl ltac:(discriminate) C ltac:(exact I) ltac:(simpl; lra) E) as (m0 & Em & P).
  destruct (measure_inv _ _ _ _ _ _ _ _ _ _ _ _ _ Em) as (c1 & d1 & c2 & d2 & d & im & Q1 & Q2 & I0 & _ & M1 & M2 & M3 & _).
  injection Q1 as <- <-. injection Q2 as <- <-. unfold ideal_of in I0. cbn [g_tcts g_rotation g_lut g_cdf g_gamma] in I0. rewrite E in I0. injection I0 as <-.
  cbn [csd_arrays fst] in M2.
  destruct (noisy_run demo_src component_label demo_src_ok None (Some (0, 2)) x s _ [Pink (fixed_param (1 / 4)) 0] [White (fixed_param (1 / 2))]
              (-3/4) (3/4) 1 1 None None (ResInt 2) fresh_world m0 fresh_world (Shape1 2) [1 * (1 / 4) + 0; 1 * (1 / 4) + 0] tt [0 + 1 / 2 * 1 + 0; 0 + 1 / 2 * 1 + 0] tt
              eq_refl ltac:(discriminate) C ltac:(reflexivity) Em) as (m & w' & M & _ & _ & N).
  { cbn. reflexivity. }
  { cbn. rewrite Rltb_false by lra. reflexivity. }
  exists m, w'. split; [exact M|].
  assert (Z : exists y y', numbered_pixel m0 (-3/4, 3/4) (1, 1) 0 (-3/4, 1) (1, 0) y /\ numbered_pixel m0 (-3/4, 3/4) (1, 1) 1 (3/4, 1) (0, 1) y').
  { pose proof (P _ _ _ _ (conj (or_introl (conj eq_refl (conj eq_refl eq_refl))) eq_refl)) as P0.
    unfold measured_pixel in P0. unfold numbered_pixel. rewrite M2 in *.
    destruct (m_csd m0) as [[c|c]|]; try contradiction. destruct (m_lead m0); try contradiction.
    destruct P0 as (i & _ & Lc & _). exists (cell1 c 0), (cell1 c 1). cbn [of_list1 len1 length] in *. unfold pixel_voltage. cbn.
    split; (split; [lia|]; split; [exact Lc|]; split; [f_equal; field|split; reflexivity]). }
  destruct Z as (y & y' & Z0 & Z1). apply N in Z0, Z1. clear N.
  split; [replace (39/2 + 1/4 + 1/2) with (peak_total [mk_peak 0 (fun m x => x - m)] (affine 5 (10, 20) (2, 3) (-3/4, 1) (1, 0) + nth 0 [1 * (1 / 4) + 0; 1 * (1 / 4) + 0] 0) + nth 0 [0 + 1 / 2 * 1 + 0; 0 + 1 / 2 * 1 + 0] 0); [exact Z0|]
         |replace (71/2 + 1/4 + 1/2) with (peak_total [mk_peak 0 (fun m x => x - m)] (affine 5 (10, 20) (2, 3) (3/4, 1) (0, 1) + nth 1 [1 * (1 / 4) + 0; 1 * (1 / 4) + 0] 0) + nth 1 [0 + 1 / 2 * 1 + 0; 0 + 1 / 2 * 1 + 0] 0); [exact Z1|]];
    unfold peak_total, affine; cbn; lra.
Qed.
End Couple.
