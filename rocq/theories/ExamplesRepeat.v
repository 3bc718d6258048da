(** Concrete measurements that are repeated from their metadata. *)
From Verif Require Import RPrelude Arr ModelSupport ModelTct ModelCsd ModelJumps ModelDistortions ModelSensor ModelSimulation ModelInstance
  ModelNoise ModelScanInstance ModelDefault ModelScanNoise SpecSupport SpecTct SpecCsd SpecSensor SpecSimulation SpecDistortions SpecInstance SpecNoise SpecScanInstance SpecScanNoise SpecHistory SpecRepeat
  ProofsTct ProofsCsd ProofsLabel ProofsInstance ProofsNoise ProofsReplay ProofsDefault ProofsScanInstance ProofsScanNoise3 ProofsRepeat ExamplesCsd ExamplesNoise ExamplesSensor ExamplesScanInstance ExamplesScanNoise.
Local Open Scope R_scope.

(** A generator that counts: every standard normal draw returns the count. *)
Definition counting : sources nat :=
  mk_sources (fun _ g => (false, S g)) (fun _ n g => (repeat 1%nat n, S g)) (fun _ g => (2%nat, S g)) (fun _ _ g => (1, S g))
             (fun n g => (repeat (INR g) n, S g)) (fun n _ g => (repeat (INR g) n, S g)) (fun _ _ => None).
Lemma counting_ok : sources_ok counting.
Proof.
  split; [|split].
  - intros p n g. cbn. split; [apply repeat_length|]. intros l Hl. apply repeat_spec in Hl. lia.
  - intros n g. apply repeat_length.
  - intros n f g. apply repeat_length.
Qed.
Definition counted (g : nat) : noise_world nat := mk_noise_world (fun _ => None) (fun _ => jump_init) g.
Notation x := (mk_geometric (couple 0) 0 None Sigmoid None).
Notation s := (mk_generic (Some [mk_peak 0 (fun m x => x - m)]) (2, 3) (10, 20) 5).
(** White noise of strength 1 *)
Definition counting_config : config (noise_world nat) lead_mask response unit :=
  noisy_config counting component_label None (Some (0, 2)) x s [] [] [White (fun g => (1, g))].
Lemma counted_couple (w : noise_world nat) : exists m w',
  measure counting_config [-3/4; 3/4] [1; 1] None None (ResInt 2) w = (Ok m, w') /\ w_rng w' = S (w_rng w) /\
  numbered_pixel m (-3/4, 3/4) (1, 1) 0 (-3/4, 1) (1, 0) (39/2 + INR (w_rng w)).
Proof.
  destruct zero_swapped as (l & l' & E).
  assert (C : config_ok component_label x) by (apply couple_config; [lra|discriminate|simpl; lra]).
  destruct (measured_example component_label x s _ None (Some (0, 2)) (-3/4) (3/4) 1 1 (1, 0) (0, 1) l l' w
              eq_refl ltac:(discriminate) C ltac:(exact I) ltac:(simpl; lra) E) as (m0 & Em & P).
  destruct (measure_inv _ _ _ _ _ _ _ _ _ _ _ _ _ Em) as (c1 & d1 & c2 & d2 & d & im & Q1 & Q2 & I0 & _ & M1 & M2 & M3 & _).
  injection Q1 as <- <-. injection Q2 as <- <-. unfold ideal_of in I0. cbn [g_tcts g_rotation g_lut g_cdf g_gamma] in I0. rewrite E in I0. injection I0 as <-.
  cbn [csd_arrays fst] in M2.
  assert (D : drawn_all counting [White (fun g => (1, g))] (Shape1 2) (-3/4, 3/4) (1, 1) (w_rng w) = Ok ([0 + 1 * INR (w_rng w) + 0; 0 + 1 * INR (w_rng w) + 0], S (w_rng w))).
  { cbn. rewrite Rltb_false by lra. reflexivity. }
  destruct (noisy_run counting component_label counting_ok None (Some (0, 2)) x s _ [] [White (fun g => (1, g))]
              (-3/4) (3/4) 1 1 None None (ResInt 2) w m0 w (Shape1 2) [0; 0] (w_rng w) [0 + 1 * INR (w_rng w) + 0; 0 + 1 * INR (w_rng w) + 0] (S (w_rng w))
              eq_refl ltac:(discriminate) C ltac:(reflexivity) Em ltac:(reflexivity) D) as (m & w' & M & _ & _ & N).
  exists m, w'. split; [exact M|]. split.
  - destruct (noisy_inv _ _ _ _ _ _ _ _ _ _ _ _ _ _ _ _ _ M) as (? & ? & ? & ? & ? & ? & w1 & im1 & im' & w2 & Q1 & Q2 & _ & Eo & _ & Ep & Er & _).
    injection Q1 as <- <-. injection Q2 as <- <-. injection Eo as _ <-. injection Ep as _ <-. clear - Er.
    cbn [map image_loop generic_response gs_peaks] in Er. unfold mbind, image_object in Er. cbn [image_noise_function] in Er.
    unfold white_noise_function, white_gaussian_noise in Er. cbn in Er. rewrite Rltb_false in Er by lra. cbn in Er. injection Er as _ <-. reflexivity.
  - assert (Z : exists y, numbered_pixel m0 (-3/4, 3/4) (1, 1) 0 (-3/4, 1) (1, 0) y).
    { pose proof (P _ _ _ _ (conj (or_introl (conj eq_refl (conj eq_refl eq_refl))) eq_refl)) as P0.
      unfold measured_pixel in P0. unfold numbered_pixel. rewrite M2 in *.
      destruct (m_csd m0) as [[c|c]|]; try contradiction. destruct (m_lead m0); try contradiction.
      destruct P0 as (i & _ & Lc & _). exists (cell1 c 0). cbn [of_list1 len1 length] in *. unfold pixel_voltage. cbn.
      split; [lia|]; split; [exact Lc|]; split; [f_equal; field|split; reflexivity]. }
    destruct Z as (y & Z). apply N in Z. eapply eq_ind; [exact Z|]. unfold peak_total, affine. cbn. lra.
Qed.
(** Measured again from the metadata, the pixel is larger by 1. *)
Lemma counted_again : exists m w' m2 w2,
  measure counting_config [-3/4; 3/4] [1; 1] None None (ResInt 2) (counted 0) = (Ok m, w') /\
  measure_again (m_meta m) (md_world (m_meta m)) = (Ok m2, w2) /\
  numbered_pixel m (-3/4, 3/4) (1, 1) 0 (-3/4, 1) (1, 0) (39/2) /\ numbered_pixel m2 (-3/4, 3/4) (1, 1) 0 (-3/4, 1) (1, 0) (39/2 + 1).
Proof.
  destruct (counted_couple (counted 0)) as (m & w' & M & Rg & P). destruct (counted_couple w') as (m2 & w2 & M2 & _ & P2).
  exists m, w', m2, w2. split; [exact M|]. split.
  - destruct (measure_metadata _ _ _ _ _ _ _ _ _ M) as (Ec & E1 & E2 & E3 & E4 & E5 & E6). unfold measure_again. rewrite Ec, E1, E2, E3, E4, E5, E6. exact M2.
  - rewrite Rg in P2. cbn [counted w_rng INR] in P, P2. rewrite Rplus_0_r in P. split; [exact P|exact P2].
Qed.
(** A sensor scan along sensor gate 1 at given plunger voltages *)
Definition scanned : config (scan_world unit) lead_mask image labels :=
  noisy_scan_config demo_src component_label None None None None (Some default_csd) (demo 0 [lorentz_peak] []) [] [] [].
Lemma scanned_line : exists m w', measure_sensor_scan scanned [0; 3] [0; 0] (Some 0) (Some 0) (ResArray [4%Z]) start = (Ok m, w').
Proof.
  destruct (measured_outcome component_label None None None None (Some default_csd) (demo 0 [lorentz_peak] []) [lorentz_peak] 0 3 0 0 (Some 0) (Some 0) (ResArray [4%Z]) None) as (m0 & st & M).
  - constructor; cbn; auto; try (intros; exact I); try (intros; discriminate).
    + repeat constructor.
    + repeat constructor.
    + split; discriminate.
    + intros l [= <-]. cbn. lia.
  - split; [repeat constructor; lia|]. repeat split; discriminate.
  - intros g [= <-]. exact (default_config component_label component_labelling).
  - reflexivity.
  - now left.
  - pose proof (noisy_scan_outcome demo_src demo_src_ok component_label None None None None (Some default_csd) (demo 0 [lorentz_peak] []) [] [] []
      0 3 0 0 (Some 0) (Some 0) (ResArray [4%Z]) None m0 st start eq_refl M) as O. cbv zeta in O. destruct O as (m & w' & E & _). exists m, w'. exact E.
Qed.
