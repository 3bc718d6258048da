(** Runs of the configuration sampler with simple generators. *)
From Verif Require Import RPrelude Arr ModelSupport SpecSupport ModelCsd ModelDistortions ModelSampling ModelSensor ModelSimulation ModelConfig
  SpecSampling SpecSensor SpecConfig ProofsSampling ProofsConfig.
Local Open Scope R_scope.

(** ** Relative positions *)
Lemma relative_ok : uniform_ok relative_tape.
Proof.
  intros lo hi g L. cbn. destruct (next g) as [x t]. cbn. 
  pose proof (Rmax_l 0 (Rmin 1 x)). assert (Rmax 0 (Rmin 1 x) <= 1) by (apply Rmax_lub; [lra|apply Rmin_l]). nra.
Qed.
Lemma uniform_relative lo hi x t : lo <= hi -> 0 <= x <= 1 ->
  uniform relative_tape lo hi (x :: t) = (Ok (lo + x * (hi - lo)), t).
Proof. intros L X. unfold uniform. rewrite Rltb_false by lra. cbn. rewrite Rmin_right, Rmax_right by lra. reflexivity. Qed.
Definition choose_first : nat -> nat -> list R -> nat * list R := fun a _ g => (a, g).
Lemma choose_first_ok : choice_ok choose_first.
Proof. intros a b g L. cbn. lia. Qed.

(** Lever arms with all draws at the lower ends *)
Lemma lever_arms_low t : sample_lever_arms relative_tape 1 false (0 :: 0 :: 0 :: 0 :: t) =
  (Ok ((0.02805, 0.014025), (-0.0007994, -0.0005214)), t).
Proof.
  unfold sample_lever_arms. rewrite (bind_go _ _ _ _ _ (uniform_relative 0.02805 0.15093 0 _ ltac:(lra) ltac:(lra))).
  rewrite Rmult_0_l, Rplus_0_r.
  rewrite (bind_go _ _ _ _ _ (uniform_relative (0.5 * 0.02805) (2 * 0.02805) 0 _ ltac:(lra) ltac:(lra))).
  rewrite Rmult_0_l, Rplus_0_r. rewrite (Rmin_right (2 * 0.02805 * -0.03 / 100)) by lra.
  rewrite (bind_go _ _ _ _ _ (uniform_relative (-0.0007994) (-0.0007994 + 1 * (-0.0000961 - -0.0007994)) 0 _ ltac:(lra) ltac:(lra))).
  rewrite Rmult_0_l, Rplus_0_r. rewrite (Rmin_left (0.5 * -0.0007994)) by lra. rewrite (Rmin_left (0.5 * -0.0007994)) by lra.
  rewrite Rltb_false by lra. rewrite (Rmax_right (2 * -0.0007994)) by lra.
  rewrite (bind_go _ _ _ _ _ (uniform_relative (-0.0005214) (0.5 * -0.0007994) 0 _ ltac:(lra) ltac:(lra))).
  rewrite Rmult_0_l, Rplus_0_r. unfold ret. do 4 f_equal; lra.
Qed.
(** Lever arms for which both ends of the range have the same potential *)
Lemma lever_arms_degenerate t : sample_lever_arms relative_tape 1 false (0 :: 0 :: 294 / 7033 :: 1133 / 1364 :: t) =
  (Ok ((0.02805, 0.014025), (-0.00077, -0.0004081)), t).
Proof.
  unfold sample_lever_arms. rewrite (bind_go _ _ _ _ _ (uniform_relative 0.02805 0.15093 0 _ ltac:(lra) ltac:(lra))).
  rewrite Rmult_0_l, Rplus_0_r.
  rewrite (bind_go _ _ _ _ _ (uniform_relative (0.5 * 0.02805) (2 * 0.02805) 0 _ ltac:(lra) ltac:(lra))).
  rewrite Rmult_0_l, Rplus_0_r. rewrite (Rmin_right (2 * 0.02805 * -0.03 / 100)) by lra.
  rewrite (bind_go _ _ _ _ _ (uniform_relative (-0.0007994) (-0.0007994 + 1 * (-0.0000961 - -0.0007994)) (294 / 7033) _ ltac:(lra) ltac:(lra))).
  replace (-0.0007994 + 294 / 7033 * (-0.0007994 + 1 * (-0.0000961 - -0.0007994) - -0.0007994)) with (-0.00077) by lra.
  rewrite (Rmin_left (0.5 * -0.00077)) by lra. rewrite (Rmin_left (0.5 * -0.00077)) by lra.
  rewrite Rltb_false by lra. rewrite (Rmax_right (2 * -0.00077)) by lra.
  rewrite (bind_go _ _ _ _ _ (uniform_relative (-0.0005214) (0.5 * -0.00077) (1133 / 1364) _ ltac:(lra) ltac:(lra))).
  unfold ret. do 4 f_equal; lra.
Qed.

(** A generic sensor with peaks at both ends and in the middle of the potential range *)
Definition generic_tape : list R := [0; 0; 0; 0; 0; 0; 0; 0; 0; 1 / 2; 0; 0; 0; 1; 0; 0].
Lemma sample_first_height scale t :
  sample relative_tape 1 (AExponential scale) (0.19204, 0.02245) (0 :: t) = (Ok 0.19204, t).
Proof.
  unfold sample, new_sampler, narrow_exponential, sample_parameter. cbn [sm_dist sm_range draw_until draw r_exponential relative_tape next].
  cbn [fst snd]. rewrite Rmult_0_l, Rplus_0_r. unfold rejected. cbn [fst snd]. rewrite Rmin_right, Rmax_left by lra.
  rewrite !Rltb_false by lra. reflexivity.
Qed.
Ltac draw_next := match goal with |- mbind (uniform relative_tape ?a ?b) _ (?x :: ?t) = _ =>
  rewrite (bind_go _ _ _ _ _ (uniform_relative a b x t ltac:(lra) ltac:(lra))) end.
Lemma run_generic : exists gates dots lim ps t,
  sample_generic_peaks relative_tape choose_first 1 1 false generic_tape = (Ok (gates, dots, lim, ps), t) /\
  map lz_mu0 ps = [fst lim; (fst lim + snd lim) / 2; snd lim].
Proof.
  unfold sample_generic_peaks, generic_tape. rewrite (bind_go _ _ _ _ _ (lever_arms_low _)).
  pose proof (potential_range_spec (0.02805, 0.014025) (-0.0007994, -0.0005214)) as P. cbv zeta in P.
  unfold lift. rewrite P. unfold mbind at 1.
  set (lo := Rmin _ _). set (hi := Rmax _ _).
  assert (L : lo < hi). { unfold lo, hi, end_potentials. cbn [fst snd]. rewrite Rmin_right, Rmax_left by lra. lra. }
  clearbody lo hi. unfold choose, choose_first. unfold mbind at 1. set (scale := 0.6 * 1 / ln (1 / (1 - 0.99))).
  assert (NL : (hi - lo) / (INR 3 * 1.5) < (hi - lo) / 2).
  { change (INR 3) with (2 + 1). lra. }
  assert (NL2 : (hi - lo) / (INR 3 * 2) < (hi - lo) / 2).
  { change (INR 3) with (2 + 1). lra. }
  assert (S1 : exists p1, lz_mu0 p1 = lo /\ lz_offset p1 = -0.42275 /\ lz_height p1 = 0.19204 /\
    add_generic_peak relative_tape 1 lo hi scale 3 [] [0; 0; 0; 0; 0; 1 / 2; 0; 0; 0; 1; 0; 0] = (Ok [p1], [0; 1 / 2; 0; 0; 0; 1; 0; 0])).
  { exists (mk_lorentz lo 0.0009636 0.19204 (-0.42275)). split; [reflexivity|]. split; [reflexivity|]. split; [reflexivity|]. unfold add_generic_peak.
    draw_next.
    rewrite (bind_go _ _ _ _ _ (uniform_relative lo hi 0 _ ltac:(lra) ltac:(lra))).
    unfold mbind at 1. cbn [ret]. draw_next.
    rewrite (bind_go _ _ _ _ _ (sample_first_height scale _)). rewrite !Rmult_0_l, !Rplus_0_r.
    unfold lift, new_lorentz, raise_if. rewrite Rleb_false by lra. reflexivity. }
  destruct S1 as (p1 & M1 & O1 & H1 & S1).
  assert (S2 : exists p2, lz_mu0 p2 = (lo + hi) / 2 /\
    add_generic_peak relative_tape 1 lo hi scale 3 [p1] [0; 1 / 2; 0; 0; 0; 1; 0; 0] = (Ok [p1; p2], [0; 1; 0; 0])).
  { exists (mk_lorentz ((lo + hi) / 2) 0.0009636 (0.19204 * 0.8) (-0.42275 * 1.2)). split; [reflexivity|]. unfold add_generic_peak. rewrite O1, H1.
    draw_next.
    rewrite (bind_go _ _ _ _ _ (uniform_relative lo hi (1 / 2) _ ltac:(lra) ltac:(lra))).
    replace (lo + 1 / 2 * (hi - lo)) with ((lo + hi) / 2) by lra. cbn [map place]. rewrite M1.
    assert (D : nearest_distance ((lo + hi) / 2) [lo] = (hi - lo) / 2).
    { unfold nearest_distance. cbn [map min_list]. rewrite Rabs_right; lra. }
    rewrite D, (Rleb_false _ _ NL), (Rleb_false _ _ NL2). cbn [andb orb].
    unfold mbind at 1. cbn [ret]. draw_next.
    draw_next. rewrite !Rmult_0_l, !Rplus_0_r.
    unfold lift, new_lorentz, raise_if. rewrite Rleb_false by lra. reflexivity. }
  destruct S2 as (p2 & M2 & S2).
  assert (S3 : exists p3, lz_mu0 p3 = hi /\
    add_generic_peak relative_tape 1 lo hi scale 3 [p1; p2] [0; 1; 0; 0] = (Ok [p1; p2; p3], [])).
  { exists (mk_lorentz hi 0.0009636 (0.19204 * 0.8) (-0.42275 * 1.2)). split; [reflexivity|]. unfold add_generic_peak. rewrite O1, H1.
    draw_next.
    rewrite (bind_go _ _ _ _ _ (uniform_relative lo hi 1 _ ltac:(lra) ltac:(lra))).
    replace (lo + 1 * (hi - lo)) with hi by lra. cbn [map place]. rewrite M1, M2.
    assert (D : nearest_distance hi [lo; (lo + hi) / 2] = (hi - lo) / 2).
    { unfold nearest_distance. cbn [map min_list]. rewrite (Rabs_right (hi - lo)), (Rabs_right (hi - (lo + hi) / 2)) by lra.
      rewrite Rmin_right; lra. }
    rewrite D, (Rleb_false _ _ NL), (Rleb_false _ _ NL2). cbn [andb orb].
    unfold mbind at 1. cbn [ret]. draw_next.
    draw_next. rewrite !Rmult_0_l, !Rplus_0_r.
    unfold lift, new_lorentz, raise_if. rewrite Rleb_false by lra. reflexivity. }
  destruct S3 as (p3 & M3 & S3).
  assert (E : add_generic_peaks relative_tape 1 lo hi scale 3 3 [] [0; 0; 0; 0; 0; 1 / 2; 0; 0; 0; 1; 0; 0] = (Ok [p1; p2; p3], [])).
  { unfold add_generic_peaks. rewrite (bind_go _ _ _ _ _ S1), (bind_go _ _ _ _ _ S2), (bind_go _ _ _ _ _ S3). reflexivity. }
  rewrite (bind_go _ _ _ _ _ E). cbn [ret].
  do 5 eexists. split; [reflexivity|]. cbn [map fst snd]. rewrite M1, M2, M3. reflexivity.
Qed.

(** ** Middle positions *)
Lemma middle_ok : uniform_ok middle.
Proof. intros lo hi g L. cbn. lra. Qed.
Lemma middle_uniform lo hi : lo <= hi -> uniform middle lo hi tt = (Ok ((lo + hi) / 2), tt).
Proof. intros L. unfold uniform. rewrite Rltb_false by lra. reflexivity. Qed.
Lemma middle_sample_uniform lo hi : lo <= hi -> sample_uniform middle 1 (lo, hi) tt = (Ok ((lo + hi) / 2), tt).
Proof. intros L. unfold sample_uniform. cbn [fst snd]. rewrite Rltb_false by lra. reflexivity. Qed.
Lemma middle_normal std mean lo hi : lo <= mean <= hi -> sample middle 1 (ANormal std (Some mean)) (lo, hi) tt = (Ok mean, tt).
Proof. intros L. unfold sample, sample_parameter. cbn. rewrite !Rltb_false by lra. reflexivity. Qed.
Lemma middle_above lo std mean : lo <= mean -> normal_above middle 1 lo std mean tt = (Ok mean, tt).
Proof. intros L. unfold normal_above. cbn. rewrite Rltb_false by lra. reflexivity. Qed.
Lemma middle_peak h base ps : 0 <= h -> scan_peaks_ok base ps -> exists p, add_scan_peak middle 1 ps h base tt = (Ok (ps ++ [p]), tt).
Proof.
  intros Hh K. unfold add_scan_peak.
  assert (S : forall m gam, 0 < gam -> exists p,
     (do s <- normal_above middle 1 (- h) (0.04720315300812465 / 2) 0; do p <- lift (new_lorentz m gam (h + s) 0); ret (ps ++ [p])) tt = (Ok (ps ++ [p]), tt)).
  { intros m gam Hg. rewrite (bind_go _ _ _ _ _ (middle_above (- h) _ 0 ltac:(lra))). unfold mbind, lift, new_lorentz, raise_if. rewrite Rleb_false by lra.
    eexists. reflexivity. }
  destruct K as (F & _). destruct ps as [|p [|p1 rest]].
  - unfold mbind at 1 2. rewrite middle_above by lra. cbn [ret]. apply S. lra.
  - inversion F as [|? ? (A & _) _]; subst. unfold mbind at 1 2 3. rewrite middle_normal by lra. rewrite middle_normal by lra. cbn [ret]. apply S. lra.
  - assert (A : 0 < lz_gamma (last rest p1)).
    { assert (In (last rest p1) (p :: p1 :: rest)).
      { right. apply (nth_error_In _ (length rest)). apply last_nth. }
      rewrite Forall_forall in F. apply F. assumption. }
    cbv zeta. unfold mbind at 1 2 3 4. rewrite middle_normal by lra. rewrite middle_normal by lra.
    destruct (Rltb 0.002 (lz_gamma (last rest p1) * 1.25)).
    + rewrite middle_sample_uniform by lra. cbn [ret]. apply S. lra.
    + cbn [ret]. apply S. lra.
Qed.
Lemma middle_peaks n h base ps : 0 <= h -> scan_peaks_ok base ps ->
  exists ps', add_scan_peaks middle 1 n h base ps tt = (Ok ps', tt).
Proof.
  intros Hh. revert ps. induction n as [|n IH]; intros ps K; cbn [add_scan_peaks]; [eexists; reflexivity|].
  destruct (middle_peak h base ps Hh K) as (p & E). rewrite (bind_go _ _ _ _ _ E). apply IH.
  destruct (add_scan_peak_inv middle 1 middle_ok _ _ _ _ _ _ E K) as (q & _ & K'). exact K'.
Qed.
Lemma middle_function off q : 0 < q <= 1 -> exists ps rise, sample_sensor_function middle 1 off q tt = (Ok (ps, rise), tt).
Proof.
  intros Q. unfold sample_sensor_function. rewrite (bind_go _ _ _ _ _ (middle_normal 0.04804196857755959 (0.07543071921134054 * q) 0 1 ltac:(lra))).
  rewrite (bind_go _ _ _ _ _ (middle_sample_uniform 20 30 ltac:(lra))).
  destruct (middle_peaks (Z.to_nat (Int_part ((20 + 30) / 2))) (0.07543071921134054 * q) off [] ltac:(lra) (no_peaks off)) as (ps & E).
  rewrite (bind_go _ _ _ _ _ E). cbv zeta. rewrite (bind_go _ _ _ _ _ (middle_sample_uniform 400 600 ltac:(lra))).
  rewrite (bind_go _ _ _ _ _ (middle_sample_uniform 0.01 1 ltac:(lra))).
  rewrite (bind_go _ _ _ _ _ (middle_sample_uniform 0.01 100 ltac:(lra))). eexists. eexists. reflexivity.
Qed.
Lemma middle_barrier off h q pinch full : exists p b, sample_simple_barrier middle 1 off h q pinch full tt = (Ok (p, b), tt).
Proof.
  unfold sample_simple_barrier. rewrite (bind_go _ _ _ _ _ (middle_sample_uniform 20 40 ltac:(lra))).
  rewrite (bind_go _ _ _ _ _ (middle_sample_uniform 0.000001 0.0001 ltac:(lra))).
  rewrite (bind_go _ _ _ _ _ (middle_sample_uniform 0.01 100 ltac:(lra))). cbv zeta.
  unfold mbind, lift, barrier_glf, raise_if. cbn [asymmetry]. rewrite Rleb_false by lra. eexists. eexists. reflexivity.
Qed.
Lemma run_scan q compensated : 0 < q <= 1 -> exists s, sample_scan_sensor middle 1 q compensated tt = (Ok s, tt).
Proof.
  intros Q. unfold sample_scan_sensor. rewrite (bind_go _ _ _ _ _ (middle_normal 0.0846429965722433 0.9986776964521298 0 2 ltac:(lra))).
  unfold mbind at 1. destruct (Reqb_spec 0.9986776964521298 0); [lra|]. cbn [ret].
  rewrite (bind_go _ _ _ _ _ (middle_sample_uniform 0.1 0.3 ltac:(lra))).
  rewrite (bind_go _ _ _ _ _ (middle_sample_uniform 0.1 0.3 ltac:(lra))).
  destruct (lever_arms_spec middle middle_ok q compensated tt Q) as (gates & dots & [] & E & _). rewrite (bind_go _ _ _ _ _ E).
  rewrite (bind_go _ _ _ _ _ (middle_sample_uniform (-0.688) (-0.509) ltac:(lra))).
  rewrite (bind_go _ _ _ _ _ (middle_sample_uniform (-0.688) (-0.509) ltac:(lra))).
  match goal with |- context [sample_sensor_function middle 1 ?o q] => destruct (middle_function o q Q) as (ps & rise & F) end.
  rewrite (bind_go _ _ _ _ _ F). unfold sample_barrier.
  match goal with |- context [sample_simple_barrier middle 1 ?o ?h q ?a ?b] => destruct (middle_barrier o h q a b) as (p1 & b1 & F1) end.
  rewrite (bind_go _ _ _ _ _ F1).
  match goal with |- context [sample_simple_barrier middle 1 ?o ?h q ?a ?b] => destruct (middle_barrier o h q a b) as (p2 & b2 & F2) end.
  rewrite (bind_go _ _ _ _ _ F2). eexists. reflexivity.
Qed.
Lemma run_config q compensated : 0 < q <= 1 -> exists c,
  sample_config middle (fun a _ g => (a, g)) 1 (ret tt) ChooseScan q compensated false tt = (Ok (tt, c), tt).
Proof.
  intros Q. unfold sample_config. rewrite (Rltb_true 0 q), (Rleb_true q 1) by lra. cbn [andb].
  unfold mbind at 1 2. cbn [ret]. destruct (run_scan q compensated Q) as (s & E). unfold mbind. rewrite E. eexists. reflexivity.
Qed.
