(** Property theorems about the sensors. *)
From Coq Require Import Permutation.
From Verif Require Import RPrelude Arr ModelSupport SpecSupport ModelCsd ModelDistortions ModelSensor SpecSensor
  ProofsSupport ProofsSensor ProofsScanSensor ProofsLabelScan ProofsSensorMore ExamplesSensor.
Local Open Scope R_scope.

(** C22: after resetting the offset the potential of the first pixel is the target, nothing else of the
    sensor changes, and resetting again changes nothing. *)
Theorem C22_reset_hits_target s csd target l1 l2 a : csd l1 l2 = Ok (Occ1 a) -> (0 < len1 a)%nat ->
  exists s', reset_offset s csd target l1 l2 = Ok s' /\
    gs_peaks s' = gs_peaks s /\ gs_dot s' = gs_dot s /\ gs_gate s' = gs_gate s /\
    affine (gs_offset s') (gs_gate s') (gs_dot s') (fst l1, fst l2) (cell1 a 0) = target /\
    reset_offset s' csd target l1 l2 = Ok s'.
Proof. exact (reset_hits s csd target l1 l2 a). Qed.
Print Assumptions C22_reset_hits_target.

(** For the sensor-scan sensor the function always raises. *)
Theorem C22_reset_scan_sensor_refuted s csd l1 l2 a : csd l1 l2 = Ok (Occ1 a) -> len1 a = 2%nat ->
  reset_offset_scan s csd l1 l2 = Err ValueError.
Proof. exact (reset_scan_fails s csd l1 l2 a). Qed.
Print Assumptions C22_reset_scan_sensor_refuted.

Example C22_example : exists s',
  reset_offset (mk_generic None (-1, -2) (3, 4) 7) (fun _ _ => Ok (Occ1 (mk_arr1 2 (fun _ => (1, 1))))) 5 (1, 2) (10, 10) = Ok s'
  /\ gs_offset s' = -35.
Proof.
  eexists. split; [reflexivity|]. cbn [gs_offset]. unfold volts1. cbn [cell1 len1 gs_dot gs_gate]. rewrite !grid_volt_at by lia. unfold volt_at, dot2. cbn. lra.
Qed.

(** C23: the potential of every pixel is offset + lever-arms . voltages + lever-arms . occupations. *)
Theorem C23_generic_1d s a l1 l2 : (0 < len1 a)%nat ->
  exists im, generic_potential s (Occ1 a) l1 l2 = Ok (Img1 im) /\ len1 im = len1 a /\
  forall i, (i < len1 a)%nat ->
    cell1 im i = affine (gs_offset s) (gs_gate s) (gs_dot s)
                        (volt_at l1 (len1 a) i, volt_at l2 (len1 a) i) (cell1 a i).
Proof. exact (generic_pixel_1d s a l1 l2). Qed.
Print Assumptions C23_generic_1d.
Theorem C23_generic_2d s a l1 l2 : (0 < rows a)%nat -> (0 < cols a)%nat ->
  exists im, generic_potential s (Occ2 a) l1 l2 = Ok (Img2 im) /\ rows im = rows a /\ cols im = cols a /\
  forall i j, (i < rows a)%nat -> (j < cols a)%nat ->
    cell im i j = affine (gs_offset s) (gs_gate s) (gs_dot s)
                         (volt_at l1 (cols a) j, volt_at l2 (rows a) i) (cell a i j).
Proof. exact (generic_pixel_2d s a l1 l2). Qed.
Print Assumptions C23_generic_2d.
(** Cuts along rows, columns and the diagonal of a 2D scan are the 1D scans at these voltages. *)
Theorem C23_cuts s a l1 l2 im : generic_potential s (Occ2 a) l1 l2 = Ok (Img2 im) ->
  (forall i, (i < rows a)%nat -> exists c,
     generic_potential s (Occ1 (mk_arr1 (cols a) (fun j => cell a i j))) l1 (volt_at l2 (rows a) i, volt_at l2 (rows a) i)
       = Ok (Img1 c) /\ eq1 c (mk_arr1 (cols a) (fun j => cell im i j))) /\
  (forall j, (j < cols a)%nat -> exists c,
     generic_potential s (Occ1 (mk_arr1 (rows a) (fun i => cell a i j))) (volt_at l1 (cols a) j, volt_at l1 (cols a) j) l2
       = Ok (Img1 c) /\ eq1 c (mk_arr1 (rows a) (fun i => cell im i j))) /\
  (rows a = cols a -> exists c,
     generic_potential s (Occ1 (mk_arr1 (rows a) (fun i => cell a i i))) l1 l2
       = Ok (Img1 c) /\ eq1 c (mk_arr1 (rows a) (fun i => cell im i i))).
Proof. exact (generic_cuts s a l1 l2 im). Qed.
Print Assumptions C23_cuts.
(** One electron more in dot k moves the potential by lever-arm k. *)
Theorem C23_electron off gate dot v o k : affine off gate dot v (plus_one k o) = affine off gate dot v o + pick k dot.
Proof. exact (affine_electron off gate dot v o k). Qed.
Print Assumptions C23_electron.
(** Scans without pixels and occupations of another dimension are rejected. *)
Theorem C23_empty s l1 l2 :
  (forall a, len1 a = 0%nat -> generic_potential s (Occ1 a) l1 l2 = Err ValueError) /\
  (forall a, rows a = 0%nat \/ cols a = 0%nat -> generic_potential s (Occ2 a) l1 l2 = Err ValueError) /\
  generic_potential s OccOther l1 l2 = Err UnboundLocalError.
Proof.
  split; [|split; [|reflexivity]]; intros a E; cbn [generic_potential].
  - rewrite E. reflexivity.
  - destruct E as [-> | ->]; [|rewrite Bool.orb_true_r]; reflexivity.
Qed.
Print Assumptions C23_empty.
(** The same for the three potentials of the sensor-scan sensor. *)
Theorem C23_scan_1d s a v1 v2 w1 w2 : (0 < len1 a)%nat -> ~ both_swept v1 v2 w1 w2 ->
  exists p h, scan_potential s (Occ1 a) v1 v2 w1 w2 = Ok (Pot1 p, h) /\ len1 p = len1 a /\
  forall i, (i < len1 a)%nat ->
    pot_spec s (cell1 a i) (volt_at (limits_of v1) (len1 a) i, volt_at (limits_of v2) (len1 a) i)
             (volt_at (limits_of w1) (len1 a) i, volt_at (limits_of w2) (len1 a) i) (cell1 p i).
Proof. exact (scan_pixel_1d s a v1 v2 w1 w2). Qed.
Print Assumptions C23_scan_1d.
Theorem C23_scan_2d s a v1 v2 w1 w2 : (0 < rows a)%nat -> (0 < cols a)%nat -> ~ both_swept v1 v2 w1 w2 ->
  exists p h, scan_potential s (Occ2 a) v1 v2 w1 w2 = Ok (Pot2 p, h) /\ rows p = rows a /\ cols p = cols a /\
  forall i j, (i < rows a)%nat -> (j < cols a)%nat ->
    pot_spec s (cell a i j) (volt_at (limits_of v1) (cols a) j, volt_at (limits_of v2) (rows a) i)
             (volt_at (limits_of w1) (cols a) j, volt_at (limits_of w2) (rows a) i) (cell p i j).
Proof. exact (scan_pixel_2d s a v1 v2 w1 w2). Qed.
Print Assumptions C23_scan_2d.
(** Plunger and sensor gates cannot be swept together; other occupation shapes are rejected. *)
Theorem C23_scan_rejected s occ v1 v2 w1 w2 : both_swept v1 v2 w1 w2 \/ occ = OccOther ->
  scan_potential s occ v1 v2 w1 w2 = Err ValueError.
Proof. exact (scan_rejected s occ v1 v2 w1 w2). Qed.
Print Assumptions C23_scan_rejected.

Example C23_example : exists p, scan_potential (demo 1 [at_mu 2] []) occ4 (VFix 0) (VFix 9) (VSweep 0 3) (VSweep 0 0) = Ok (Pot1 p, demo_hidden 9) /\
  at_sensor (cell1 p 3) = 12.
Proof.
  eexists. split; [reflexivity|]. destruct (demo_cell 1 9 3 ltac:(lia)) as (C & _). cbn [pcell demo_pots cell1] in C.
  cbn [cell1 as_limits h_g1 h_g2 h_s1 h_s2]. transitivity (INR 3 + 1 * 9); [exact C|simpl; lra].
Qed.

(** C24: Gaussian and Lorentzian peaks are bell curves with maximum offset + height at mu0; the
    constructor rejects exactly the widths that are not positive. *)
Theorem C24_gauss m sigma h off : 0 < h ->
  (0 < sigma -> exists p, sensor_peak_gaussian m sigma h off = Ok p) /\
  (sigma <= 0 -> sensor_peak_gaussian m sigma h off = Err ValueError) /\
  (forall p, sensor_peak_gaussian m sigma h off = Ok p -> mu0 p = m /\ bell (sensor_function p) m off h).
Proof.
  exact (fun H => conj (gauss_accept m sigma h off) (conj (gauss_reject m sigma h off) (fun p => gauss_shape m sigma h off p H))).
Qed.
Print Assumptions C24_gauss.
Theorem C24_lorentz m gamma h off : 0 < h ->
  (0 < gamma -> exists p, sensor_peak_lorentzian m gamma h off = Ok p) /\
  (gamma <= 0 -> sensor_peak_lorentzian m gamma h off = Err ValueError) /\
  (forall p, sensor_peak_lorentzian m gamma h off = Ok p -> mu0 p = m /\ bell (sensor_function p) m off h).
Proof.
  exact (fun H => conj (lorentz_accept m gamma h off) (conj (lorentz_reject m gamma h off) (fun p => lorentz_shape m gamma h off p H))).
Qed.
Print Assumptions C24_lorentz.

Example C24_example : exists p, sensor_peak_lorentzian 1 2 3 4 = Ok p /\ sensor_function p 1 = 7 /\ sensor_function p 3 = 11 / 2.
Proof.
  unfold sensor_peak_lorentzian. rewrite Rleb_false by lra. eexists. split; [reflexivity|].
  unfold sensor_function, sensor_response_lorentz. simpl. split; field.
Qed.

(** C25: the response is the sum of the peaks and does not depend on their order. *)
Theorem C25_order ps ps' dot gate off mu : Permutation ps ps' ->
  same_response (generic_response (mk_generic (Some ps) dot gate off) mu) (generic_response (mk_generic (Some ps') dot gate off) mu).
Proof. exact (generic_response_perm ps ps' dot gate off mu). Qed.
Print Assumptions C25_order.
Theorem C25_sum ps dot gate off mu : ps <> [] ->
  same_response (generic_response (mk_generic (Some ps) dot gate off) mu)
    (RImage match mu with Img1 a => Img1 (mk_arr1 (len1 a) (fun i => peak_total ps (cell1 a i)))
                        | Img2 a => Img2 (mk_arr2 (rows a) (cols a) (fun i j => peak_total ps (cell a i j))) end).
Proof. exact (generic_response_sum ps dot gate off mu). Qed.
Print Assumptions C25_sum.
Theorem C25_no_peaks dot gate off mu : generic_response (mk_generic None dot gate off) mu = RImage mu.
Proof. exact eq_refl. Qed.
Print Assumptions C25_no_peaks.

Example C25_example : exists a, generic_response
    (mk_generic (Some [mk_peak 1 (fun m x => x - m); mk_peak 2 (fun m x => m * x)]) (0, 0) (0, 0) 0) (Img1 (mk_arr1 1 (fun _ => 5)))
    = RImage (Img1 a) /\ cell1 a 0 = 14.
Proof. eexists. split; [reflexivity|]. simpl. unfold sum_peaks, sensor_function. simpl. lra. Qed.
(** An empty list of peaks: a number instead of an image. *)
Example C25_empty_list mu : generic_response (mk_generic (Some []) (0, 0) (0, 0) 0) mu = RNumber 0.
Proof. reflexivity. Qed.

(** C26: every response is, pixel by pixel, the series combination of a dot response and the two
    barriers, ... *)
Theorem C26_response_is_series s h p im ps h' : scan_response s h p = Ok (im, ps, h') ->
  exists dot, combined s dot p im.
Proof. exact (response_combined s h p im ps h'). Qed.
Print Assumptions C26_response_is_series.
(** ... which is given by one value, lies between 0 and the smallest conductance, grows with each of them,
    is 0 as soon as one is 0 and 1 / (1/s + 1/b1 + 1/b2) otherwise. *)
Theorem C26_series s b1 b2 r : 0 <= s -> 0 <= b1 -> 0 <= b2 -> series_of r s b1 b2 ->
  0 <= r <= Rmin s (Rmin b1 b2) /\ is_series r s b1 b2 /\
  (forall s' b1' b2' r', s <= s' -> b1 <= b1' -> b2 <= b2' -> series_of r' s' b1' b2' -> r <= r').
Proof. exact (series_of_laws s b1 b2 r). Qed.
Print Assumptions C26_series.

Example C26_example : series_of (6 / 11) 1 2 3 /\ series_of 0 0 0 5.
Proof. split; split; cbn; intros; lra. Qed.

(** C27: pinch-off and fully conductive potential are where the configured percentages are reached. *)
Theorem C27_percentages p pinch full b : glf_admissible p -> denominator_offset p = 1 ->
  0 < pinch < 1 -> 0 < full < 1 -> barrier_glf p pinch full = Ok b ->
  percentage_reached p (pinch_off b) pinch /\ percentage_reached p (fully_conductive b) full /\
  (forall x, get_value b x = glf p x) /\
  (0 < growth_rate p -> asymptote_left p < asymptote_right p ->
     (forall x, pinch_off b < x <-> glf p (pinch_off b) < get_value b x) /\
     (forall x, fully_conductive b < x <-> glf p (fully_conductive b) < get_value b x) /\
     (pinch < full -> pinch_off b < fully_conductive b)).
Proof. exact (barrier_exact p pinch full b). Qed.
Print Assumptions C27_percentages.
Theorem C27_rejected p pinch full : asymmetry p <= 0 -> barrier_glf p pinch full = Err ValueError.
Proof. exact (barrier_reject p pinch full). Qed.
Print Assumptions C27_rejected.

Example C27_example : exists b, barrier_glf logistic (1 / 2) (3 / 4) = Ok b /\
  get_value b (pinch_off b) = 1 / 2 /\ get_value b (fully_conductive b) = 3 / 4.
Proof.
  unfold barrier_glf. rewrite Rleb_false by (simpl; lra). eexists. split; [reflexivity|].
  destruct (barrier_exact logistic (1 / 2) (3 / 4) (mk_barrier (glf_percentage logistic (1 / 2)) (glf_percentage logistic (3 / 4)) (glf logistic)) logistic_admissible eq_refl ltac:(lra) ltac:(lra)) as (A & B & _).
  { unfold barrier_glf. rewrite Rleb_false by (simpl; lra). reflexivity. }
  unfold percentage_reached in A, B. cbn [get_value pinch_off fully_conductive] in *.
  assert (M : Rmin (asymptote_left logistic) (asymptote_right logistic) = 0) by (simpl; apply Rmin_left; lra).
  assert (N : Rabs (asymptote_right logistic - asymptote_left logistic) = 1) by (simpl; rewrite Rabs_right; lra).
  rewrite M, N in A, B. split; [rewrite A|rewrite B]; lra.
Qed.

(** C28: the final rise reaches its percentage at the potential offset - mu0, ... *)
Theorem C28_rise_reached r off : glf_admissible (rise_glf r) -> denominator_offset (rise_glf r) = 1 ->
  0 < rise_percentage r < 1 ->
  rise_function r (off - rise_mu0 r) off
  = asymptote_left (rise_glf r) + rise_percentage r * (asymptote_right (rise_glf r) - asymptote_left (rise_glf r)).
Proof. exact (rise_reached r off). Qed.
Print Assumptions C28_rise_reached.
(** ... hence not at the offset unless mu0 = 0. *)
Theorem C28_rise_shift_refuted r off : glf_admissible (rise_glf r) -> denominator_offset (rise_glf r) = 1 ->
  0 < rise_percentage r < 1 -> rise_mu0 r <> 0 ->
  rise_function r off off
  <> asymptote_left (rise_glf r) + rise_percentage r * (asymptote_right (rise_glf r) - asymptote_left (rise_glf r)).
Proof. exact (rise_not_reached r off). Qed.
Print Assumptions C28_rise_shift_refuted.

Example C28_example : rise_function {| rise_glf := logistic; rise_mu0 := 0; rise_percentage := 1 / 2 |} 7 7 = 1 / 2.
Proof.
  pose proof (rise_reached {| rise_glf := logistic; rise_mu0 := 0; rise_percentage := 1 / 2 |} 7 logistic_admissible eq_refl) as H.
  cbn [rise_glf rise_mu0 rise_percentage] in H. rewrite Rminus_0_r in H. rewrite H by lra. simpl. lra.
Qed.
Example C28_counterexample : rise_function {| rise_glf := logistic; rise_mu0 := 3; rise_percentage := 1 / 2 |} 7 7 <> 1 / 2.
Proof.
  pose proof (rise_not_reached {| rise_glf := logistic; rise_mu0 := 3; rise_percentage := 1 / 2 |} 7 logistic_admissible eq_refl) as H.
  cbn [rise_glf rise_mu0 rise_percentage] in H. intros E. apply H; try lra. rewrite E. simpl. lra.
Qed.

(** C29: in a sensor scan the voltages computed for two barrier potentials give these potentials if both
    dots hold equally many electrons (or dot 2 does not couple to barrier 1), ... *)
Theorem C29_point_solves_partial s h pot1 pot2 occ :
  first_occ (h_occ h) = Ok occ -> barrier_det s <> 0 ->
  (snd (row1 (ss_sensor s)) = 0 \/ 1 / 4503599627370496 <= Rabs (snd (row1 (ss_sensor s)))) ->
  (fst occ = snd occ \/ snd (row1 (ss_dot s)) = 0) ->
  exists pt, calc_point s h pot1 pot2 true = Ok pt /\
    forall q, pot_spec s occ (fst (h_g1 h), fst (h_g2 h)) pt q -> at_barrier1 q = pot1 /\ at_barrier2 q = pot2.
Proof. exact (calc_point_solves s h pot1 pot2 occ). Qed.
Print Assumptions C29_point_solves_partial.
(** ... and in general barrier 1 is off by the coupling of dot 2 times the difference of the occupations. *)
Theorem C29_point_error_refuted s h pot1 pot2 occ :
  first_occ (h_occ h) = Ok occ -> barrier_det s <> 0 ->
  (snd (row1 (ss_sensor s)) = 0 \/ 1 / 4503599627370496 <= Rabs (snd (row1 (ss_sensor s)))) ->
  exists pt, calc_point s h pot1 pot2 true = Ok pt /\
    forall q, pot_spec s occ (fst (h_g1 h), fst (h_g2 h)) pt q ->
      at_barrier1 q = pot1 + snd (row1 (ss_dot s)) * (snd occ - fst occ) /\ at_barrier2 q = pot2.
Proof. exact (calc_point_error s h pot1 pot2 occ). Qed.
Print Assumptions C29_point_error_refuted.
(** With swept plunger gates the plunger voltages are left out and the first sensor voltage is counted
    for both sensor gates. *)
Theorem C29_point_csd_refuted s h pot1 pot2 occ :
  first_occ (h_occ h) = Ok occ -> barrier_det s <> 0 ->
  (snd (row1 (ss_sensor s)) = 0 \/ 1 / 4503599627370496 <= Rabs (snd (row1 (ss_sensor s)))) ->
  exists pt, calc_point s h pot1 pot2 false = Ok pt /\
    forall v q, pot_spec s occ v pt q ->
      at_barrier1 q = pot1 + snd (row1 (ss_dot s)) * (snd occ - fst occ)
        + (fst (row1 (ss_gate s)) * fst v + snd (row1 (ss_gate s)) * snd v)
        - (fst (row1 (ss_sensor s)) + snd (row1 (ss_sensor s))) * fst (h_s1 h) /\
      at_barrier2 q = pot2
        + (fst (row2 (ss_gate s)) * fst v + snd (row2 (ss_gate s)) * snd v)
        - (fst (row2 (ss_sensor s)) + snd (row2 (ss_sensor s))) * fst (h_s1 h).
Proof. exact (calc_point_csd_error s h pot1 pot2 occ). Qed.
Print Assumptions C29_point_csd_refuted.

Example C29_example : calc_point (demo 0 [] []) (demo_hidden 0) 20 20 true = Ok (10, 10).
Proof. exact (demo_point 0 [] [] 0). Qed.
Example C29_example_hypotheses : first_occ (h_occ (demo_hidden 0)) = Ok (0, 0) /\ barrier_det (demo 0 [] []) <> 0.
Proof. split; [reflexivity|]. unfold barrier_det. simpl. lra. Qed.

(** C30: both masks have the shape of the scan; the conductive mask contains 0, 1 or 2; Coulomb labels
    only appear where it is 1, belong to a configured peak, and appear at most once per row. *)
Theorem C30_masks s h v1 v2 w1 w2 p L h1 : pot_nonempty p ->
  get_sensor_scan_labels s h v1 v2 w1 w2 p = Ok (L, h1) ->
  has_shape (conductive L) p /\ has_shape (coulomb L) p /\
  (forall i j, (i < nrows p)%nat -> (j < ncols p)%nat ->
     (at_ 0%nat (conductive L) i j <= 2)%nat /\
     (at_ 0%nat (coulomb L) i j <> 0%nat -> at_ 0%nat (conductive L) i j = 1%nat)) /\
  (forall i j k, (i < nrows p)%nat -> (j < ncols p)%nat -> labelled L i j k ->
     exists ps pk, ss_peaks s = Some ps /\ nth_error ps k = Some pk) /\
  (forall i j j' k, (i < nrows p)%nat -> (j < ncols p)%nat -> (j' < ncols p)%nat ->
     labelled L i j k -> labelled L i j' k -> j = j').
Proof. exact (labels_masks s h v1 v2 w1 w2 p L h1). Qed.
Print Assumptions C30_masks.
(** Labels are always produced for fixed plunger gates, swept sensor gates and configured peaks, and
    never otherwise. *)
Theorem C30_total s h v1 v2 w1 w2 p ps occ : pot_nonempty p -> ~ swept v1 -> ~ swept v2 -> swept w1 -> swept w2 ->
  first_occ (h_occ h) = Ok occ -> ss_peaks s = Some ps ->
  exists L h', get_sensor_scan_labels s h v1 v2 w1 w2 p = Ok (L, h').
Proof. exact (labels_total s h v1 v2 w1 w2 p ps occ). Qed.
Print Assumptions C30_total.
Theorem C30_rejected s h v1 v2 w1 w2 p occ : first_occ (h_occ h) = Ok occ ->
  (swept v1 \/ swept v2 -> get_sensor_scan_labels s h v1 v2 w1 w2 p = Err ValueError) /\
  (~ swept v1 -> ~ swept v2 -> ~ swept w1 \/ ~ swept w2 \/ ss_peaks s = None ->
     get_sensor_scan_labels s h v1 v2 w1 w2 p = Err TypeError).
Proof. exact (fun Ho => conj (labels_swept_plunger s h v1 v2 w1 w2 p occ Ho) (labels_fixed_sensor s h v1 v2 w1 w2 p occ Ho)). Qed.
Print Assumptions C30_rejected.
(** Without deformations: a labelled pixel is the nearest one of its row to the peak (and not at the edge,
    or closer than the mean step), of several such peaks the lowest; every peak whose nearest pixel is
    in the oscillating area leaves a label there. *)
Theorem C30_positions s h v1 v2 w1 w2 p L h1 ps : pot_nonempty p -> ss_deform s = [] -> ss_peaks s = Some ps ->
  get_sensor_scan_labels s h v1 v2 w1 w2 p = Ok (L, h1) ->
  forall i j, (i < nrows p)%nat -> (j < ncols p)%nat ->
  (forall k, labelled L i j k -> exists pk, nth_error ps k = Some pk /\ marks (mean_step p) (sensor_row p i) (mu0 pk) j /\
     forall k' pk', nth_error ps k' = Some pk' -> marks (mean_step p) (sensor_row p i) (mu0 pk') j -> mu0 pk <= mu0 pk') /\
  (at_ 0%nat (conductive L) i j = 1%nat -> forall k pk, nth_error ps k = Some pk ->
     marks (mean_step p) (sensor_row p i) (mu0 pk) j -> exists k', labelled L i j k').
Proof. exact (labels_plain s h v1 v2 w1 w2 p L h1 ps). Qed.
Print Assumptions C30_positions.

Example C30_example : exists L h',
  get_sensor_scan_labels (demo 0 [at_mu 2; at_mu 1] []) (demo_hidden 0) (VFix 0) (VFix 0) (VSweep 0 3) (VSweep 0 0) (demo_pots 0 0) = Ok (L, h') /\
  labelled L 0 1 1 /\ labelled L 0 2 0.
Proof. exact unsorted_labels. Qed.

(** C31: if the peaks were given in ascending order, labels in a row ascend with the potential, ... *)
Theorem C31_ascending_partial s h v1 v2 w1 w2 p L h1 ps i j j' k k' : pot_nonempty p -> ss_deform s = [] -> ss_peaks s = Some ps ->
  sorted_peaks ps -> get_sensor_scan_labels s h v1 v2 w1 w2 p = Ok (L, h1) ->
  (i < nrows p)%nat -> (j < ncols p)%nat -> (j' < ncols p)%nat ->
  labelled L i j k -> labelled L i j' k' -> ((k < k')%nat <-> sensor_at p i j < sensor_at p i j').
Proof. exact (labels_ascending s h v1 v2 w1 w2 p L h1 ps i j j' k k'). Qed.
Print Assumptions C31_ascending_partial.
(** ... for any order the peak with the larger mu0 is labelled at the larger potential, ... *)
Theorem C31_peaks_in_order s h v1 v2 w1 w2 p L h1 ps i j j' k k' pk pk' : pot_nonempty p -> ss_deform s = [] -> ss_peaks s = Some ps ->
  get_sensor_scan_labels s h v1 v2 w1 w2 p = Ok (L, h1) ->
  (i < nrows p)%nat -> (j < ncols p)%nat -> (j' < ncols p)%nat ->
  labelled L i j k -> labelled L i j' k' -> nth_error ps k = Some pk -> nth_error ps k' = Some pk' ->
  j <> j' -> mu0 pk < mu0 pk' -> sensor_at p i j < sensor_at p i j'.
Proof. exact (labels_order s h v1 v2 w1 w2 p L h1 ps i j j' k k' pk pk'). Qed.
Print Assumptions C31_peaks_in_order.
Example C31_example : exists L h',
  get_sensor_scan_labels (demo 0 [at_mu 1; at_mu 2] []) (demo_hidden 0) (VFix 0) (VFix 0) (VSweep 0 3) (VSweep 0 0) (demo_pots 0 0) = Ok (L, h') /\
  labelled L 0 1 0 /\ labelled L 0 2 1 /\ sensor_at (demo_pots 0 0) 0 1 < sensor_at (demo_pots 0 0) 0 2.
Proof.
  destruct (demo_labels 0 [at_mu 1; at_mu 2] [] 0) as (L & h' & H). exists L, h'. split; [exact H|].
  assert (G : forall j, (j = 1 \/ j = 2)%nat -> exists k, labelled L 0 j k /\ exists pk, nth_error [at_mu 1; at_mu 2] k = Some pk /\
     marks (mean_step (demo_pots 0 0)) (sensor_row (demo_pots 0 0) 0) (mu0 pk) j).
  { intros j Hj. destruct (C30_positions (demo 0 [at_mu 1; at_mu 2] []) (demo_hidden 0) (VFix 0) (VFix 0) (VSweep 0 3) (VSweep 0 0) (demo_pots 0 0) L h' [at_mu 1; at_mu 2] (demo_nonempty 0 0) eq_refl eq_refl H 0 j ltac:(simpl; lia) ltac:(simpl; lia)) as [A B].
    assert (Hj4 : (j < 4)%nat) by lia.
    assert (C : at_ 0%nat (conductive L) 0 j = 1%nat).
    { rewrite (demo_area _ _ _ _ _ _ j Hj4 H). rewrite Rltb_false; [reflexivity|]. destruct Hj as [->| ->]; simpl; lra. }
    destruct (B C (j - 1)%nat (at_mu (INR j))) as (k & Hk).
    - destruct Hj as [->| ->]; reflexivity.
    - apply demo_marks; auto.
    - exists k. split; [exact Hk|]. destruct (A k Hk) as (pk & E & M & _). eauto. }
  assert (U : forall pk m j, pk = at_mu m -> (m = 1 \/ m = 2) -> marks (mean_step (demo_pots 0 0)) (sensor_row (demo_pots 0 0) 0) (mu0 pk) j -> INR j = m).
  { intros pk m j -> [->| ->] M; simpl mu0 in M.
    - change 1 with (INR 1) in M. apply demo_marks in M; [|lia|lia]. subst j. reflexivity.
    - replace 2 with (INR 2) in M by (simpl; lra). apply demo_marks in M; [|lia|lia]. subst j. simpl. lra. }
  split; [|split; [|exact demo_ascends]].
  - destruct (G 1%nat) as (k & Hk & pk & E & M); [auto|]. destruct k as [|[|[|k]]]; simpl in E; try discriminate; [exact Hk|].
    exfalso. injection E as <-. apply (U (at_mu 2) 2) in M; auto. simpl in M. lra.
  - destruct (G 2%nat) as (k & Hk & pk & E & M); [auto|]. destruct k as [|[|[|k]]]; simpl in E; try discriminate; [|exact Hk].
    exfalso. injection E as <-. apply (U (at_mu 1) 1) in M; auto. simpl in M. lra.
Qed.
(** ... but for unsorted peaks the larger potential can carry the smaller label. *)
Theorem C31_unsorted_refuted : exists s h p L h' j j' k k', ss_deform s = [] /\
  get_sensor_scan_labels s h (VFix 0) (VFix 0) (VSweep 0 3) (VSweep 0 0) p = Ok (L, h') /\
  labelled L 0 j k /\ labelled L 0 j' k' /\ sensor_at p 0 j < sensor_at p 0 j' /\ (k' < k)%nat.
Proof. exact unsorted_descends. Qed.
Print Assumptions C31_unsorted_refuted.

(** C32: deformations vanish on the middle line; linear is odd and affine, circular even. *)
Theorem C32_linear a angle d d' m : tan angle <> 0 ->
  linear_calc_mu a angle 0 m = m /\
  linear_calc_mu a angle (- d) m - m = - (linear_calc_mu a angle d m - m) /\
  linear_calc_mu a angle d m - linear_calc_mu a angle d' m = arm_length a / tan angle * (d - d') /\
  continuous_everywhere (fun d => linear_calc_mu a angle d m).
Proof. exact (fun _ => linear_all a angle d d' m). Qed.
Print Assumptions C32_linear.
Theorem C32_circle a radius d m : 0 < arm_length a -> radius <> 0 ->
  circle_calc_mu a radius 0 m = m /\ circle_calc_mu a radius (- d) m = circle_calc_mu a radius d m /\
  (0 < radius -> continuous_everywhere (fun d => circle_calc_mu a radius d m)).
Proof. exact (circle_all a radius d m). Qed.
Print Assumptions C32_circle.
(** With a negative radius the peak jumps by twice the radius to the other side. *)
Theorem C32_circle_negative_radius_refuted a radius m : 0 < arm_length a -> radius < 0 ->
  let rv := - radius / arm_length a in
  circle_calc_mu a radius rv m = m + rv /\
  (forall d, rv < d -> circle_calc_mu a radius d m = m - rv) /\
  ~ continuity_pt (fun d => circle_calc_mu a radius d m) rv.
Proof. exact (circle_jump a radius m). Qed.
Print Assumptions C32_circle_negative_radius_refuted.

Example C32_example : circle_calc_mu (3, 4) (-10) 2 0 = 2 /\ circle_calc_mu (3, 4) (-10) (21 / 10) 0 = -2.
Proof.
  destruct (circle_jump (3, 4) (-10) 0) as (A & B & _); [rewrite norm2_34; lra|lra|]. rewrite norm2_34 in A, B.
  replace (- -10 / 5) with 2 in A, B by field. rewrite A, B by lra. lra.
Qed.

(** C33: a second evaluation gives the same response in sensor scans and without final rise, ... *)
Theorem C33_repeat_partial s h p im ps h' : pot_nonempty p -> repeatable s h ->
  scan_response s h p = Ok (im, ps, h') ->
  exists h'', scan_response s h' p = Ok (im, ps, h'').
Proof. exact (response_repeat s h p im ps h'). Qed.
Print Assumptions C33_repeat_partial.
(** ... but not in a charge stability diagram with final rise. *)
Theorem C33_repeat_refuted : exists s occ v w p h im h1 im2 h2 x y,
  scan_potential s occ v v w w = Ok (p, h) /\
  scan_response s h p = Ok (im, ss_peaks s, h1) /\ scan_response s h1 p = Ok (im2, ss_peaks s, h2) /\
  img_pix im 0 0 x /\ img_pix im2 0 0 y /\ y < x.
Proof. exact rising_differs. Qed.
Print Assumptions C33_repeat_refuted.

Example C33_values : exists p h im h1 im2 h2,
  scan_potential rising (Occ1 (mk_arr1 2 (fun _ => (0, 0)))) (VSweep 1 2) (VSweep 1 2) (VFix 0) (VFix 0) = Ok (p, h) /\
  scan_response rising h p = Ok (im, Some [], h1) /\ scan_response rising h1 p = Ok (im2, Some [], h2) /\
  img_pix im 0 0 (10 / 21) /\ img_pix im2 0 0 (8 / 17).
Proof. exact rising_twice. Qed.

(** C34: the peak list of the sensor is the same before and after. *)
Theorem C34_peaks_restored s h p im ps h' : scan_response s h p = Ok (im, ps, h') -> ps = ss_peaks s.
Proof. exact (scan_response_peaks s h p im ps h'). Qed.
Print Assumptions C34_peaks_restored.
(** Also in the loop over the peaks at one pixel, wherever the deformation moves them. *)
Theorem C34_loop deform dist mu idx ps sum : snd (peak_loop deform dist mu idx ps sum) = ps.
Proof. exact (peak_loop_restores deform dist mu idx ps sum). Qed.
Print Assumptions C34_loop.

Example C34_example : peak_loop [(0%nat, fun d m => m + d)] 5 7 0 [mk_peak 1 (fun m x => m * x)] 0 = (0 + 6 * 7, [mk_peak 1 (fun m x => m * x)]).
Proof. simpl. unfold sensor_function. simpl. replace (1 + 5) with 6 by ring. reflexivity. Qed.

(** C68: the linear deformation is the straight line under its angle; the circular one is the circle with
    the given radius (in potential units, through mu0) if the lever-arms have norm 1, ... *)
Theorem C68_linear_line a angle d m : 0 < arm_length a -> tan angle <> 0 ->
  (linear_calc_mu a angle d m - m) / arm_length a = d / tan angle.
Proof. exact (fun H _ => linear_is_line a angle d m H). Qed.
Print Assumptions C68_linear_line.
Theorem C68_circle_partial a radius d m : arm_length a = 1 -> radius <> 0 -> Rabs d <= Rabs radius ->
  d ^ 2 + (circle_calc_mu a radius d m - (m - radius)) ^ 2 = radius ^ 2 /\
  (0 < radius -> m - radius <= circle_calc_mu a radius d m <= m) /\
  (radius < 0 -> m <= circle_calc_mu a radius d m <= m - radius).
Proof. exact (circle_is_circle a radius d m). Qed.
Print Assumptions C68_circle_partial.
(** ... and at its widest point only then. *)
Theorem C68_circle_refuted a radius m : 0 < arm_length a -> 0 < radius ->
  let d := radius / arm_length a in
  (arm_length a * d) ^ 2 + (circle_calc_mu a radius d m - (m - radius)) ^ 2 = radius ^ 2 <-> arm_length a = 1.
Proof. exact (circle_not_circle a radius m). Qed.
Print Assumptions C68_circle_refuted.

Example C68_example : circle_calc_mu (3, 4) 10 2 0 = -2.
Proof. rewrite circle_widest; rewrite ?norm2_34; try lra. rewrite Rabs_right; lra. Qed.

(** C69: three areas, with the potential at the fully conductive point as threshold; it is the right one
    for equal plunger voltages (or if plunger gate 2 does not act on the sensor dot), ... *)
Theorem C69_areas_partial s occ v1 v2 w1 w2 p h L h' : scan_potential s occ v1 v2 w1 w2 = Ok (p, h) ->
  get_sensor_scan_labels s h v1 v2 w1 w2 p = Ok (L, h') ->
  fst (limits_of v1) = fst (limits_of v2) \/ snd (row0 (ss_gate s)) = 0 ->
  exists o pt q, first_occ occ = Ok o /\
    calc_point s h (fully_conductive (ss_barrier1 s)) (fully_conductive (ss_barrier2 s)) true = Ok pt /\
    pot_spec s o (fst (limits_of v1), fst (limits_of v2)) pt q /\
    forall i j, (i < nrows p)%nat -> (j < ncols p)%nat ->
      area_of s (at_sensor q) (pcell p i j) (at_ 0%nat (conductive L) i j).
Proof. exact (labels_threshold s occ v1 v2 w1 w2 p h L h'). Qed.
Print Assumptions C69_areas_partial.
(** ... in general it is the potential for the voltage of plunger gate 1 on both plunger gates. *)
Theorem C69_threshold s h v1 v2 w1 w2 p L h1 : pot_nonempty p ->
  get_sensor_scan_labels s h v1 v2 w1 w2 p = Ok (L, h1) ->
  exists occ pt q, first_occ (h_occ h) = Ok occ /\
    calc_point s h (fully_conductive (ss_barrier1 s)) (fully_conductive (ss_barrier2 s)) true = Ok pt /\
    pot_spec s occ (fst (limits_of v1), fst (limits_of v1)) pt q /\
    forall i j, (i < nrows p)%nat -> (j < ncols p)%nat ->
      area_of s (at_sensor q) (pcell p i j) (at_ 0%nat (conductive L) i j).
Proof. exact (labels_areas s h v1 v2 w1 w2 p L h1). Qed.
Print Assumptions C69_threshold.
(** A pixel below the fully conductive point that is labelled fully conductive. *)
Theorem C69_threshold_refuted : exists s p h L h' v2 o pt q,
  scan_potential s occ4 (VFix 0) (VFix v2) (VSweep 0 3) (VSweep 0 0) = Ok (p, h) /\
  get_sensor_scan_labels s h (VFix 0) (VFix v2) (VSweep 0 3) (VSweep 0 0) p = Ok (L, h') /\
  first_occ occ4 = Ok o /\ pot_spec s o (0, v2) pt q /\
  at_barrier1 q = fully_conductive (ss_barrier1 s) /\ at_barrier2 q = fully_conductive (ss_barrier2 s) /\
  at_sensor (pcell p 0 3) < at_sensor q /\ at_ 0%nat (conductive L) 0 3 = 2%nat.
Proof. exact threshold_witness. Qed.
Print Assumptions C69_threshold_refuted.

Example C69_example L h' : get_sensor_scan_labels (demo 0 [at_mu 2; at_mu 1] []) (demo_hidden 0) (VFix 0) (VFix 0) (VSweep 0 3) (VSweep 0 0) (demo_pots 0 0) = Ok (L, h') ->
  at_ 0%nat (conductive L) 0 2 = 1%nat.
Proof. intros H. rewrite (demo_area _ _ _ _ _ _ 2 ltac:(lia) H). rewrite Rltb_false; [reflexivity|simpl; lra]. Qed.

(** C70: in a sensor scan with deformations each peak is evaluated at its deformed position, where the
    distance is measured from the line through the point where both barriers pinch off, ... *)
Theorem C70_deformed_response s h p ps : ss_deform s <> [] -> fixed (h_g1 h) -> fixed (h_g2 h) -> pot_two p ->
  ss_peaks s = Some ps -> 0 < fst (row0 (ss_sensor s)) -> (exists occ, first_occ (h_occ h) = Ok occ) ->
  exists mid im, calc_point s h (pinch_off (ss_barrier1 s)) (pinch_off (ss_barrier2 s)) true = Ok mid /\
    scan_response s h p = Ok (im, Some ps, h) /\
    combined s (shown_total s mid (h_s1 h) (h_s2 h) p ps) p im.
Proof. exact (response_deformed_shown s h p ps). Qed.
Print Assumptions C70_deformed_response.
(** ... without deformations at its mu0, ... *)
Theorem C70_plain_response s h p : undeformed s h -> ss_rise s = None -> pot_nonempty p ->
  exists im, scan_response s h p = Ok (im, ss_peaks s, h) /\
    combined s (fun i j => base_dot s (at_sensor (pcell p i j))) p im.
Proof. exact (scan_response_plain s h p). Qed.
Print Assumptions C70_plain_response.
(** ... with a final rise (no deformations) the larger of peaks and rise counts, the rise being shifted to
    the potential at the fully conductive point. *)
Theorem C70_rise_response s h p rise occ : undeformed s h -> ss_rise s = Some rise -> pot_nonempty p ->
  first_occ (h_occ h) = Ok occ ->
  exists pt q im h', calc_point s h (fully_conductive (ss_barrier1 s)) (fully_conductive (ss_barrier2 s)) (sensor_is_swept h) = Ok pt /\
    pot_spec s occ (fst (h_g1 h), fst (h_g2 h)) pt q /\ scan_response s h p = Ok (im, ss_peaks s, h') /\
    combined s (fun i j => Rmax (base_dot s (at_sensor (pcell p i j))) (rise (at_sensor (pcell p i j)) (at_sensor q))) p im.
Proof. exact (response_rise_shown s h p rise occ). Qed.
Print Assumptions C70_rise_response.
(** A deformed scan with a single pixel along an axis raises. *)
Theorem C70_single_pixel_refuted s h p mid : ss_deform s <> [] -> fixed (h_g1 h) -> fixed (h_g2 h) ->
  pot_nonempty p -> ~ pot_two p ->
  calc_point s h (pinch_off (ss_barrier1 s)) (pinch_off (ss_barrier2 s)) true = Ok mid ->
  scan_response s h p = Err ZeroDivisionError.
Proof. exact (scan_response_deformed_single s h p mid). Qed.
Print Assumptions C70_single_pixel_refuted.

Example C70_example : exists mid im, scan_response (demo 0 [at_mu 2] [(0%nat, fun d m => m + d)]) (demo_hidden 0) (demo_pots 0 0) = Ok (im, Some [at_mu 2], demo_hidden 0) /\
  combined (demo 0 [at_mu 2] [(0%nat, fun d m => m + d)]) (shown_total (demo 0 [at_mu 2] [(0%nat, fun d m => m + d)]) mid (0, 3) (0, 0) (demo_pots 0 0) [at_mu 2]) (demo_pots 0 0) im.
Proof.
  destruct (response_deformed_shown (demo 0 [at_mu 2] [(0%nat, fun d m => m + d)]) (demo_hidden 0) (demo_pots 0 0) [at_mu 2]) as (mid & im & _ & E & C);
    try reflexivity; try discriminate; simpl; try lia; try lra; eauto.
  exists (0, 0). reflexivity.
Qed.

(** C71: for peaks in ascending order and equal plunger voltages the labels of a deformed scan are at the
    positions where the response shows the peaks, ... *)
Theorem C71_labels_match_response_partial s occ v1 v2 w1 w2 p h ps : scan_potential s occ v1 v2 w1 w2 = Ok (p, h) ->
  pot_two p -> ss_deform s <> [] -> ss_peaks s = Some ps -> sorted_peaks ps -> 0 < fst (row0 (ss_sensor s)) ->
  ~ swept v1 -> ~ swept v2 -> swept w1 -> swept w2 -> fst (limits_of v1) = fst (limits_of v2) ->
  exists mid im L h', scan_response s h p = Ok (im, Some ps, h) /\
    get_sensor_scan_labels s h v1 v2 w1 w2 p = Ok (L, h') /\
    combined s (shown_total s mid (limits_of w1) (limits_of w2) p ps) p im /\
    forall i j, (i < nrows p)%nat -> (j < ncols p)%nat ->
    let position k pk c := shown_peak s mid (limits_of w1) (limits_of w2) p i c k pk in
    (forall k, labelled L i j k -> exists pk, nth_error ps k = Some pk /\ marks_at p (position k pk) i j) /\
    (at_ 0%nat (conductive L) i j = 1%nat -> forall k pk, nth_error ps k = Some pk ->
       marks_at p (position k pk) i j -> exists k', labelled L i j k').
Proof. exact (labels_match s occ v1 v2 w1 w2 p h ps). Qed.
Print Assumptions C71_labels_match_response_partial.
(** ... but with unsorted peaks the deformation of one peak is applied to the labels of another: peak 1
    is at potential 1 (pixel 1), its label at pixel 2. *)
Theorem C71_unsorted_refuted : exists s p h L h' ps pk, ss_peaks s = Some ps /\ nth_error ps 1 = Some pk /\
  get_sensor_scan_labels s h (VFix 0) (VFix 0) (VSweep 0 3) (VSweep 0 0) p = Ok (L, h') /\
  (forall mid c, shown_peak s mid (0, 3) (0, 0) p 0 c 1 pk = sensor_at p 0 1) /\
  at_ 0%nat (conductive L) 0 1 = 1%nat /\ at_ 0%nat (coulomb L) 0 1 = 0%nat /\
  labelled L 0 2 1 /\ sensor_at p 0 1 < sensor_at p 0 2.
Proof. exact unsorted_witness. Qed.
Print Assumptions C71_unsorted_refuted.

Example C71_hypotheses : sorted_peaks [at_mu 1; at_mu 2] /\ 0 < fst (row0 (ss_sensor (demo 0 [] []))) /\ pot_two (demo_pots 0 0).
Proof.
  split; [|split; simpl; [lra|lia]]. intros i j p q H E F. destruct i as [|[|i]], j as [|[|j]]; simpl in *; try discriminate; try lia;
  try (destruct j; discriminate); try (destruct i; discriminate). injection E as <-. injection F as <-. simpl. lra.
Qed.

(** C72: lever-arms: a pair is used for all three potentials, None is no coupling, anything that is
    neither a pair nor three pairs is rejected; sensor gates need all three. *)
Theorem C72_alpha arg r : set_alpha arg = Ok r <->
  (exists a, arg = AlphaPair a /\ row0 r = a /\ row1 r = a /\ row2 r = a) \/ arg = AlphaRows r \/
  (arg = AlphaNone /\ row0 r = (0, 0) /\ row1 r = (0, 0) /\ row2 r = (0, 0)).
Proof. exact (set_alpha_spec arg r). Qed.
Print Assumptions C72_alpha.
Theorem C72_alpha_sensor arg r : set_alpha_sensor arg = Ok r <-> arg = AlphaRows r.
Proof. exact (set_alpha_sensor_spec arg r). Qed.
Print Assumptions C72_alpha_sensor.

Example C72_example : set_alpha (AlphaPair (1, 2)) = Ok (mk_rows3 (1, 2) (1, 2) (1, 2)) /\ set_alpha AlphaOther = Err ValueError.
Proof. split; reflexivity. Qed.

(** C76: a measurement of labels changes what the next response sees: afterwards the remembered voltages
    of both plunger gates are the first one's and the remembered scan is a single point. *)
Theorem C76_labels_overwrite_state s h v1 v2 w1 w2 p L h1 occ : pot_nonempty p -> first_occ (h_occ h) = Ok occ ->
  get_sensor_scan_labels s h v1 v2 w1 w2 p = Ok (L, h1) ->
  exists pt, calc_point s h (fully_conductive (ss_barrier1 s)) (fully_conductive (ss_barrier2 s)) true = Ok pt /\
    (exists a, h_occ h1 = Occ1 a /\ len1 a = 1%nat /\ cell1 a 0 = occ) /\
    h_g1 h1 = (fst (limits_of v1), fst (limits_of v1)) /\ h_g2 h1 = (fst (limits_of v1), fst (limits_of v1)) /\
    h_s1 h1 = (fst pt, fst pt) /\ h_s2 h1 = (snd pt, snd pt).
Proof. exact (labels_hidden_point s h v1 v2 w1 w2 p L h1 occ). Qed.
Print Assumptions C76_labels_overwrite_state.

Example C76_example : exists L h1,
  get_sensor_scan_labels (demo 0 [at_mu 2; at_mu 1] []) (demo_hidden 9) (VFix 0) (VFix 9) (VSweep 0 3) (VSweep 0 0) (demo_pots 0 0) = Ok (L, h1) /\
  fst (h_g2 (demo_hidden 9)) = 9 /\ h_g2 h1 = (0, 0).
Proof.
  edestruct (C30_total (demo 0 [at_mu 2; at_mu 1] []) (demo_hidden 9) (VFix 0) (VFix 9) (VSweep 0 3) (VSweep 0 0) (demo_pots 0 0)) as (L & h1 & E).
  1: exact (demo_nonempty 0 0).
  1,2: intros (? & ? & ?); discriminate.
  1,2: do 2 eexists; reflexivity.
  1,2: reflexivity.
  exists L, h1. split; [exact E|]. split; [reflexivity|].
  destruct (C76_labels_overwrite_state _ (demo_hidden 9) _ _ _ _ _ _ _ (0, 0) (demo_nonempty 0 0) eq_refl E) as (pt & _ & _ & _ & G & _). exact G.
Qed.

(** C73: a multi-GLF barrier accepts exactly complete parameter tuples and returns the sum of their
    curves. *)
Theorem C73_barrier pinch full ps :
  (forall gs, ps = flat_map glf_tuple gs -> exists b, barrier_multi_glf pinch full ps = Ok b /\
     pinch_off b = pinch /\ fully_conductive b = full /\ forall x, get_value b x = glf_total gs x) /\
  ((forall gs, ps <> flat_map glf_tuple gs) -> barrier_multi_glf pinch full ps = Err ValueError).
Proof. exact (barrier_multi_spec pinch full ps). Qed.
Print Assumptions C73_barrier.

Example C73_barrier_example : exists b, barrier_multi_glf 1 2 (flat_map glf_tuple [logistic]) = Ok b /\ get_value b 0 = glf logistic 0 + 0.
Proof.
  destruct (barrier_multi_spec 1 2 (flat_map glf_tuple [logistic])) as [H _].
  destruct (H [logistic] eq_refl) as (b & E & _ & _ & V). exists b. split; [exact E|]. rewrite V. reflexivity.
Qed.
