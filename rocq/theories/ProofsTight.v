(** Proofs about refused arguments and the peaks of the default sensor for sensor scans. *)
From Verif Require Import RPrelude Arr ModelSupport ModelTct ModelCsd ModelSensor ModelDistortions ModelSimulation ModelScanNoise SpecSimulation ProofsSimulation ProofsCoulomb2.
Local Open Scope R_scope.

(** ** Telegraph noise with two scales *)
Lemma two_scales_refused {G} normal (geometric1 : R -> G -> nat * G) im sb sq std height g :
  (exists e, random_telegraph_noise_two_scales normal geometric1 im sb sq std height g = Err e) <-> sb <> 0 /\ (sb < 1 \/ sq < 1).
Proof.
  unfold random_telegraph_noise_two_scales. destruct (Reqb_spec sb 0) as [E|E].
  - split; [intros [e H]; discriminate|tauto].
  - destruct (Rltb_spec sq 1) as [A|A], (Rltb_spec sb 1) as [B|B]; cbn [orb].
    1-3: split; [intros _; split; [exact E|lra]|intros _; eexists; reflexivity].
    destruct (two_scales_loop _ _ _ _ _ _ _ _ _ _ _) as [noise g1]. split; [intros [e H]; discriminate|lra].
Qed.
Lemma two_scales_error {G} normal (geometric1 : R -> G -> nat * G) im sb sq std height g e :
  random_telegraph_noise_two_scales normal geometric1 im sb sq std height g = Err e -> e = ValueError.
Proof.
  unfold random_telegraph_noise_two_scales. destruct (Reqb sb 0); [discriminate|]. destruct (_ || _)%bool; [congruence|].
  destruct (two_scales_loop _ _ _ _ _ _ _ _ _ _ _) as [noise g1]. discriminate.
Qed.
Lemma two_scales_off {G} normal (geometric1 : R -> G -> nat * G) im sq std height g :
  random_telegraph_noise_two_scales normal geometric1 im 0 sq std height g = Ok (im, g).
Proof. unfold random_telegraph_noise_two_scales. destruct (Reqb_spec 0 0); [reflexivity|lra]. Qed.

(** ** Lever arms *)
Lemma alpha_refused arg e : (set_alpha arg = Err e <-> arg = AlphaOther /\ e = ValueError) /\
  (set_alpha_sensor arg = Err e <-> (arg = AlphaNone \/ arg = AlphaOther \/ exists a, arg = AlphaPair a) /\ e = ValueError).
Proof.
  destruct arg as [|a|r|]; cbn; (split; split); intros H; try discriminate; try (let A := fresh in pose proof (proj1 H) as A; discriminate A).
  - injection H as <-. auto.
  - destruct H as [_ ->]. reflexivity.
  - injection H as <-. eauto 6.
  - destruct H as [_ ->]. reflexivity.
  - destruct H as [[H|[H|[a H]]] _]; discriminate.
  - injection H as <-. auto.
  - destruct H as [_ ->]. reflexivity.
  - injection H as <-. auto.
  - destruct H as [_ ->]. reflexivity.
Qed.

(** ** Resolutions of sensor scans *)
Section Scan.
Context {W L I K : Type}.
Implicit Type c : config W L I K.
Lemma scan_no_entries c s1 s2 v1 v2 w : valid_scan c s1 s2 v1 v2 (ResArray []) -> ~ knows_occupation c v1 v2 ->
  measure_sensor_scan c s1 s2 v1 v2 (ResArray []) w = (Err IndexError, w).
Proof.
  intros V N. unfold measure_sensor_scan. destruct (check_sensor_scan _ _ _ _ _ _) as [[l1 l2]|e] eqn:Ec.
  2:{ apply check_scan_err in Ec. destruct Ec; contradiction. }
  unfold mbind at 1. rewrite unknown_occupations by exact N. reflexivity.
Qed.
Lemma scan_negative c s1 s2 v1 v2 n w : valid_scan c s1 s2 v1 v2 (ResInt n) -> ~ knows_occupation c v1 v2 -> (n < 0)%Z ->
  measure_sensor_scan c s1 s2 v1 v2 (ResInt n) w = (Err ValueError, w).
Proof.
  intros V N Hn. unfold measure_sensor_scan. destruct (check_sensor_scan _ _ _ _ _ _) as [[l1 l2]|e] eqn:Ec.
  2:{ apply check_scan_err in Ec. destruct Ec; contradiction. }
  unfold mbind at 1. rewrite unknown_occupations by exact N. unfold full1, raise_if. apply Z.ltb_lt in Hn. rewrite Hn. reflexivity.
Qed.
Lemma scan_known c s1 s2 x1 x2 l gen r w w' a : valid_scan c s1 s2 (Some x1) (Some x2) (ResArray l) -> ideal_csd_config c = Some gen ->
  gen (x1, x1) (x2, x2) (ResInt 1) w = (Ok r, w') -> fst r = Occ1 a -> (0 < len1 a)%nat ->
  (l = [] -> measure_sensor_scan c s1 s2 (Some x1) (Some x2) (ResArray l) w = (Err IndexError, w')) /\
  (forall n, l = [n] -> (n < 0)%Z -> measure_sensor_scan c s1 s2 (Some x1) (Some x2) (ResArray l) w = (Err ValueError, w')).
Proof.
  intros V Eg H Ea Ha. unfold measure_sensor_scan. destruct (check_sensor_scan _ _ _ _ _ _) as [[l1 l2]|e] eqn:Ec.
  2:{ apply check_scan_err in Ec. destruct Ec; contradiction. }
  assert (F : first_of (fst r) = Ok (cell1 a 0%nat)).
  { rewrite Ea. unfold first_of. apply Nat.ltb_lt in Ha. rewrite Ha. reflexivity. }
  split; [intros ->|intros n -> Hn]; unfold mbind at 1, scan_occupations; rewrite Eg; unfold mbind at 1; rewrite H, F; cbn [bind]; [reflexivity|].
  unfold full1, raise_if. apply Z.ltb_lt in Hn. rewrite Hn. reflexivity.
Qed.
End Scan.

(** ** Peaks of the default sensor for sensor scans *)
Lemma made_peaks l ps : mapM (fun mg : R * R => sensor_peak_lorentzian (fst mg) (snd mg) 0.09 0) l = Ok ps ->
  ps = map (fun mg : R * R => mk_peak (fst mg) (sensor_response_lorentz (snd mg) 0.09 0)) l.
Proof.
  revert ps. induction l as [|[m g] t IH]; intros ps H; cbn [mapM] in H.
  - injection H as <-. reflexivity.
  - unfold sensor_peak_lorentzian at 1, raise_if in H. cbn [fst snd] in H. destruct (Rleb g 0) eqn:E; [discriminate|]. cbn [bind] in H.
    destruct (mapM _ t) as [ps'|] eqn:Et; [|discriminate]. cbn [bind] in H. injection H as <-. cbn [map fst snd]. f_equal. apply IH. reflexivity.
Qed.
Lemma default_made s : default_sensor_v2 = Ok s ->
  ss_peaks s = Some (map (fun mg : R * R => mk_peak (fst mg) (sensor_response_lorentz (snd mg) 0.09 0)) default_peaks_v2).
Proof.
  unfold default_sensor_v2.
  destruct (barrier_glf default_barrier1 0.001 0.999) as [b1|] eqn:B1; [|discriminate].
  destruct (barrier_glf default_barrier2 0.001 0.999) as [b2|] eqn:B2; [|discriminate]. cbn [bind].
  destruct (mapM _ default_peaks_v2) as [ps|] eqn:Ep; [|discriminate]. cbn [bind set_alpha_sensor set_alpha]. intros E. injection E as <-.
  cbn [ss_peaks]. f_equal. apply made_peaks. exact Ep.
Qed.
Lemma default_shapes s : default_sensor_v2 = Ok s -> exists ps, ss_peaks s = Some ps /\ length ps = 19%nat /\
  forall i pk, nth_error ps i = Some pk ->
    let w := if (i <=? 12)%nat then 0.0002 + 0.000025 * INR i else 0.0005 + 0.00005 * INR (i - 12) in
    forall mu, sensor_function pk mu = 0.09 * w ^ 2 / (w ^ 2 + (mu - (-0.151 + 0.003 * INR i)) ^ 2).
Proof.
  intros D. rewrite (default_made s D). eexists. split; [reflexivity|]. split; [reflexivity|].
  intros i pk Hi. rewrite nth_error_map in Hi. destruct (nth_error default_peaks_v2 i) as [[m g]|] eqn:N; [|discriminate]. cbn in Hi. injection Hi as <-.
  cbv zeta. intros mu. unfold sensor_function, sensor_response_lorentz. cbn [mu0 peak_fun fst snd].
  assert (E : m = -0.151 + 0.003 * INR i /\ g = if (i <=? 12)%nat then 0.0002 + 0.000025 * INR i else 0.0005 + 0.00005 * INR (i - 12)).
  { do 19 (destruct i as [|i]; [cbn in N; injection N as <- <-; rewrite !INR_IZR_INZ; cbn; lra|]). destruct i; discriminate. }
  destruct E as [-> ->]. rewrite Rplus_0_l. reflexivity.
Qed.
Lemma default_total s ps mu : default_sensor_v2 = Ok s -> ss_peaks s = Some ps ->
  Rsum (map (fun p => sensor_function p mu) ps) = Rsum (map (fun mg : R * R => 0 + 0.09 * snd mg ^ 2 / (snd mg ^ 2 + (mu - fst mg) ^ 2)) default_peaks_v2).
Proof. intros D E. rewrite (default_made s D) in E. injection E as <-. reflexivity. Qed.
Lemma default_resolved s ps : default_sensor_v2 = Ok s -> ss_peaks s = Some ps ->
  let f := fun mu => Rsum (map (fun p => sensor_function p mu) ps) in
  (forall i, (i <= 18)%nat -> 0.09 < f (-0.151 + 0.003 * INR i)) /\
  (forall i, (i <= 17)%nat -> f (-0.151 + 0.003 * INR i + 0.0015) < 0.05).
Proof.
  intros D E. cbv zeta. split; intros i Hi; rewrite (default_total s ps _ D E).
  - do 19 (destruct i as [|i]; [rewrite INR_IZR_INZ; cbn; lra|]). lia.
  - do 18 (destruct i as [|i]; [rewrite INR_IZR_INZ; cbn; lra|]). lia.
Qed.

(** The voltages of successful measurements of GaAs_v2_extended_sensor *)
Lemma v2_scan_limits {G} (src : ModelNoise.sources G) label kernel radius pink white s s1 s2 v1 v2 res w m w' :
  measure_sensor_scan (default_noisy_v2 src label kernel radius pink white s) s1 s2 v1 v2 res w = (Ok m, w') ->
  let r1 := md_range1 (sc_meta m) in let r2 := md_range2 (sc_meta m) in
  (-1 <= fst r1 <= 0.4 /\ -1 <= snd r1 <= 0.4) /\ (-1 <= fst r2 <= 0.4 /\ -1 <= snd r2 <= 0.4) /\
  (forall x, v1 = Some x -> -0.2 <= x <= -0.087) /\ (forall x, v2 = Some x -> -0.2 <= x <= -0.047).
Proof.
  intros H r1 r2. assert (A := scan_voltages _ _ _ _ _ _ _ _ _ 0 H). assert (B := scan_voltages _ _ _ _ _ _ _ _ _ 1 H).
  cbv zeta in A, B. fold r1 r2 in A, B. destruct A as (A1 & A2 & A3 & A4); [lra|]. destruct B as (B1 & B2 & _); [lra|].
  replace (fst r1 + 0 * (snd r1 - fst r1)) with (fst r1) in A1 by ring. replace (fst r2 + 0 * (snd r2 - fst r2)) with (fst r2) in A2 by ring.
  replace (fst r1 + 1 * (snd r1 - fst r1)) with (snd r1) in B1 by ring. replace (fst r2 + 1 * (snd r2 - fst r2)) with (snd r2) in B2 by ring.
  split; [split; [exact A1|exact B1]|]. split; [split; [exact A2|exact B2]|]. split; [exact A3|exact A4].
Qed.
Lemma v2_measure_limits {G} (src : ModelNoise.sources G) label kernel radius pink white s s1 s2 v1 v2 res w m w' :
  measure (default_noisy_v2 src label kernel radius pink white s) s1 s2 v1 v2 res w = (Ok m, w') ->
  let r1 := md_range1 (m_meta m) in let r2 := md_range2 (m_meta m) in
  (-0.2 <= fst r1 <= -0.087 /\ -0.2 <= snd r1 <= -0.087) /\ (-0.2 <= fst r2 <= -0.047 /\ -0.2 <= snd r2 <= -0.047) /\
  (forall x, v1 = Some x -> -1 <= x <= 0.4) /\ (forall x, v2 = Some x -> -1 <= x <= 0.4).
Proof.
  intros H r1 r2. assert (A := measure_voltages _ _ _ _ _ _ _ _ _ 0 H). assert (B := measure_voltages _ _ _ _ _ _ _ _ _ 1 H).
  cbv zeta in A, B. fold r1 r2 in A, B. destruct A as (A1 & A2 & A3 & A4); [lra|]. destruct B as (B1 & B2 & _); [lra|].
  replace (fst r1 + 0 * (snd r1 - fst r1)) with (fst r1) in A1 by ring. replace (fst r2 + 0 * (snd r2 - fst r2)) with (fst r2) in A2 by ring.
  replace (fst r1 + 1 * (snd r1 - fst r1)) with (snd r1) in B1 by ring. replace (fst r2 + 1 * (snd r2 - fst r2)) with (snd r2) in B2 by ring.
  split; [split; [exact A1|exact B1]|]. split; [split; [exact A2|exact B2]|]. split; [exact A3|exact A4].
Qed.
