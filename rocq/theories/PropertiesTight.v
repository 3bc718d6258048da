(** Theorems about refused arguments and the peaks of the default sensor for sensor scans. *)
From Verif Require Import RPrelude Arr ModelSupport ModelTct ModelCsd ModelSensor ModelDistortions ModelSimulation ModelScanNoise SpecSimulation ExamplesSimulation ProofsTight ProofsScanNoise4.
Local Open Scope R_scope.

(** C25: an empty list of peaks gives a number instead of an image. *)
Theorem C25_empty dot gate off mu : generic_response (mk_generic (Some []) dot gate off) mu = RNumber 0.
Proof. exact eq_refl. Qed.
Print Assumptions C25_empty.
Example C25_empty_example : generic_response (mk_generic (Some []) (1, 2) (3, 4) 5) (Img1 (mk_arr1 3 (fun _ => 1))) = RNumber 0.
Proof. apply C25_empty. Qed.

(** C38: the noise with two scales is off if the scale of the bursts is 0; otherwise it is refused, with a ValueError,
    exactly if one of the scales is less than 1. *)
Theorem C38_two_scales_refused {G} normal (geometric1 : R -> G -> nat * G) im sb sq std height g :
  ((exists e, random_telegraph_noise_two_scales normal geometric1 im sb sq std height g = Err e) <-> sb <> 0 /\ (sb < 1 \/ sq < 1)) /\
  (forall e, random_telegraph_noise_two_scales normal geometric1 im sb sq std height g = Err e -> e = ValueError) /\
  random_telegraph_noise_two_scales normal geometric1 im 0 sq std height g = Ok (im, g).
Proof. exact (conj (two_scales_refused normal geometric1 im sb sq std height g)
  (conj (two_scales_error normal geometric1 im sb sq std height g) (two_scales_off normal geometric1 im sq std height g))). Qed.
Print Assumptions C38_two_scales_refused.
Example C38_two_scales_example : exists e, random_telegraph_noise_two_scales (fun h _ g => (h, g)) (fun _ (g : nat) => (1%nat, g)) (Img1 (mk_arr1 3 (fun _ => 1))) 2 (1/2) 0 1 0%nat = Err e.
Proof. apply C38_two_scales_refused. lra. Qed.

(** C48: negative resolutions and resolutions without entries: without plunger voltages, ... *)
Theorem C48_negative {W L I K} (c : config W L I K) s1 s2 v1 v2 w : ~ knows_occupation c v1 v2 ->
  (forall n, valid_scan c s1 s2 v1 v2 (ResInt n) -> (n < 0)%Z -> measure_sensor_scan c s1 s2 v1 v2 (ResInt n) w = (Err ValueError, w)) /\
  (valid_scan c s1 s2 v1 v2 (ResArray []) -> measure_sensor_scan c s1 s2 v1 v2 (ResArray []) w = (Err IndexError, w)).
Proof. exact (fun N => conj (fun n V => scan_negative c s1 s2 v1 v2 n w V N) (fun V => scan_no_entries c s1 s2 v1 v2 w V N)). Qed.
Print Assumptions C48_negative.
(** ... and with them. *)
Theorem C48_negative_known {W L I K} (c : config W L I K) s1 s2 x1 x2 l gen r w w' a :
  valid_scan c s1 s2 (Some x1) (Some x2) (ResArray l) -> ideal_csd_config c = Some gen ->
  gen (x1, x1) (x2, x2) (ResInt 1) w = (Ok r, w') -> fst r = Occ1 a -> (0 < len1 a)%nat ->
  (l = [] -> measure_sensor_scan c s1 s2 (Some x1) (Some x2) (ResArray l) w = (Err IndexError, w')) /\
  (forall n, l = [n] -> (n < 0)%Z -> measure_sensor_scan c s1 s2 (Some x1) (Some x2) (ResArray l) w = (Err ValueError, w')).
Proof. exact (scan_known c s1 s2 x1 x2 l gen r w w' a). Qed.
Print Assumptions C48_negative_known.
Example C48_negative_example :
  fst (measure_sensor_scan (ex_config None None true) [0; 1] [0; 1] (Some 0) (Some 0) (ResArray [(-3)%Z]) []) = Err ValueError /\
  fst (measure_sensor_scan (ex_config None None true) [0; 1] [0; 1] None None (ResInt (-3)) []) = Err ValueError /\
  fst (measure_sensor_scan (ex_config None None true) [0; 1] [0; 1] None None (ResArray []) []) = Err IndexError.
Proof. repeat split. Qed.

(** C72: everything else is refused with a ValueError; the lever arms of the sensor gates have to be given in full. *)
Theorem C72_refused arg e : (set_alpha arg = Err e <-> arg = AlphaOther /\ e = ValueError) /\
  (set_alpha_sensor arg = Err e <-> (arg = AlphaNone \/ arg = AlphaOther \/ exists a, arg = AlphaPair a) /\ e = ValueError).
Proof. exact (alpha_refused arg e). Qed.
Print Assumptions C72_refused.
Example C72_refused_example : set_alpha_sensor (AlphaPair (1, 2)) = Err ValueError.
Proof. apply C72_refused. eauto 6. Qed.

(** C145: the default sensor for sensor scans has 19 Lorentzian peaks of height 0.09 that are 3 mV apart and become
    wider from 0.2 mV to 0.8 mV; *)
Theorem C145_extended_peaks s : default_sensor_v2 = Ok s -> exists ps, ss_peaks s = Some ps /\ length ps = 19%nat /\
  forall i pk, nth_error ps i = Some pk ->
    let w := if (i <=? 12)%nat then 0.0002 + 0.000025 * INR i else 0.0005 + 0.00005 * INR (i - 12) in
    forall mu, sensor_function pk mu = 0.09 * w ^ 2 / (w ^ 2 + (mu - (-0.151 + 0.003 * INR i)) ^ 2).
Proof. exact (default_shapes s). Qed.
Print Assumptions C145_extended_peaks.
(** they are resolved: more than 0.09 at each of them, less than 0.05 half way between neighbours. *)
Theorem C145_extended_resolved s ps : default_sensor_v2 = Ok s -> ss_peaks s = Some ps ->
  let f := fun mu => Rsum (map (fun p => sensor_function p mu) ps) in
  (forall i, (i <= 18)%nat -> 0.09 < f (-0.151 + 0.003 * INR i)) /\
  (forall i, (i <= 17)%nat -> f (-0.151 + 0.003 * INR i + 0.0015) < 0.05).
Proof. exact (default_resolved s ps). Qed.
Print Assumptions C145_extended_resolved.
Example C145_extended_example : exists s ps, default_sensor_v2 = Ok s /\ ss_peaks s = Some ps /\ 0.09 < Rsum (map (fun p => sensor_function p (-0.151)) ps).
Proof.
  destruct default_v2_made as [s D]. destruct (C145_extended_peaks s D) as (ps & E & _). exists s, ps. split; [exact D|]. split; [exact E|].
  pose proof (proj1 (C145_extended_resolved s ps D E) 0%nat ltac:(lia)) as H. cbn [INR] in H. rewrite Rmult_0_r, Rplus_0_r in H. exact H.
Qed.

(** C114: measurements of GaAs_v2_extended_sensor that do not raise stay within its voltage limits: *)
Theorem C114_limits {G} (src : ModelNoise.sources G) label kernel radius pink white s s1 s2 v1 v2 res w m w' :
  measure (default_noisy_v2 src label kernel radius pink white s) s1 s2 v1 v2 res w = (Ok m, w') ->
  let r1 := md_range1 (m_meta m) in let r2 := md_range2 (m_meta m) in
  (-0.2 <= fst r1 <= -0.087 /\ -0.2 <= snd r1 <= -0.087) /\ (-0.2 <= fst r2 <= -0.047 /\ -0.2 <= snd r2 <= -0.047) /\
  (forall x, v1 = Some x -> -1 <= x <= 0.4) /\ (forall x, v2 = Some x -> -1 <= x <= 0.4).
Proof. exact (v2_measure_limits src label kernel radius pink white s s1 s2 v1 v2 res w m w'). Qed.
Print Assumptions C114_limits.
(** C115: so do sensor scans. *)
Theorem C115_limits {G} (src : ModelNoise.sources G) label kernel radius pink white s s1 s2 v1 v2 res w m w' :
  measure_sensor_scan (default_noisy_v2 src label kernel radius pink white s) s1 s2 v1 v2 res w = (Ok m, w') ->
  let r1 := md_range1 (sc_meta m) in let r2 := md_range2 (sc_meta m) in
  (-1 <= fst r1 <= 0.4 /\ -1 <= snd r1 <= 0.4) /\ (-1 <= fst r2 <= 0.4 /\ -1 <= snd r2 <= 0.4) /\
  (forall x, v1 = Some x -> -0.2 <= x <= -0.087) /\ (forall x, v2 = Some x -> -0.2 <= x <= -0.047).
Proof. exact (v2_scan_limits src label kernel radius pink white s s1 s2 v1 v2 res w m w'). Qed.
Print Assumptions C115_limits.
Example C114_limits_example {G} (src : ModelNoise.sources G) label kernel radius pink white s res w m w' :
  measure (default_noisy_v2 src label kernel radius pink white s) [-0.2; -0.1] [-0.2; -0.1] (Some 0.5) (Some 0) res w <> (Ok m, w').
Proof.
  intros H. destruct (C114_limits src label kernel radius pink white s _ _ _ _ _ _ _ _ H) as (_ & _ & X & _). pose proof (X 0.5 eq_refl). lra.
Qed.
