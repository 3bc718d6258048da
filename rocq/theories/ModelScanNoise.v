(** The simulation with SensorScanSensorGeneric as sensor and the distortion objects of the package, and the
    default configuration GaAs_v2_extended_sensor, simcats/_default_configs.py:89-199.

    The world has two parts: that of the distortion objects (ModelNoise) and what the sensor remembers
    (ModelScanInstance). No object of the package touches the part of the others. *)
From Verif Require Import RPrelude Arr ModelSupport ModelTct ModelCsd ModelJumps ModelDistortions ModelSensor ModelSimulation ModelInstance
  ModelNoise ModelScanInstance ModelDefault ModelDefaultNoise.
Local Open Scope R_scope.

Section ScanNoise.
Context {G : Type}.
Definition scan_world : Type := noise_world G * option hidden.
Definition on_noise {A} (m : action (noise_world G) A) : action scan_world A :=
  fun w => let (r, n) := m (fst w) in (r, (n, snd w)).
Definition on_sensor {A} (m : action (option hidden) A) : action scan_world A :=
  fun w => let (r, st) := m (snd w) in (r, (fst w, st)).
(** A generator as seen by the distortion objects. *)
Definition noise_part (gen : generator scan_world lead_mask) (st : option hidden) : generator (noise_world G) lead_mask :=
  fun l1 l2 res n => let (r, w) := gen l1 l2 res (n, st) in (r, fst w).

Variable src : sources G.
Definition scan_occ_object (d : occ_noise G) : occ_distortion scan_world lead_mask :=
  mk_occ_distortion (fun occ lead l1 l2 gen freeze w =>
    on_noise (od_noise (occ_object src d) occ lead l1 l2 (noise_part gen (snd w)) freeze) w).
(** The images are arrays here (ModelNoise: an array or a number). *)
Definition scan_image_object (d : image_noise G) : img_distortion scan_world image :=
  fun im l1 l2 => on_noise (fun n =>
    match image_noise_function src d im l1 l2 (w_rng n) with
    | Ok (im', g') => (Ok im', mk_noise_world (w_sigma n) (w_jump n) g')
    | Err e => (Err e, n)
    end).
Definition scan_sensor_object (s : scan_sensor) : sensor_object scan_world image labels :=
  mk_sensor_object true
    (fun occ v1 v2 w => on_sensor (so_potential (scan_object s) occ v1 v2 w))
    (fun p => on_sensor (so_response (scan_object s) p))
    (fun v1 v2 w1 w2 p => on_sensor (so_labels (scan_object s) v1 v2 w1 w2 p)).

Definition noisy_scan_config (label : arr2 nat -> arr2 nat) (lim1 lim2 lims1 lims2 : option (R * R)) (x : option geometric) (s : scan_sensor)
    (occs : list (occ_noise G)) (pots resps : list (image_noise G)) : config scan_world lead_mask image labels :=
  mk_config lim1 lim2 lims1 lims2 (option_map (get_csd_data label) x) (scan_sensor_object s)
    (Some (map scan_occ_object occs)) (Some (map scan_image_object pots)) (Some (map scan_image_object resps)).
End ScanNoise.
Arguments scan_world : clear implicits.

(** ** GaAs_v2_extended_sensor; ideal data and plunger limits are those of GaAs_v1 *)
(** Lines 92-93 *)
Definition limits_sensor : R * R := (-1, 0.4).
(** Lines 132-150 *)
Definition default_barrier1 : glf_params :=
  {| asymptote_left := 0; asymptote_right := 0.3; growth_rate := 80; asymmetry := 8.948499659663527e-05;
     shape_factor := 25.64528635013381; denominator_offset := 1; offset := -0.78 |}.
Definition default_barrier2 : glf_params :=
  {| asymptote_left := 0; asymptote_right := 0.3; growth_rate := 72; asymmetry := 7.784390241302876e-05;
     shape_factor := 97.5062459999433; denominator_offset := 1; offset := -0.88 |}.
(** Lines 151-171: position and width; all have height 0.09 and offset 0 *)
Definition default_peaks_v2 : list (R * R) :=
  [(-0.151, 0.0002); (-0.148, 0.000225); (-0.145, 0.00025); (-0.142, 0.000275); (-0.139, 0.0003); (-0.136, 0.000325);
   (-0.133, 0.00035); (-0.130, 0.000375); (-0.127, 0.0004); (-0.124, 0.000425); (-0.121, 0.00045); (-0.118, 0.000475);
   (-0.115, 0.0005); (-0.112, 0.00055); (-0.109, 0.0006); (-0.106, 0.00065); (-0.103, 0.0007); (-0.100, 0.00075); (-0.097, 0.0008)].
(** Lines 172-178; the denominator offset is 1 by default. *)
Definition default_rise : rise_params :=
  {| rise_glf := {| asymptote_left := 0; asymptote_right := 0.1; growth_rate := 2500; asymmetry := 0.035; shape_factor := 2;
                    denominator_offset := 1; offset := 0 |};
     rise_mu0 := 0; rise_percentage := 0.999 |}.
(** Lines 131-184 *)
Definition default_sensor_v2 : result scan_sensor :=
  let? b1 := barrier_glf default_barrier1 0.001 0.999 in
  let? b2 := barrier_glf default_barrier2 0.001 0.999 in
  let? ps := mapM (fun mg : R * R => sensor_peak_lorentzian (fst mg) (snd mg) 0.09 0) default_peaks_v2 in
  let? sens := set_alpha_sensor (AlphaRows (mk_rows3 (0.096754, 0.1) (0.99, 0.15) (0.15, 0.99))) in
  let? dot := set_alpha (AlphaPair (-0.00044775, -0.0002922)) in
  let? gate := set_alpha (AlphaPair (0.08949, 0.116395)) in
  Ok (mk_scan_sensor b1 b2 (Some ps) sens gate dot (mk_three 0 0 0) (Some (rise_function default_rise)) []).
(** Lines 89-199; [pink] and [white] are the strengths of the noises. *)
Definition default_noisy_v2 {G} (src : sources G) (label : arr2 nat -> arr2 nat) (kernel : R -> Z -> R) (radius : R -> nat)
    (pink white : param G) (s : scan_sensor) : config (scan_world G) lead_mask image labels :=
  noisy_scan_config src label (Some limits_g1) (Some limits_g2) (Some limits_sensor) (Some limits_sensor) (Some default_csd) s
    (default_occupation kernel radius) (default_potential pink) [White white].
