(** The warnings that a SensorScanSensorGeneric object and Simulation.measure_sensor_scan give
    (calls of warnings.warn), sensor/_sensor_scan_sensor_generic.py:518-521, 565-567, 691-694 and
    _simulation.py:436-441. Whether Python shows a warning, and how often, depends on its filters, which
    are not modelled. The warning of OccupationDotJumps (_dot_jumps.py:195-199) is modelled for the object
    alone, at the end of the file; those of the samplers are in ModelSampling. *)
From Verif Require Import RPrelude Arr ModelCsd ModelJumps ModelDistortions ModelSensor ModelSimulation ModelScanInstance ModelScanNoise ModelNoise ModelInstance.
Local Open Scope R_scope.

Inductive warning :=
| DeformedPlunger                                   (* line 693: deformations and plunger gates swept *)
| DeformedSweep                                     (* line 519: deformations cannot be applied *)
| NegativeResponse                                  (* line 566 *)
| IgnoredCsd (shown1 shown2 : option R).            (* _simulation.py:437; the voltages shown as volt_g1 and volt_g2 *)

(** sensor_potential, lines 688-694 *)
Definition potential_warnings (s : scan_sensor) (occ : occupation) (v1 v2 : volts) : list warning :=
  match occ with
  | OccOther => []
  | _ => if negb (length (ss_deform s) =? 0)%nat && (is_sweep v1 || is_sweep v2) then [DeformedPlunger] else []
  end.
(** sensor_response, lines 463-567; the call of sensor_potential in line 549 has fixed voltages and does
    not warn. *)
Definition negative (x : R) : bool := Rltb x 0.
Definition response_warnings (s : scan_sensor) (h : hidden) (p : potentials) : list warning :=
  (if negb (length (ss_deform s) =? 0)%nat && negb (equal_ends (h_g1 h) && equal_ends (h_g2 h)) then [DeformedSweep] else []) ++
  match dot_response s h p with
  | Ok (dots, _, _) =>
      if existsb negative dots || existsb (fun q => negative (get_value (ss_barrier1 s) (at_barrier1 q))) (pot_list p) ||
         existsb (fun q => negative (get_value (ss_barrier2 s) (at_barrier2 q))) (pot_list p)
      then [NegativeResponse] else []
  | Err _ => []
  end.

(** A simulation with the list of the warnings so far as part of the world. *)
Section Logged.
Context {W L I K : Type}.
Definition logged (W : Type) : Type := W * list warning.
Definition quietly {A} (m : action W A) : action (logged W) A := fun w => let (r, w') := m (fst w) in (r, (w', snd w)).
Definition warn_then {A} (ws : W -> list warning) (m : action W A) : action (logged W) A :=
  fun w => quietly m (fst w, snd w ++ ws (fst w)).
(** A generator as seen by the distortion objects. *)
Definition without_log (gen : generator (logged W) L) (log : list warning) : generator W L :=
  fun l1 l2 res w => let (r, w') := gen l1 l2 res (w, log) in (r, fst w').
Definition logged_occ (d : occ_distortion W L) : occ_distortion (logged W) L :=
  mk_occ_distortion (fun occ lead l1 l2 gen freeze w => quietly (od_noise d occ lead l1 l2 (without_log gen (snd w)) freeze) w).
Definition logged_image (d : img_distortion W I) : img_distortion (logged W) I := fun im l1 l2 => quietly (d im l1 l2).
Definition logged_generator (gen : generator W L) : generator (logged W) L := fun l1 l2 res => quietly (gen l1 l2 res).
Definition logged_sensor (o : sensor_object W I K) (at_potential : occupation -> volts -> volts -> list warning)
    (at_response : potential I -> W -> list warning) : sensor_object (logged W) I K :=
  mk_sensor_object (so_scan o)
    (fun occ v1 v2 w => warn_then (fun _ => at_potential occ v1 v2) (so_potential o occ v1 v2 w))
    (fun p => warn_then (at_response p) (so_response o p))
    (fun v1 v2 w1 w2 p => quietly (so_labels o v1 v2 w1 w2 p)).
Definition logged_config (c : config W L I K) (at_potential : occupation -> volts -> volts -> list warning)
    (at_response : potential I -> W -> list warning) : config (logged W) L I K :=
  mk_config (volt_limits_g1 c) (volt_limits_g2 c) (volt_limits_sensor_g1 c) (volt_limits_sensor_g2 c)
    (option_map logged_generator (ideal_csd_config c)) (logged_sensor (sensor c) at_potential at_response)
    (option_map (map logged_occ) (occupation_distortions c)) (option_map (map logged_image) (sensor_potential_distortions c))
    (option_map (map logged_image) (sensor_response_distortions c)).

(** measure_sensor_scan, lines 361-441: the warning comes after the checks of the ranges and of the plunger
    voltages. Both places of the text show volt_g2 (line 438). *)
Definition before_warning (c : config W L I K) (s1 s2 : list R) (v1 v2 : option R) (res : resolution) : result unit :=
  raise_if (negb (so_scan (sensor c))) ValueError
  match s1, s2 with
  | [a1; b1], [a2; b2] =>
      raise_if (range_outside (volt_limits_sensor_g1 c) (a1, b1) || range_outside (volt_limits_sensor_g2 c) (a2, b2)) ValueError
      (raise_if (is_2d res && (fixed_range (a1, b1) || fixed_range (a2, b2))) ValueError
      (raise_if (plunger_volt_outside (volt_limits_g1 c) v1 || plunger_volt_outside (volt_limits_g2 c) v2) ValueError
      (Ok tt)))
  | _, _ => Err ValueError
  end.
Definition request_warnings (c : config W L I K) (s1 s2 : list R) (v1 v2 : option R) (res : resolution) : list warning :=
  match before_warning c s1 s2 v1 v2 res with
  | Err _ => []
  | Ok _ => if negb (is_none (ideal_csd_config c)) && (is_none v1 || is_none v2) then [IgnoredCsd v2 v2] else []
  end.
End Logged.
Definition logged_sensor_scan {W L I K} (c : config (logged W) L I K) (s1 s2 : list R) (v1 v2 : option R) (res : resolution)
  : action (logged W) (@sensor_scan (logged W) L I K) :=
  fun w => measure_sensor_scan c s1 s2 v1 v2 res (fst w, snd w ++ request_warnings c s1 s2 v1 v2 res).

(** The simulation of ModelScanNoise with its warnings *)
Definition sensor_warnings {G} (s : scan_sensor) (p : potential image) (w : scan_world G) : list warning :=
  match snd w, joined p with
  | Some h, Ok q => response_warnings s h q
  | _, _ => []
  end.
Definition with_warnings {G} (s : scan_sensor) (c : config (scan_world G) lead_mask image labels)
  : config (logged (scan_world G)) lead_mask image labels :=
  logged_config c (potential_warnings s) (sensor_warnings s).

(** OccupationDotJumps.noise_function, lines 161-200: whether a call warns that the pixelwise scale is less
    than 1. The draws are those of ModelDistortions.jump_noise_function. *)
Section JumpWarning.
Context {G : Type}.
Variable binomial : G -> bool * G.
Variable sample_scale : G -> R * G.
Definition jump_warning (axis : Z) (freeze : bool) (sh : shape) (lim1 lim2 : limits) (g : G) : bool :=
  if freeze then false
  else
    let '(act, g1) := binomial g in
    if negb act then false
    else
      let '(scale_v, g2) := sample_scale g1 in
      match jump_px_per_volt axis sh lim1 lim2 with
      | Err _ => false
      | Ok k => Rltb (scale_v * k) 1
      end.
End JumpWarning.
