(** Another unit and another zero of the voltages for SensorScanSensorGeneric: all voltages are stretched by a factor [k], those of the
    plunger gates are shifted by [t], those of the sensor gates by [u]. *)
From Verif Require Import RPrelude Arr ModelSupport ModelTct ModelCsd ModelDistortions ModelSensor ModelSimulation ModelInstance SpecTct SpecCsd SpecSimilar.
Local Open Scope R_scope.

(** Lever arms are potentials per volt; the offsets make up for the shifts. *)
Definition divide_rows (k : R) (r : rows3) : rows3 :=
  let d a := (fst a / k, snd a / k) in mk_rows3 (d (row0 r)) (d (row1 r)) (d (row2 r)).
Definition lost (k : R) (e a : R * R) : R := (fst e * fst a + snd e * snd a) / k.
(** The deformations get a distance in volts and return a potential; barriers, peaks and the final rise are functions of potentials. *)
Definition stretch_deform (k : R) (f : R -> R -> R) : R -> R -> R := fun dist m => f (dist / k) m.
Definition stretch_scan (k : R) (t u : point) (s : scan_sensor) : scan_sensor :=
  mk_scan_sensor (ss_barrier1 s) (ss_barrier2 s) (ss_peaks s) (divide_rows k (ss_sensor s)) (divide_rows k (ss_gate s)) (ss_dot s)
    (mk_three (at_sensor (ss_offset s) - lost k t (row0 (ss_gate s)) - lost k u (row0 (ss_sensor s)))
              (at_barrier1 (ss_offset s) - lost k t (row1 (ss_gate s)) - lost k u (row1 (ss_sensor s)))
              (at_barrier2 (ss_offset s) - lost k t (row2 (ss_gate s)) - lost k u (row2 (ss_sensor s))))
    (ss_rise s) (map (fun kf => (fst kf, stretch_deform k (snd kf))) (ss_deform s)).
(** What the sensor remembers *)
Definition stretch_hidden (k : R) (t u : point) (h : hidden) : hidden :=
  mk_hidden (stretch_lims k (fst t) (h_g1 h)) (stretch_lims k (snd t) (h_g2 h))
            (stretch_lims k (fst u) (h_s1 h)) (stretch_lims k (snd u) (h_s2 h)) (h_occ h).

(** The lever arms of the sensor gates distinguish the barriers and count as zero or not zero (2^-52) in both units alike; there is a lever
    arm of the first sensor gate on the sensor dot if there are deformations. *)
Definition clear_lever_arms (k : R) (s : scan_sensor) : Prop :=
  let b1 := row1 (ss_sensor s) in let b2 := row2 (ss_sensor s) in
  fst b1 * snd b2 - snd b1 * fst b2 <> 0
  /\ (snd b1 = 0 \/ 1 / 4503599627370496 <= Rabs (snd b1) /\ 1 / 4503599627370496 <= Rabs (snd b1 / k))
  /\ (ss_deform s <> [] -> fst (row0 (ss_sensor s)) <> 0).
(** The diagram can be converted (C121, C122). *)
Definition convertible (k : R) (x : geometric) : Prop :=
  bent x /\ (k = 1 \/ Forall admissible (g_tcts x) /\ visible_couplings k x).

(** Voltages that are not given count as zero, so there is no other zero for them. *)
Definition zero_kept (e : R) (v : option R) : Prop := v = None -> e = 0.

Definition same_state (k : R) (t u : point) (a b : option hidden) : Prop := a = option_map (stretch_hidden k t u) b.
(** Both return the same arrays or raise the same exception and leave the sensor in corresponding states. *)
Definition same_scan {L} (k : R) (t u : point) (a b : result (@sensor_scan (option hidden) L image labels) * option hidden) : Prop :=
  same_state k t u (snd a) (snd b)
  /\ match fst a, fst b with
     | Ok m, Ok n => sc_scan m = sc_scan n /\ sc_labels m = sc_labels n
     | Err e, Err f => e = f
     | _, _ => False
     end.
Definition same_csd {L} (k : R) (t u : point) (a b : result (@measurement (option hidden) L image labels) * option hidden) : Prop :=
  same_state k t u (snd a) (snd b)
  /\ match fst a, fst b with
     | Ok m, Ok n => m_csd m = m_csd n /\ m_occ m = m_occ n /\ m_lead m = m_lead n
     | Err e, Err f => e = f
     | _, _ => False
     end.
