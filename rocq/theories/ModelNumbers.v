(** Plunger voltages of sensor scans given as Python int or float. The other models take all numbers as reals: the code
    compares and computes with ints and floats alike (sensor_potential accepts numbers.Real, _sensor_scan_sensor_generic.py:706),
    except for the check of the labels (_sensor_scan_sensor_generic.py:821-823). np.float64 is a subclass of float; the integer
    types and the other floating point types of numpy are not, they count as int here. *)
From Verif Require Import RPrelude Arr ModelSupport ModelTct ModelCsd ModelDistortions ModelSensor ModelSimulation ModelInstance ModelScanInstance.
Local Open Scope R_scope.

Inductive number := PyInt (z : Z) | PyFloat (x : R).
Definition value (n : number) : R := match n with PyInt z => IZR z | PyFloat x => x end.
(** isinstance(v, float) *)
Definition is_float (n : number) : bool := match n with PyInt _ => false | PyFloat _ => true end.
(** v is None or isinstance(v, float) *)
Definition none_or_float (v : option number) : bool := match v with None => true | Some n => is_float n end.

(** get_sensor_scan_labels with the check of lines 810-823 *)
Definition typed_labels (s : scan_sensor) (t1 t2 : option number) (h : hidden) (v1 v2 w1 w2 : volts) (p : potentials)
  : result (labels * hidden) :=
  let? _ := first_occ (h_occ h) in
  raise_if (negb (none_or_float t1 && none_or_float t2)) ValueError (get_sensor_scan_labels s h v1 v2 w1 w2 p).
(** SensorScanSensorGeneric when the plunger voltages [t1], [t2] are passed on to it *)
Definition typed_object (s : scan_sensor) (t1 t2 : option number) : sensor_object (option hidden) image labels :=
  mk_sensor_object true (so_potential (scan_object s)) (so_response (scan_object s))
    (fun v1 v2 w1 w2 p st =>
       match st with
       | None => (Err AttributeError, st)
       | Some h => match (let? q := joined p in typed_labels s t1 t2 h v1 v2 w1 w2 q) with
                   | Ok (L, h') => (Ok L, Some h')
                   | Err e => (Err e, st)
                   end
       end).
(** Simulation.measure_sensor_scan *)
Definition typed_sensor_scan (c : config (option hidden) lead_mask image labels) (s : scan_sensor) (s1 s2 : list R)
  (t1 t2 : option number) (res : resolution) : action (option hidden) (@sensor_scan (option hidden) lead_mask image labels) :=
  measure_sensor_scan
    (mk_config (volt_limits_g1 c) (volt_limits_g2 c) (volt_limits_sensor_g1 c) (volt_limits_sensor_g2 c) (ideal_csd_config c)
               (typed_object s t1 t2) (occupation_distortions c) (sensor_potential_distortions c) (sensor_response_distortions c))
    s1 s2 (option_map value t1) (option_map value t2) res.
