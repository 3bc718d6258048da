(** What the warnings of a simulation should be about. *)
From Verif Require Import RPrelude Arr ModelCsd ModelDistortions ModelSensor ModelSimulation.
Local Open Scope R_scope.

(** No barrier and no peak, wherever it is moved to, has a negative value. *)
Definition nonnegative_sensor (s : scan_sensor) : Prop :=
  (forall x, 0 <= get_value (ss_barrier1 s) x) /\ (forall x, 0 <= get_value (ss_barrier2 s) x) /\
  exists ps, ss_peaks s = Some ps /\ Forall (fun p => forall m mu, 0 <= peak_fun p m mu) ps.

(** Two calls, possibly of different simulations, return the same diagram (sensor scan) or raise the same
    exception. *)
Definition same_outcome {A B} (same : A -> B -> Prop) (r : result A) (r' : result B) : Prop :=
  match r, r' with
  | Ok a, Ok b => same a b
  | Err e, Err e' => e = e'
  | _, _ => False
  end.
Definition same_diagram {W W' L I K} (m : @measurement W L I K) (m' : @measurement W' L I K) : Prop :=
  m_csd m = m_csd m' /\ m_occ m = m_occ m' /\ m_lead m = m_lead m'.
Definition same_scan {W W' L I K} (m : @sensor_scan W L I K) (m' : @sensor_scan W' L I K) : Prop :=
  sc_scan m = sc_scan m' /\ sc_labels m = sc_labels m'.
(** The simulation without its ideal CSD. *)
Definition without_csd {W L I K} (c : config W L I K) : config W L I K :=
  mk_config (volt_limits_g1 c) (volt_limits_g2 c) (volt_limits_sensor_g1 c) (volt_limits_sensor_g2 c) None (sensor c)
    (occupation_distortions c) (sensor_potential_distortions c) (sensor_response_distortions c).
