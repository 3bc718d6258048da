(** Charge sensing with the sensor for sensor scans. *)
From Verif Require Import RPrelude ModelSensor SpecSensor.
Local Open Scope R_scope.

(** A value is measured at the potentials [q] when the final rise (if there is one) is shifted to the potential [off]. *)
Definition measured_at (s : scan_sensor) (off : R) (q : three) (y : R) : Prop :=
  series_of y (match ss_rise s with None => base_dot s (at_sensor q) | Some rise => Rmax (base_dot s (at_sensor q)) (rise (at_sensor q) off) end)
    (get_value (ss_barrier1 s) (at_barrier1 q)) (get_value (ss_barrier2 s) (at_barrier2 q)).
(** The potentials of the sensor dot and of both barriers rise from [q] to [q'] by between [lo] and [hi]. *)
Definition rises (lo hi : R) (q q' : three) : Prop :=
  lo <= at_sensor q' - at_sensor q <= hi /\ lo <= at_barrier1 q' - at_barrier1 q <= hi /\ lo <= at_barrier2 q' - at_barrier2 q <= hi.
(** ... by minus the lever arm of the dot that gets the electron, up to the electron that is shared and the voltage difference *)
Definition arm_step (right : bool) (e delta : R) (gate dot : R * R) (p p' : R) : Prop :=
  Rabs (p' - p + (if right then fst dot else snd dot)) <= e * Rabs (fst dot - snd dot) + delta * (Rabs (fst gate) + Rabs (snd gate)).
