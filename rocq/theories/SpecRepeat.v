(** Measuring again with the settings recorded in the metadata. *)
From Verif Require Import RPrelude Arr ModelCsd ModelSensor ModelSimulation.
Local Open Scope R_scope.

Section Repeat.
Context {W L I K : Type}.
Definition both_ends (l : R * R) : list R := [fst l; snd l].
Definition measure_again (md : @metadata W L I K) : action W (@measurement W L I K) :=
  measure (md_config md) (both_ends (md_range1 md)) (both_ends (md_range2 md)) (md_volt1 md) (md_volt2 md) (md_resolution md).
Definition scan_again (md : @metadata W L I K) : action W (@sensor_scan W L I K) :=
  measure_sensor_scan (md_config md) (both_ends (md_range1 md)) (both_ends (md_range2 md)) (md_volt1 md) (md_volt2 md) (md_resolution md).
(** The metadata are those of a call with these arguments that ended in the state [w]. *)
Definition records (md : @metadata W L I K) (c : config W L I K) (s1 s2 : list R) (v1 v2 : option R) (res : resolution) (w : W) : Prop :=
  md_config md = c /\ both_ends (md_range1 md) = s1 /\ both_ends (md_range2 md) = s2 /\ md_volt1 md = v1 /\ md_volt2 md = v2 /\
  md_resolution md = res /\ md_world md = w.
(** A 1D sensor scan at given plunger voltages whose resolution is an array *)
Definition converted (c : config W L I K) (v1 v2 : option R) (res : resolution) (n : Z) : Prop :=
  ideal_csd_config c <> None /\ v1 <> None /\ v2 <> None /\ res = ResArray [n].
End Repeat.
