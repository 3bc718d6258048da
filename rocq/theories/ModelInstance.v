(** The simulation with the objects of the package plugged in: IdealCSDGeometric
    (ideal_csd/geometric/_ideal_csd_geometric_class.py, whose get_csd_data passes its attributes to
    ideal_csd_geometric) as ideal CSD and SensorGeneric as sensor. Neither changes any state, so the
    world [W] is left as it is. *)
From Verif Require Import RPrelude Arr ModelSupport ModelTct ModelCsd ModelDistortions ModelSensor ModelSimulation.
Local Open Scope R_scope.

(** The attributes of an IdealCSDGeometric object. *)
Record geometric := mk_geometric {
  g_tcts : list tct_params; g_rotation : R; g_lut : option nat; g_cdf : cdf_kind; g_gamma : option R }.
Inductive lead_mask := Lead1 (l : list nat) | Lead2 (a : arr2 nat).
Definition csd_arrays (d : csd_data) : occupation * lead_mask :=
  match d with
  | Csd1 occ lead => (Occ1 (of_list1 (0, 0) occ), Lead1 lead)
  | Csd2 occ lead => (Occ2 occ, Lead2 lead)
  end.

Section Instance.
Context {W : Type}.
Variable label : arr2 nat -> arr2 nat.        (* dip.Label *)

Definition get_csd_data (x : geometric) : generator W lead_mask :=
  fun l1 l2 res w =>
    (let? d := ideal_csd_geometric label (g_tcts x) [fst l1; snd l1] [fst l2; snd l2] res
                 (g_rotation x) (g_lut x) (g_cdf x) (g_gamma x) in Ok (csd_arrays d), w).

(** SensorGeneric as sensor of a simulation. The two ranges are always swept ranges here; the
    potential is never an array of several potentials (left out). *)
Definition generic_object (s : generic_sensor) : sensor_object W response unit :=
  mk_sensor_object false
    (fun occ v1 v2 _ w => (let? im := generic_potential s occ (as_limits v1) (as_limits v2) in Ok (PotOne (RImage im)), w))
    (fun p w => (match p with
                 | PotOne (RImage im) => Ok (generic_response s im)
                 | _ => Err TypeError
                 end, w))
    (fun _ _ _ _ _ w => (Err AttributeError, w)).

(** A simulation without distortions and without sensor voltages. *)
Definition plain_config (lim1 lim2 : option (R * R)) (x : geometric) (s : generic_sensor)
  : config W lead_mask response unit :=
  mk_config lim1 lim2 None None (Some (get_csd_data x)) (generic_object s) None None None.
(** SensorGeneric(), the default sensor of a simulation *)
Definition default_sensor : generic_sensor := mk_generic None (-1, -1) (0, 0) 0.
End Instance.
