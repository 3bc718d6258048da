(** Vocabulary for special floating point values. *)
From Flocq Require Import IEEE754.BinarySingleNaN.
From Verif Require Import RPrelude ModelCsd ModelSimulation ModelSpecial.
Local Open Scope R_scope.

Definition number (x : float64) : Prop := is_nan x = false.
Definition finite (x : float64) : Prop := is_finite x = true.
Definition real_of (x : float64) : R := B2R x.
Definition real_pair (l : float64 * float64) : R * R := (real_of (fst l), real_of (snd l)).
Definition all_finite (l : list float64) : Prop := Forall finite l.
Definition limits_are (P : float64 -> Prop) (l : limits64) : Prop := match l with None => True | Some (lo, hi) => P lo /\ P hi end.
Definition option_is (P : float64 -> Prop) (v : option float64) : Prop := match v with None => True | Some x => P x end.
(** A number between the limits, infinities included. *)
Definition inside (l : limits64) (x : float64) : Prop := match l with None => True | Some (lo, hi) => Bleb lo x = true /\ Bleb x hi = true end.
(** The limits of a simulation object are given by float64 numbers. *)
Definition same_limits {W L I K} (c : config W L I K) (l : all_limits) : Prop :=
  volt_limits_g1 c = option_map real_pair (al_g1 l) /\ volt_limits_g2 c = option_map real_pair (al_g2 l) /\
  volt_limits_sensor_g1 c = option_map real_pair (al_sensor_g1 l) /\ volt_limits_sensor_g2 c = option_map real_pair (al_sensor_g2 l).
Definition verdict {A} (r : result A) : result unit := match r with Ok _ => Ok tt | Err e => Err e end.
