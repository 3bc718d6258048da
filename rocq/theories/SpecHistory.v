(** Vocabulary for measurements that follow other measurements. *)
From Verif Require Import RPrelude Arr ModelCsd ModelSensor ModelSimulation.
Local Open Scope R_scope.

Section History.
Context {W L I K G : Type}.
Variable rng : W -> G.                (* the random generators of a world *)
(** The entries of the metadata besides the state of the objects. *)
Definition same_settings (a b : @metadata W L I K) : Prop :=
  md_range1 a = md_range1 b /\ md_range2 a = md_range2 b /\ md_volt1 a = md_volt1 b /\ md_volt2 a = md_volt2 b /\
  md_resolution a = md_resolution b /\ md_config a = md_config b.
(** Two runs with the same readings that leave the random generators in the same state, or that raise the
    same exception. *)
Definition same_diagram (p q : result (@measurement W L I K) * W) : Prop :=
  match p, q with
  | (Ok a, w1), (Ok b, w2) =>
      m_csd a = m_csd b /\ m_occ a = m_occ b /\ m_lead a = m_lead b /\ same_settings (m_meta a) (m_meta b) /\ rng w1 = rng w2
  | (Err e, _), (Err e', _) => e = e'
  | _, _ => False
  end.
Definition same_sensor_scan (p q : result (@sensor_scan W L I K) * W) : Prop :=
  match p, q with
  | (Ok a, w1), (Ok b, w2) =>
      sc_scan a = sc_scan b /\ sc_labels a = sc_labels b /\ same_settings (sc_meta a) (sc_meta b) /\ rng w1 = rng w2
  | (Err e, _), (Err e', _) => e = e'
  | _, _ => False
  end.
End History.
