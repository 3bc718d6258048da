(** Vocabulary for the label areas of sensor scans with generalised logistic barriers. *)
From Verif Require Import RPrelude ModelSupport ModelSensor SpecSupport SpecSensor.
Local Open Scope R_scope.

(** A barrier that rises from 0 to [asymptote_right p] and is pinched off at the fraction [pinch], fully conductive at
    the fraction [full] of it. *)
Definition rising_barrier (p : glf_params) (pinch full : R) (b : barrier) : Prop :=
  barrier_glf p pinch full = Ok b /\ glf_admissible p /\ denominator_offset p = 1 /\ asymptote_left p = 0 /\
  0 < asymptote_right p /\ 0 < growth_rate p /\ 0 < pinch < 1 /\ 0 < full < 1.
(** A final rise from 0 that is not shifted itself (C28). *)
Definition rising_end (r : rise_params) : Prop :=
  glf_admissible (rise_glf r) /\ denominator_offset (rise_glf r) = 1 /\ asymptote_left (rise_glf r) = 0 /\
  0 < asymptote_right (rise_glf r) /\ 0 < growth_rate (rise_glf r) /\ rise_mu0 r = 0 /\ 0 < rise_percentage r < 1.
(** A sensor without deformations made of such parts, whose peaks are nowhere negative. *)
Definition conducting (p1 p2 : glf_params) (x1 f1 x2 f2 : R) (r : rise_params) (s : scan_sensor) : Prop :=
  rising_barrier p1 x1 f1 (ss_barrier1 s) /\ rising_barrier p2 x2 f2 (ss_barrier2 s) /\ rising_end r /\
  ss_rise s = Some (rise_function r) /\ ss_deform s = [] /\ forall mu, 0 <= base_dot s mu.
(** Opening the barriers raises the potential of the sensor dot: the lever-arms of the sensor dot are a combination of those
    of the barriers with positive factors. *)
Definition dot_between_barriers (s : scan_sensor) : Prop :=
  exists c1 c2, 0 < c1 /\ 0 < c2 /\
    fst (row0 (ss_sensor s)) = c1 * fst (row1 (ss_sensor s)) + c2 * fst (row2 (ss_sensor s)) /\
    snd (row0 (ss_sensor s)) = c1 * snd (row1 (ss_sensor s)) + c2 * snd (row2 (ss_sensor s)).
