(** Similar configurations: all voltages stretched by a factor [k] and shifted by [d], that is, another
    unit and another zero of the voltages. *)
From Verif Require Import RPrelude Arr ModelSupport ModelTct ModelCsd ModelDistortions ModelSensor ModelSimulation ModelInstance ModelNoise SpecSupport SpecCsd.
Local Open Scope R_scope.

(** ** Voltages, TCTs, diagrams *)
Definition stretch (k d x : R) : R := k * x + d.
Definition stretch_point (k : R) (d q : point) : point := (stretch k (fst d) (fst q), stretch k (snd d) (snd q)).
Definition stretch_lims (k e : R) (l : R * R) : R * R := (stretch k e (fst l), stretch k e (snd l)).
(** Slopes do not change, lengths are stretched, start and end are stretched and shifted. *)
Definition stretch_tct (k : R) (d : point) (p : tct_params) : tct_params :=
  mk_tct (k * len_left p) (k * len_right p) (slope_left p) (slope_right p)
    (stretch k (fst d) (start_x p)) (stretch k (snd d) (start_y p)) (stretch k (fst d) (end_x p)) (stretch k (snd d) (end_y p)).
(** All TCTs of a configuration, for a shift [d] of the gate voltages: TCTs are given in rotated
    coordinates, in which the shift is rotated, too. *)
Definition stretch_csd (k : R) (d : point) (x : geometric) : geometric :=
  mk_geometric (map (stretch_tct k (tct_view (g_rotation x) d)) (g_tcts x)) (g_rotation x) (g_lut x) (g_cdf x) (g_gamma x).
(** The two lead transition slopes of every TCT differ (otherwise there is no triple point). *)
Definition bent (x : geometric) : Prop := forall p, In p (g_tcts x) -> slope_left p <> slope_right p.
(** Before and after the stretching, the widths of all interdot transitions (the length of the coupling
    across the reference line from [u] to [l], divided by the gamma factor) exceed 1e-8. *)
Definition visible_couplings (k : R) (x : geometric) : Prop :=
  forall n u l po, (1 <= n)%nat -> interdot_line (g_tcts x) n u l -> nth_error (g_tcts x) (n - 1) = Some po ->
  1 / 100000000 * Rabs (gamma_of (g_cdf x) (g_gamma x)) * dist2 u l < Rmin 1 k * Rabs (cross (vec u l) (coupling_vector po)).

(** ** Sensor: the same potential from the same charges in other units *)
Definition stretch_sensor (k : R) (d : point) (s : generic_sensor) : generic_sensor :=
  mk_generic (gs_peaks s) (gs_dot s) (fst (gs_gate s) / k, snd (gs_gate s) / k)
    (gs_offset s - (fst d * (fst (gs_gate s) / k) + snd d * (snd (gs_gate s) / k))).

(** ** Distortions: parameters that are voltages *)
Section Distortions.
Context {G : Type}.
Definition scale_param (k : R) (p : param G) : param G := fun g => (k * fst (p g), snd (p g)).
Definition scale_image_noise (k : R) (d : image_noise G) : image_noise G :=
  match d with Telegraph ratio scale std height => Telegraph ratio (scale_param k scale) std height | _ => d end.
Definition scale_occ_noise (k : R) (d : occ_noise G) : occ_noise G :=
  match d with
  | Blur key sigma kernel radius => Blur key (scale_param k sigma) kernel radius
  | Jumps key axis ratio scale lam => Jumps key axis ratio (scale_param k scale) (scale_param k lam)
  end.
(** Of the attributes of the distortion objects only latest_sigma is a voltage. *)
Definition scale_world (k : R) (w : noise_world G) : noise_world G :=
  mk_noise_world (fun i => option_map (Rmult k) (w_sigma w i)) (w_jump w) (w_rng w).

(** Both measurements return the same arrays or raise the same exception, and leave the objects in
    corresponding states. *)
Definition same_measurement (k : R) (a b : result (@measurement (noise_world G) lead_mask response unit) * noise_world G) : Prop :=
  snd a = scale_world k (snd b)
  /\ match fst a, fst b with
     | Ok m, Ok n => m_csd m = m_csd n /\ m_occ m = m_occ n /\ m_lead m = m_lead n
     | Err e, Err f => e = f
     | _, _ => False
     end.
End Distortions.
