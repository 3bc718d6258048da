(** Vocabulary for measurements of a simulation with geometric ideal data and a generic sensor. *)
From Verif Require Import RPrelude Arr ModelSupport ModelTct ModelCsd ModelDistortions ModelSensor ModelSimulation ModelInstance
  SpecTct SpecCsd SpecSensor.
Local Open Scope R_scope.

(** A pixel of a measurement over the limits [xl], [yl]: voltages [v], occupations [o], lead label
    [lab] and measured value [y]. *)
Definition measured_pixel {W} (m : @measurement W lead_mask response unit) (xl yl : R * R) (v : point) (o : R * R) (lab : nat) (y : R) : Prop :=
  match m_csd m, m_occ m, m_lead m with
  | RImage (Img1 c), Occ1 a, Lead1 l =>
      exists i, (i < len1 a)%nat /\ len1 c = len1 a /\ length l = len1 a /\
        v = (pixel_voltage xl (len1 a) i, pixel_voltage yl (len1 a) i) /\
        o = cell1 a i /\ nth_error l i = Some lab /\ y = cell1 c i
  | RImage (Img2 c), Occ2 a, Lead2 l =>
      exists i j, (i < rows a)%nat /\ (j < cols a)%nat /\ same_shape c a /\ same_shape l a /\
        v = (pixel_voltage xl (cols a) j, pixel_voltage yl (rows a) i) /\
        o = cell a i j /\ lab = cell l i j /\ y = cell c i j
  | _, _, _ => False
  end.
(** Number of pixels along the axes: (columns, rows), or (n, 1) for a 1D measurement. *)
Definition measured_shape {W} (m : @measurement W lead_mask response unit) : option (nat * nat) :=
  match m_csd m with
  | RImage (Img1 c) => Some (len1 c, 1%nat)
  | RImage (Img2 c) => Some (cols c, rows c)
  | RNumber _ => None
  end.
Definition config_ok (label : arr2 nat -> arr2 nat) (x : geometric) : Prop :=
  csd_config label (g_tcts x) (g_lut x) (g_cdf x) (g_gamma x).
(** Both ends of a sweep lie within the limits, if there are any. *)
Definition sweep_within (lim : option (R * R)) (a b : R) : Prop :=
  match lim with None => True | Some (lo, hi) => lo <= a <= hi /\ lo <= b <= hi end.
(** The limits [xl'], [yl'] describe the sweep over [xl], [yl] in the opposite direction: along one of
    the gates in 2D, along the line in 1D. *)
Definition reversed_sweep (res : resolution) (xl yl xl' yl' : R * R) : Prop :=
  (length (res_list res) = 2%nat /\
     (xl' = (snd xl, fst xl) /\ yl' = yl \/ xl' = xl /\ yl' = (snd yl, fst yl))) \/
  (length (res_list res) = 1%nat /\ xl' = (snd xl, fst xl) /\ yl' = (snd yl, fst yl)).
