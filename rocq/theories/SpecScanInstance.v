(** Vocabulary for sensor scans of a simulation with a SensorScanSensorGeneric object. *)
From Verif Require Import RPrelude Arr ModelSupport ModelTct ModelCsd ModelDistortions ModelSensor ModelSimulation ModelInstance
  ModelScanInstance SpecSensor.
Local Open Scope R_scope.

(** A pixel of a scan over the ranges [l1], [l2] of the sensor gates: voltages [w], value [x]. *)
Definition scan_value (im : image) (l1 l2 : R * R) (w : point) (x : R) : Prop :=
  match im with
  | Img1 c => exists i, (i < len1 c)%nat /\ w = (volt_at l1 (len1 c) i, volt_at l2 (len1 c) i) /\ x = cell1 c i
  | Img2 c => exists i j, (i < rows c)%nat /\ (j < cols c)%nat /\ w = (volt_at l1 (cols c) j, volt_at l2 (rows c) i) /\ x = cell c i j
  end.
(** As many pixels as requested: columns first. *)
Definition requested_shape (res : resolution) (im : image) : Prop :=
  match im with
  | Img1 c => res_list res = [Z.of_nat (len1 c)]
  | Img2 c => res = ResArray [Z.of_nat (cols c); Z.of_nat (rows c)]
  end.
(** Voltage of a plunger gate; none is 0. *)
Definition plunger (v : option R) : R := match v with None => 0 | Some x => x end.
(** The occupation at the plunger voltages: the first (and only) pixel of the ideal data there, (0, 0) without ideal
    data or voltages. *)
Definition plunger_occupation (label : arr2 nat -> arr2 nat) (x : option geometric) (v1 v2 : option R) (o : R * R) : Prop :=
  match x, v1, v2 with
  | Some g, Some x1, Some x2 => exists occ lead,
      ideal_csd_geometric label (g_tcts g) [x1; x1] [x2; x2] (ResInt 1) (g_rotation g) (g_lut g) (g_cdf g) (g_gamma g) = Ok (Csd1 occ lead) /\
      nth_error occ 0 = Some o
  | _, _, _ => o = (0, 0)
  end.
(** The sensor voltages [w] bring the barriers to the potentials [b1], [b2]. *)
Definition barriers_at (s : scan_sensor) (o v : R * R) (b1 b2 : R) (w : point) : Prop :=
  forall q, pot_spec s o v w q -> at_barrier1 q = b1 /\ at_barrier2 q = b2.
Definition pinch_point (s : scan_sensor) (o v : R * R) : point -> Prop :=
  barriers_at s o v (pinch_off (ss_barrier1 s)) (pinch_off (ss_barrier2 s)).
Definition full_point (s : scan_sensor) (o v : R * R) : point -> Prop :=
  barriers_at s o v (fully_conductive (ss_barrier1 s)) (fully_conductive (ss_barrier2 s)).
(** What is needed to find such points: independent barrier lever-arms, none of them negligibly small,
    and the error of C29 does not matter. *)
Definition points_exist (s : scan_sensor) (o : R * R) : Prop :=
  barrier_det s <> 0 /\
  (snd (row1 (ss_sensor s)) = 0 \/ 1 / 4503599627370496 <= Rabs (snd (row1 (ss_sensor s)))) /\
  (fst o = snd o \/ snd (row1 (ss_dot s)) = 0).
(** Every pixel shows the series combination of [dot w mu] (sensor voltages, sensor potential) and the
    barriers. *)
Definition shows (s : scan_sensor) (o v : R * R) (dot : point -> R -> R) (im : image) (l1 l2 : R * R) : Prop :=
  forall w x, scan_value im l1 l2 w x -> exists q, pot_spec s o v w q /\
    series_of x (dot w (at_sensor q)) (get_value (ss_barrier1 s) (at_barrier1 q)) (get_value (ss_barrier2 s) (at_barrier2 q)).
(** Sensor scans that are accepted. *)
Definition scannable (x : option geometric) (v1 v2 : option R) (res : resolution) : Prop :=
  Forall (fun n => (1 <= n)%Z) (res_list res) /\
  match res with
  | ResInt _ => x = None \/ v1 = None \/ v2 = None
  | ResArray [_] => x <> None /\ v1 <> None /\ v2 <> None
  | ResArray l => length l = 2%nat
  end.
(** A pixel with the value [x] and the labels [c] (conductive area) and [k] (Coulomb peak). *)
Definition labelled_value (im : image) (L : labels) (l1 l2 : R * R) (w : point) (x : R) (c k : nat) : Prop :=
  let at_px (i j : nat) := (exists row, nth_error (conductive L) i = Some row /\ nth_error row j = Some c) /\
                           (exists row, nth_error (coulomb L) i = Some row /\ nth_error row j = Some k) in
  match im with
  | Img1 a => exists i, (i < len1 a)%nat /\ w = (volt_at l1 (len1 a) i, volt_at l2 (len1 a) i) /\ x = cell1 a i /\ at_px 0%nat i
  | Img2 a => exists i j, (i < rows a)%nat /\ (j < cols a)%nat /\ w = (volt_at l1 (cols a) j, volt_at l2 (rows a) i) /\ x = cell a i j /\ at_px i j
  end.

(** ** charge stability diagrams *)
(** A pixel of a diagram over the ranges [l1], [l2] of the plunger gates: voltages [v], occupation [o],
    value [y]. *)
Definition csd_value (im : image) (occ : occupation) (l1 l2 : R * R) (v : point) (o : R * R) (y : R) : Prop :=
  match im, occ with
  | Img1 c, Occ1 a => exists i, (i < len1 a)%nat /\ v = (volt_at l1 (len1 a) i, volt_at l2 (len1 a) i) /\ o = cell1 a i /\ y = cell1 c i
  | Img2 c, Occ2 a => exists i j, (i < rows a)%nat /\ (j < cols a)%nat /\
      v = (volt_at l1 (cols a) j, volt_at l2 (rows a) i) /\ o = cell a i j /\ y = cell c i j
  | _, _ => False
  end.
Definition same_shape_occ (im : image) (occ : occupation) : Prop :=
  match im, occ with
  | Img1 c, Occ1 a => len1 c = len1 a
  | Img2 c, Occ2 a => rows c = rows a /\ cols c = cols a
  | _, _ => False
  end.
