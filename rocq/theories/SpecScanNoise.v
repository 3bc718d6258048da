(** Vocabulary for measurements of a simulation with a SensorScanSensorGeneric object and distortions. *)
From Verif Require Import RPrelude Arr ModelSupport ModelTct ModelCsd ModelDistortions ModelSensor ModelSimulation ModelInstance
  ModelNoise ModelScanInstance ModelDefault ModelScanNoise SpecInstance SpecSensor SpecNoise.
Local Open Scope R_scope.

(** Pixel number [k] in scan order of a sensor scan over the ranges [l1], [l2] of the sensor gates: voltages
    [w], value [y]. *)
Definition scan_pixel (im : image) (l1 l2 : R * R) (k : nat) (w : point) (y : R) : Prop :=
  match im with
  | Img1 c => (k < len1 c)%nat /\ w = (volt_at l1 (len1 c) k, volt_at l2 (len1 c) k) /\ y = cell1 c k
  | Img2 c => exists i j, (i < rows c)%nat /\ (j < cols c)%nat /\ k = (i * cols c + j)%nat /\
      w = (volt_at l1 (cols c) j, volt_at l2 (rows c) i) /\ y = cell c i j
  end.
(** The same for a diagram over the ranges of the plunger gates: voltages [v], occupation [o]. *)
Definition csd_pixel (im : image) (occ : occupation) (l1 l2 : R * R) (k : nat) (v : point) (o : R * R) (y : R) : Prop :=
  match im, occ with
  | Img1 c, Occ1 a => (k < len1 a)%nat /\ len1 c = len1 a /\ v = (volt_at l1 (len1 a) k, volt_at l2 (len1 a) k) /\ o = cell1 a k /\ y = cell1 c k
  | Img2 c, Occ2 a => exists i j, (i < rows a)%nat /\ (j < cols a)%nat /\ k = (i * cols a + j)%nat /\ rows c = rows a /\ cols c = cols a /\
      v = (volt_at l1 (cols a) j, volt_at l2 (rows a) i) /\ o = cell a i j /\ y = cell c i j
  | _, _ => False
  end.
(** Response of the sensor dot: the peaks or, if it is larger, the final rise shifted to [off]. *)
Definition dot_value (s : scan_sensor) (off mu : R) : R :=
  match ss_rise s with None => base_dot s mu | Some rise => Rmax (base_dot s mu) (rise mu off) end.
(** The value of a pixel with the noiseless potentials [q], the noises [z0], [z1], [z2] of the three
    potentials and the noise [zr] of the response. *)
Definition noisy_value (s : scan_sensor) (off : R) (q : three) (z0 z1 z2 zr y : R) : Prop :=
  exists x, series_of x (dot_value s off (at_sensor q + z0))
    (get_value (ss_barrier1 s) (at_barrier1 q + z1)) (get_value (ss_barrier2 s) (at_barrier2 q + z2)) /\ y = x + zr.

(** A measurement, or a sensor scan, of the given shape was returned. *)
Definition returned_csd {W} (r : result (@measurement W lead_mask image labels) * W) (sh : shape) : Prop :=
  exists m w', r = (Ok m, w') /\ shape_of_occ (m_occ m) = Some sh /\ image_shape (m_csd m) = sh.
Definition returned_scan {W} (r : result (@sensor_scan W lead_mask image labels) * W) (sh : shape) : Prop :=
  exists m w', r = (Ok m, w') /\ image_shape (sc_scan m) = sh.
(** The generator after drawing pink noise for [n] pixels, and for each of the three potentials. *)
Definition after_pink {G} (src : sources G) (sigma : param G) (n : nat) (g : G) : G := snd (src_powerlaw src n 0 (snd (sigma g))).
Definition after_pink3 {G} (src : sources G) (sigma : param G) (n : nat) (g : G) : G :=
  after_pink src sigma n (after_pink src sigma n (after_pink src sigma n g)).
(** At least one of three draws, one after the other, activates the noise. *)
Definition one_of_three {G} (src : sources G) (ratio : R) (g : G) : bool :=
  let (b0, g0) := src_binomial src ratio g in
  let (b1, g1) := src_binomial src ratio g0 in
  let (b2, _) := src_binomial src ratio g1 in b0 || b1 || b2.
(** Sensor gate voltages within the limits of that configuration. *)
Definition sensor_within (u : R) : Prop := fst limits_sensor <= u <= snd limits_sensor.
(** At most 22 mV per pixel. *)
Definition fine_scan (a1 b1 a2 b2 : R) (res : resolution) : Prop :=
  match res_list res with
  | [n] => (a1 <> b1 \/ a2 <> b2) /\ Rabs (b1 - a1) <= 0.022 * IZR n /\ Rabs (b2 - a2) <= 0.022 * IZR n
  | [nx; ny] => Rabs (b1 - a1) <= 0.022 * IZR nx /\ Rabs (b2 - a2) <= 0.022 * IZR ny
  | _ => False
  end.
(** A 2D request with less than 44.7 pixels per volt: rows for sensor gate 1, columns for sensor gate 2 (as
    the telegraph noise counts them, C38). *)
Definition coarse_scan (a1 b1 a2 b2 : R) (nx ny : nat) : Prop :=
  a1 <> b1 /\ a2 <> b2 /\ (2 <= nx)%nat /\ (2 <= ny)%nat /\ INR ny <= 44.7 * Rabs (b1 - a1) /\ INR nx <= 44.7 * Rabs (b2 - a2).
