(** Specification vocabulary for the sensors: affine potentials, peak curves, series conductance, label
    masks. It only mentions the data types of the model (records, arrays), none of its algorithms. *)
From Verif Require Import RPrelude Arr ModelSupport ModelCsd ModelDistortions ModelSensor SpecSupport.
Local Open Scope R_scope.

(** Length of a pair of lever arms *)
Definition arm_length (a : R * R) : R := sqrt (fst a ^ 2 + snd a ^ 2).

(** Voltage at pixel i of n of a sweep. *)
Definition volt_at (l : R * R) (n i : nat) : R :=
  if (n =? 1)%nat then fst l else fst l + (snd l - fst l) * (INR i / INR (n - 1)).
(** offset + lever-arm-weighted voltages + lever-arm-weighted occupations *)
Definition affine (off : R) (gate dot v o : R * R) : R :=
  off + (fst gate * fst v + snd gate * snd v) + (fst dot * fst o + snd dot * snd o).
Definition affine_scan (off : R) (gate dot sens v o w : R * R) : R :=
  affine off gate dot v o + (fst sens * fst w + snd sens * snd w).

(** One more electron in dot 1 or in dot 2. *)
Definition plus_one (dot1 : bool) (o : R * R) : R * R :=
  if dot1 then (fst o + 1, snd o) else (fst o, snd o + 1).
Definition pick (dot1 : bool) (a : R * R) : R := if dot1 then fst a else snd a.

(** A bell curve: symmetric around m, strictly falling with the distance, maximum off + h exactly at m,
    always above off. *)
Definition bell (f : R -> R) (m off h : R) : Prop :=
  (forall d, f (m + d) = f (m - d)) /\
  (forall x y, Rabs (x - m) < Rabs (y - m) -> f y < f x) /\
  f m = off + h /\ (forall x, f x <= off + h) /\ (forall x, f x = off + h -> x = m) /\
  (forall x, off < f x).

(** Conductances in series. *)
Definition is_series (r s b1 b2 : R) : Prop :=
  ((s = 0 \/ b1 = 0 \/ b2 = 0) -> r = 0) /\
  (0 < s -> 0 < b1 -> 0 < b2 -> r = 1 / (1 / s + 1 / b1 + 1 / b2)).

(** A rising / falling curve between its asymptotes whose far asymptote is asymptote_right. *)
Definition percentage_reached (p : glf_params) (x pct : R) : Prop :=
  glf p x = Rmin (asymptote_left p) (asymptote_right p)
            + pct * Rabs (asymptote_right p - asymptote_left p).

(** j is the first pixel of the row that is nearest to m. *)
Definition nearest (row : list R) (m : R) (j : nat) : Prop :=
  (j < length row)%nat /\
  (forall k, (k < length row)%nat -> Rabs (nth j row 0 - m) <= Rabs (nth k row 0 - m)) /\
  (forall k, (k < j)%nat -> Rabs (nth j row 0 - m) < Rabs (nth k row 0 - m)).
(** ... and it is neither first nor last pixel, or closer than the mean step of the scan. *)
Definition marks (step : option R) (row : list R) (m : R) (j : nat) : Prop :=
  nearest row m j /\
  ((j <> 0%nat /\ j <> (length row - 1)%nat) \/
   exists t, step = Some t /\ Rabs (nth j row 0 - m) < t).

(** Entry of a list of rows. *)
Definition at_ {A} (d : A) (m : list (list A)) (i j : nat) : A := nth j (nth i m []) d.
(** Row r, column c is a pixel. *)
Definition is_pixel {A} (m : list (list A)) (i j : nat) : Prop :=
  (i < length m)%nat /\ (j < length (nth i m []))%nat.
Definition sorted_peaks (ps : list peak) : Prop :=
  forall i j p q, (i < j)%nat -> nth_error ps i = Some p -> nth_error ps j = Some q -> mu0 p < mu0 q.

(** Limits meant by None, a number or an array. *)
Definition limits_of (v : volts) : R * R :=
  match v with VNone => (0, 0) | VFix x => (x, x) | VSweep a b => (a, b) end.
Definition swept (v : volts) : Prop := exists a b, v = VSweep a b.
Definition both_swept (v1 v2 w1 w2 : volts) : Prop := (swept v1 \/ swept v2) /\ (swept w1 \/ swept w2).
(** The three potentials of the sensor-scan sensor for occupation o, plunger voltages v, sensor voltages w. *)
Definition pot_spec (s : scan_sensor) (o v w : R * R) (q : three) : Prop :=
  at_sensor q = affine_scan (at_sensor (ss_offset s)) (row0 (ss_gate s)) (row0 (ss_dot s)) (row0 (ss_sensor s)) v o w /\
  at_barrier1 q = affine_scan (at_barrier1 (ss_offset s)) (row1 (ss_gate s)) (row1 (ss_dot s)) (row1 (ss_sensor s)) v o w /\
  at_barrier2 q = affine_scan (at_barrier2 (ss_offset s)) (row2 (ss_gate s)) (row2 (ss_dot s)) (row2 (ss_sensor s)) v o w.

(** Continuity of a real function of one argument (Coq's epsilon-delta definition). *)
Definition continuous_everywhere (f : R -> R) : Prop := forall x, continuity_pt f x.

(** Two responses with the same type, shape and entries. *)
Definition same_response (a b : response) : Prop :=
  match a, b with
  | RImage (Img1 x), RImage (Img1 y) => eq1 x y
  | RImage (Img2 x), RImage (Img2 y) => eq2 x y
  | RNumber x, RNumber y => x = y
  | _, _ => False
  end.
(** Sum of the peaks at one potential. *)
Definition peak_total (ps : list peak) (mu : R) : R :=
  fold_right Rplus 0 (map (fun p => peak_fun p (mu0 p) mu) ps).
(** The response of a deformed sensor: every peak is evaluated at its shifted position. *)
Definition deformed_total (deform : nat -> option (R -> R -> R)) (dist : R) (ps : list peak) (mu : R) : R :=
  fold_right Rplus 0 (map (fun ip : nat * peak =>
     peak_fun (snd ip) (match deform (fst ip) with Some f => f dist (mu0 (snd ip)) | None => mu0 (snd ip) end) mu)
     (combine (seq 0 (length ps)) ps)).

(** Lookup in the dictionary of deformations. *)
Definition deform_of (d : list (nat * (R -> R -> R))) (k : nat) : option (R -> R -> R) :=
  option_map snd (find (fun kv => Nat.eqb (fst kv) k) d).
(** Series combination for arbitrary numbers: 0 where the denominator vanishes. *)
Definition series_of (r s b1 b2 : R) : Prop :=
  let den := b1 * b2 + s * b1 + s * b2 in
  (den <> 0 -> r = s * b1 * b2 / den) /\ (den = 0 -> r = 0).
(** Distance (with sign) of the sensor voltages w from the line through mid in the direction of the sensor
    dot's lever-arms: positive to the right of it. *)
Definition on_middle_line (a : R * R) (mid w : point) : Prop :=
  exists t, w = (fst mid + t * fst a, snd mid + t * snd a).

(** Entry of an image or of the potentials; the pixels of a 1D scan are (0, j). *)
Definition pix {A} (a1 : option (arr1 A)) (a2 : option (arr2 A)) (i j : nat) (x : A) : Prop :=
  match a1, a2 with
  | Some a, _ => i = 0%nat /\ (j < len1 a)%nat /\ x = cell1 a j
  | None, Some a => (i < rows a)%nat /\ (j < cols a)%nat /\ x = cell a i j
  | None, None => False
  end.
Definition pot_pix (p : potentials) : nat -> nat -> three -> Prop :=
  match p with Pot1 a => pix (Some a) None | Pot2 a => pix None (Some a) end.
Definition img_pix (p : image) : nat -> nat -> R -> Prop :=
  match p with Img1 a => pix (Some a) None | Img2 a => pix None (Some a) end.
(** Voltages applied at a pixel. *)
Definition volt_pix (p : potentials) (l1 l2 : R * R) (i j : nat) : point :=
  match p with
  | Pot1 a => (volt_at l1 (len1 a) j, volt_at l2 (len1 a) j)
  | Pot2 a => (volt_at l1 (cols a) j, volt_at l2 (rows a) i)
  end.
Definition fixed (l : R * R) : Prop := fst l = snd l.
Definition same_shape_pot (im : image) (p : potentials) : Prop :=
  match im, p with
  | Img1 a, Pot1 b => len1 a = len1 b
  | Img2 a, Pot2 b => rows a = rows b /\ cols a = cols b
  | _, _ => False
  end.
Definition pot_nonempty (p : potentials) : Prop :=
  match p with Pot1 a => (0 < len1 a)%nat | Pot2 a => (0 < rows a)%nat /\ (0 < cols a)%nat end.
(** at least two pixels along each axis *)
Definition pot_two (p : potentials) : Prop :=
  match p with Pot1 a => (2 <= len1 a)%nat | Pot2 a => (2 <= rows a)%nat /\ (2 <= cols a)%nat end.

(** Potentials seen as a table; a 1D scan is a single row. *)
Definition nrows (p : potentials) : nat := match p with Pot1 _ => 1%nat | Pot2 a => rows a end.
Definition ncols (p : potentials) : nat := match p with Pot1 a => len1 a | Pot2 a => cols a end.
Definition pcell (p : potentials) (i j : nat) : three := match p with Pot1 a => cell1 a j | Pot2 a => cell a i j end.
Definition sensor_at (p : potentials) (i j : nat) : R := at_sensor (pcell p i j).
Definition sensor_row (p : potentials) (i : nat) : list R := map (sensor_at p i) (seq 0 (ncols p)).
(** Mean step of the sensor potential from pixel to pixel along the rows (first to last pixel of each row). *)
Definition mean_step (p : potentials) : option R :=
  if (ncols p <? 2)%nat then None
  else Some (Rabs (fold_right Rplus 0 (map (fun i => sensor_at p i (ncols p - 1) - sensor_at p i 0) (seq 0 (nrows p)))
                   / (INR (nrows p) * INR (ncols p - 1)))).
(** Three areas: pinched off, oscillating, fully conductive (above the potential [full]). *)
Definition is_open (s : scan_sensor) (q : three) : Prop :=
  pinch_off (ss_barrier1 s) < at_barrier1 q /\ pinch_off (ss_barrier2 s) < at_barrier2 q.
Definition area_of (s : scan_sensor) (full : R) (q : three) (a : nat) : Prop :=
  (~ is_open s q -> a = 0%nat) /\
  (is_open s q -> at_sensor q <= full -> a = 1%nat) /\
  (is_open s q -> full < at_sensor q -> a = 2%nat).
(** Same number of rows and columns as the scan. *)
Definition has_shape {A} (m : list (list A)) (p : potentials) : Prop :=
  length m = nrows p /\ forall i, (i < nrows p)%nat -> length (nth i m []) = ncols p.
(** Distance of the sensor voltages w from the line through mid with the direction of the lever-arms a
    (first lever-arm positive), positive on the side of large first and small second voltages. *)
Definition middle_distance (a : R * R) (mid w : point) : R :=
  (snd a * (fst w - fst mid) - fst a * (snd w - snd mid)) / sqrt (fst a ^ 2 + snd a ^ 2).
(** Position of peak k at a distance from the middle line. *)
Definition peak_position (deform : nat -> option (R -> R -> R)) (dist : R) (k : nat) (pk : peak) : R :=
  match deform k with Some f => f dist (mu0 pk) | None => mu0 pk end.
(** The peak at the given position for every pixel of row i marks pixel j. *)
Definition marks_at (p : potentials) (position : nat -> R) (i j : nat) : Prop :=
  marks (mean_step p) (map (fun c => sensor_at p i c - position c) (seq 0 (ncols p))) 0 j.
(** The label of a pixel is k + 1 for a peak k; 0 is no peak. *)
Definition labelled (L : labels) (i j k : nat) : Prop := at_ 0%nat (coulomb L) i j = S k.
(** Every pixel of the image is the series combination of a response of the sensor dot and the two
    barriers. *)
Definition combined (s : scan_sensor) (dot : nat -> nat -> R) (p : potentials) (im : image) : Prop :=
  same_shape_pot im p /\
  forall i j x q, img_pix im i j x -> pot_pix p i j q ->
    series_of x (dot i j) (get_value (ss_barrier1 s) (at_barrier1 q)) (get_value (ss_barrier2 s) (at_barrier2 q)).
(** No deformations: none configured or a plunger gate is swept. *)
Definition undeformed (s : scan_sensor) (h : hidden) : Prop :=
  ss_deform s = [] \/ ~ fixed (h_g1 h) \/ ~ fixed (h_g2 h).
(** Without deformations, at one potential; a sensor without peaks returns the potential. *)
Definition base_dot (s : scan_sensor) (mu : R) : R :=
  match ss_peaks s with None => mu | Some ps => peak_total ps mu end.
(** No final rise, or a sensor scan. *)
Definition repeatable (s : scan_sensor) (h : hidden) : Prop :=
  ss_rise s = None \/ (fixed (h_g1 h) /\ fixed (h_g2 h)) \/ (ss_deform s = [] /\ (fixed (h_g1 h) \/ fixed (h_g2 h))).
(** Determinant of the lever-arms of the sensor gates on the barriers. *)
Definition barrier_det (s : scan_sensor) : R :=
  fst (row1 (ss_sensor s)) * snd (row2 (ss_sensor s)) - snd (row1 (ss_sensor s)) * fst (row2 (ss_sensor s)).
(** Position of a peak at a pixel of a sensor scan with deformations around the line through mid, and
    the sum of all peaks there. *)
Definition shown_peak (s : scan_sensor) (mid : point) (l1 l2 : R * R) (p : potentials) (i c k : nat) (pk : peak) : R :=
  peak_position (deform_of (ss_deform s)) (middle_distance (row0 (ss_sensor s)) mid (volt_pix p l1 l2 i c)) k pk.
Definition shown_total (s : scan_sensor) (mid : point) (l1 l2 : R * R) (p : potentials) (ps : list peak) (i c : nat) : R :=
  fold_right Rplus 0 (map (fun kp : nat * peak => peak_fun (snd kp) (shown_peak s mid l1 l2 p i c (fst kp) (snd kp)) (sensor_at p i c))
    (combine (seq 0 (length ps)) ps)).
