(** Specification vocabulary for ideal charge stability diagrams. *)
From Verif Require Import RPrelude Arr ModelSupport ModelTct SpecTct ModelCsd.
Local Open Scope R_scope.

(** The point [v] (voltages of gate 1 and gate 2) in the coordinate system of the TCT parameters. *)
Definition tct_view (rotation : R) (v : point) : point := rotate_point (- rotation) v.

(** [v] lies on or above, or strictly below, the k-th TCT (counted from 1, limited to k peaks). *)
Definition on_or_above (params : list tct_params) (lut : option nat) (rotation : R) (v : point) (k : nat) : Prop :=
  exists p y, (1 <= k)%nat /\ nth_error params (k - 1) = Some p /\
    tct_bezier_number p lut (Some k) (fst (tct_view rotation v)) = Ok y /\ y <= snd (tct_view rotation v).
Definition strictly_below (params : list tct_params) (lut : option nat) (rotation : R) (v : point) (k : nat) : Prop :=
  exists p y, (1 <= k)%nat /\ nth_error params (k - 1) = Some p /\
    tct_bezier_number p lut (Some k) (fst (tct_view rotation v)) = Ok y /\ snd (tct_view rotation v) < y.

(** The electron number at [v]: all TCTs up to the n-th are passed, the next one is not. *)
Definition electrons (params : list tct_params) (lut : option nat) (rotation : R) (v : point) (n : nat) : Prop :=
  (forall k, (1 <= k <= n)%nat -> on_or_above params lut rotation v k) /\
  strictly_below params lut rotation v (S n).

(** [v] lies above every TCT of the configuration. *)
Definition above_all (params : list tct_params) (lut : option nat) (rotation : R) (v : point) : Prop :=
  forall k, (1 <= k <= length params)%nat -> on_or_above params lut rotation v k.

(** Configurations whose TCT functions evaluate everywhere. *)
Definition proper_tcts (params : list tct_params) (lut : option nat) : Prop :=
  Forall (fun p => admissible p /\ good_mode p lut) params.

(** Voltage of pixel i of n along a sweep. *)
Definition pixel_voltage (lims : R * R) (n i : nat) : R :=
  fst lims + INR i * ((snd lims - fst lims) / INR (n - 1)).

(** ** connected regions *)
Definition in_image (m : arr2 nat) (a : nat * nat) : Prop := (fst a < rows m)%nat /\ (snd a < cols m)%nat.
Definition value_at (m : arr2 nat) (a : nat * nat) : nat := cell m (fst a) (snd a).
Definition adjacent (a b : nat * nat) : Prop :=
  (fst a = fst b /\ (snd a = S (snd b) \/ snd b = S (snd a))) \/
  (snd a = snd b /\ (fst a = S (fst b) \/ fst b = S (fst a))).
Definition unlabelled (m : arr2 nat) (a : nat * nat) : Prop := in_image m a /\ value_at m a = 0%nat.

(** connected through horizontally or vertically adjacent unlabelled pixels *)
Inductive connected (m : arr2 nat) : nat * nat -> nat * nat -> Prop :=
| conn_refl a : unlabelled m a -> connected m a a
| conn_step a b c : connected m a b -> adjacent b c -> unlabelled m c -> connected m a c.

(** What dip.Label promises: background 0, one label per connected region. *)
Definition is_labelling (m labels : arr2 nat) : Prop :=
  (forall a, in_image m a -> (value_at labels a = 0 <-> value_at m a <> 0)%nat) /\
  (forall a b, unlabelled m a -> unlabelled m b -> (value_at labels a = value_at labels b <-> connected m a b)).

(** Results of a scan, observed pixel by pixel. *)
Definition eq_csd (a b : csd_data) : Prop :=
  match a, b with
  | Csd1 o l, Csd1 o' l' => o = o' /\ l = l'
  | Csd2 o l, Csd2 o' l' => eq2 o o' /\ eq2 l l'
  | _, _ => False
  end.
Definition eq_result (a b : result csd_data) : Prop :=
  match a, b with Ok x, Ok y => eq_csd x y | Err e, Err e' => e = e' | _, _ => False end.

(** The same scan read backwards along gate 1, gate 2, or (1D) along the sweep. *)
Definition mirror_g1 (r : result csd_data) : result csd_data :=
  match r with Ok (Csd2 o l) => Ok (Csd2 (flip_cols o) (flip_cols l)) | _ => r end.
Definition mirror_g2 (r : result csd_data) : result csd_data :=
  match r with Ok (Csd2 o l) => Ok (Csd2 (flip_rows o) (flip_rows l)) | _ => r end.
Definition mirror_1d (r : result csd_data) : result csd_data :=
  match r with Ok (Csd1 o l) => Ok (Csd1 (rev o) (rev l)) | _ => r end.

(** Well-formed requests for an ideal CSD. *)
Definition well_formed_request (l1 l2 : list R) (res : list Z) : Prop :=
  exists a1 b1 a2 b2, l1 = [a1; b1] /\ l2 = [a2; b2] /\ (length res <= 2)%nat /\
  (length res = 2%nat -> a1 <> b1 /\ a2 <> b2 /\ Forall (fun r => (1 < r)%Z) res).

(** cross product of two plane vectors, and the difference of two points *)
Definition cross (a b : point) : R := fst a * snd b - snd a * fst b.
Definition vec (a b : point) : point := (fst b - fst a, snd b - snd a).

(** ** pixels of a scan *)
(** Pixel at voltages [v] of a scan over the limits [xl], [yl]: occupations [o], lead label [lab]. *)
Definition scan_pixel (d : csd_data) (xl yl : R * R) (v : point) (o : R * R) (lab : nat) : Prop :=
  match d with
  | Csd1 occ lead => exists i, nth_error occ i = Some o /\ nth_error lead i = Some lab /\
      v = (pixel_voltage xl (length occ) i, pixel_voltage yl (length occ) i)
  | Csd2 occ lead => exists i j, (i < rows occ)%nat /\ (j < cols occ)%nat /\
      o = cell occ i j /\ lab = cell lead i j /\
      v = (pixel_voltage xl (cols occ) j, pixel_voltage yl (rows occ) i)
  end.

(** ** interdot transitions *)
(** The reference line of the region with n electrons: from the first valley of TCT n+1 ([u]) to the
    first peak of TCT n ([l]), in TCT coordinates. *)
Definition interdot_line (params : list tct_params) (n : nat) (u l : point) : Prop :=
  exists pu cu po, nth_error params n = Some pu /\ corner pu cu /\
    u = (fst cu + len_right pu, snd cu + len_right pu * slope_right pu) /\
    nth_error params (n - 1) = Some po /\ corner po l.

(** The k-th peak (from 0) of a TCT with first peak [c]. *)
Definition peak_point (p : tct_params) (c : point) (k : nat) : point :=
  (fst c + INR k * (len_left p + len_right p),
   snd c + INR k * (len_left p * slope_left p + len_right p * slope_right p)).

(** From the left to the right end of the rounded part. *)
Definition coupling_vector (p : tct_params) : point := (end_x p - start_x p, end_y p - start_y p).

(** The distribution function selected by name. *)
Definition cdf_of (kind : cdf_kind) (f : R -> R -> R -> R) : Prop :=
  (kind = Sigmoid /\ f = sigmoid_cdf) \/ (kind = Cauchy /\ f = cauchy_cdf).

(** signed distance of [q] from the line through [a] and [b]: positive to the right of it *)
Definition line_distance (a b q : point) : R :=
  - cross (vec a b) (vec a q) / sqrt (fst (vec a b) ^ 2 + snd (vec a b) ^ 2).

(** ** 2D lead-transition masks *)
Definition spacing (lims : R * R) (n : nat) : R := (snd lims - fst lims) / INR (n - 1).

(** [v] lies in the scanned window, extended by half a pixel on both sides *)
Definition in_window (lims : R * R) (n : nat) (v : R) : Prop :=
  fst lims - spacing lims n / 2 < v < snd lims + spacing lims n / 2.

(** pixel i is the one nearest to [v] *)
Definition nearest_pixel (lims : R * R) (n i : nat) (v : R) : Prop :=
  (i < n)%nat /\ - (spacing lims n / 2) <= v - pixel_voltage lims n i < spacing lims n / 2.

(** TCT k has a sampled point in the cell of pixel (i, j): row i, column j. *)
Definition drawn (params : list tct_params) (lut : option nat) (rotation : R) (xl yl : R * R)
  (nx ny : nat) (a : nat * nat) (k : nat) : Prop :=
  exists x p y, In x (mask_samples xl yl nx ny rotation) /\ (1 <= k)%nat /\ nth_error params (k - 1) = Some p /\
    tct_bezier_number p lut (Some k) x = Ok y /\
    let q := rotate_point rotation (x, y) in
    in_window xl nx (fst q) /\ in_window yl ny (snd q) /\
    nearest_pixel xl nx (snd a) (fst q) /\ nearest_pixel yl ny (fst a) (snd q).

(** ** sampling density *)
(** Extent of the scanned rectangle along the rotated x-axis, and the distance of the sampled points. *)
Definition rotated_extent (xl yl : R * R) (rotation : R) : R :=
  Rabs (cos rotation) * (snd xl - fst xl) + Rabs (sin rotation) * (snd yl - fst yl).
Definition sample_distance (xl yl : R * R) (nx ny : nat) (rotation : R) : R :=
  (rotated_extent xl yl rotation + 2 * spacing xl nx) / INR ((nx + ny) * 4 - 1).

(** The curve cannot leave the neighbourhood of a pixel between two samples: [L] bounds the slopes,
    [eps] the deviation of a lookup table from the curve. *)
Definition fine_sampling (xl yl : R * R) (nx ny : nat) (rotation L eps : R) : Prop :=
  let d := sample_distance xl yl nx ny rotation / 2 in
  Rabs (cos rotation) * d + Rabs (sin rotation) * (L * d + 2 * eps) < spacing xl nx / 2 /\
  Rabs (sin rotation) * d + Rabs (cos rotation) * (L * d + 2 * eps) < spacing yl ny / 2.

(** All slopes of the TCTs are at most [L]; values are exact or those of a lookup table with error at
    most [eps]. *)
Definition bounded_tct (L eps : R) (lut : option nat) (p : tct_params) : Prop :=
  admissible p /\ peak p /\ Rabs (slope_left p) <= L /\ Rabs (slope_right p) <= L /\
  match lut with
  | None | Some O => True
  | Some n => (2 <= n)%nat /\ L * ((end_x p - start_x p) / INR (n - 1)) <= eps
  end.

(** ** requests in scope of the occupation theorems *)
(** the factor dividing the widths of interdot transitions *)
Definition gamma_of (kind : cdf_kind) (gf : option R) : R :=
  match gf, kind with Some g, _ => g | None, Sigmoid => 22 / 10 | None, _ => 615 / 100 end.

(** TCTs that evaluate, at most 255 of them (labels are stored in a byte), a known distribution, a
    correct connected-component labelling, and no division by zero (numpy would return nan) in the
    distances and widths of the interdot transitions. *)
Definition csd_config (label : arr2 nat -> arr2 nat) (params : list tct_params) (lut : option nat) (kind : cdf_kind)
  (gf : option R) : Prop :=
  proper_tcts params lut /\ (1 <= length params < 256)%nat /\ kind <> UnknownCdf /\ (forall m, is_labelling m (label m)) /\
  gamma_of kind gf <> 0 /\ (forall n u l, (1 <= n)%nat -> interdot_line params n u l -> u <> l).

(** The electron number a scan assigns to a pixel: in 1D by the position of the pixel itself (0 above
    all TCTs), in 2D by the label or by a pixel of the same unlabelled region. *)
Definition assigned (params : list tct_params) (lut : option nat) (rotation : R) (d : csd_data) (xl yl : R * R)
  (v : point) (lab n : nat) : Prop :=
  match d with
  | Csd1 _ _ => electrons params lut rotation v n \/ (above_all params lut rotation v /\ n = 0%nat)
  | Csd2 occ lead =>
      (lab <> 0%nat /\ n = lab) \/
      (lab = 0%nat /\ exists a b, in_image lead a /\ connected lead a b /\
         v = (pixel_voltage xl (cols occ) (snd a), pixel_voltage yl (rows occ) (fst a)) /\
         electrons params lut rotation (pixel_voltage xl (cols occ) (snd b), pixel_voltage yl (rows occ) (fst b)) n)
  end.
