(** Specification of the distortion classes: closed forms, no loops, no generator threading. *)
From Verif Require Import RPrelude Arr ModelJumps ModelDistortions SpecJumps.
Local Open Scope R_scope.

(** the pixels of an image in scan order (row by row) *)
Definition pixels (im : image) : list R :=
  match im with
  | Img1 a => to_list1 a
  | Img2 a => concat (to_list2 a)
  end.

(** pixel-wise sum in scan order *)
Definition plus_pixels (l noise : list R) : list R := map (fun p => fst p + snd p) (combine l noise).

(** pixels along an axis of a scan: axis 0 is the first (row, g2) axis, axis 1 the second (column, g1)
    axis of the array; a 1D scan has only one pixel axis. *)
Definition pixels_along (sh : shape) (axis : Z) : nat :=
  match sh with Shape1 n => n | Shape2 r c => if (axis =? 1)%Z then c else r end.
(** the swept voltage range of the gate that belongs to the axis *)
Definition range_along (lim1 lim2 : limits) (axis : Z) : R :=
  let l := if (axis =? 1)%Z then lim1 else lim2 in Rabs (snd l - fst l).
Definition px_per_volt (sh : shape) (lim1 lim2 : limits) (axis : Z) : R :=
  INR (pixels_along sh axis) / range_along lim1 lim2 axis.

Definition square (sh : shape) : Prop := match sh with Shape1 _ => True | Shape2 r c => r = c end.

(** observable equality of scans *)
Definition eq_lead {X} (e : X -> X -> Prop) (a b : option X) : Prop :=
  match a, b with None, None => True | Some x, Some y => e x y | _, _ => False end.
Definition eq_scan {A} (s t : scan A) : Prop :=
  match s, t with
  | Scan1 o l, Scan1 o' l' => eq1 o o' /\ eq_lead eq1 l l'
  | Scan2 o l, Scan2 o' l' => eq2 o o' /\ eq_lead eq2 l l'
  | _, _ => False
  end.

(** all lines of a scan along the blurring direction, for either dot *)
Definition scan_line {A} (s : scan A) (r : nat) (k : nat) : A * A :=
  match s with Scan1 o _ => cell1 o k | Scan2 o _ => cell o r k end.
Definition line_length {A} (s : scan A) : nat := match s with Scan1 o _ => len1 o | Scan2 o _ => cols o end.
Definition line_count {A} (s : scan A) : nat := match s with Scan1 _ _ => 1 | Scan2 o _ => rows o end.
Definition scan_lead {A} (s : scan A) : option (arr1 A) * option (arr2 A) :=
  match s with Scan1 _ l => (l, None) | Scan2 _ l => (None, l) end.
(** the scan with the sweep direction along the lines reversed *)
Definition reverse_lines {A} (s : scan A) : scan A :=
  match s with
  | Scan1 o l => Scan1 (flip1 o) (option_map flip1 l)
  | Scan2 o l => Scan2 (flip_cols o) (option_map flip_cols l)
  end.

(** the same 2D scan with the g2 sweep direction reversed (rows in opposite order) *)
Definition reverse_rows {A} (s : scan A) : scan A :=
  match s with
  | Scan1 o l => Scan1 (flip1 o) (option_map flip1 l)
  | Scan2 o l => Scan2 (flip_rows o) (option_map flip_rows l)
  end.
Definition swapped (l : limits) : limits := (snd l, fst l).
Definition is_2d {A} (s : scan A) : Prop := match s with Scan1 _ _ => False | Scan2 _ _ => True end.
Definition map_ok {X Y} (f : X -> Y) (r : result X) : result Y :=
  match r with Ok x => Ok (f x) | Err e => Err e end.

(** Does the data contain a NaN? *)
Definition clean1 {A} (isnan : A -> bool) (o : arr1 (A * A)) (n : nat) : Prop :=
  forall i, (i < n)%nat -> isnan (fst (cell1 o i)) = false /\ isnan (snd (cell1 o i)) = false.
Definition clean2 {A} (isnan : A -> bool) (o : arr2 (A * A)) (r c : nat) : Prop :=
  forall i j, (i < r)%nat -> (j < c)%nat ->
    isnan (fst (cell o i j)) = false /\ isnan (snd (cell o i j)) = false.

(** A 2D scan of a pair-valued function of the two gate voltages on the np.linspace grid, the ideal
    data source of the simulation. *)
Definition grid_point (l : limits) (n k : nat) : R := fst l + INR k * ((snd l - fst l) / INR (n - 1)).
Definition sample2 {X} (f : R -> R -> X) (lim1 lim2 : limits) (res : nat * nat) : arr2 X :=
  mk_arr2 (snd res) (fst res)
    (fun r c => f (grid_point lim1 (fst res) c) (grid_point lim2 (snd res) r)).
Definition sample1 {X} (f : R -> R -> X) (lim1 lim2 : limits) (n : nat) : arr1 X :=
  mk_arr1 n (fun i => f (grid_point lim1 n i) (grid_point lim2 n i)).
