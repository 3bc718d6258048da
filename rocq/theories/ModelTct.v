(** Model of the total charge transitions (TCTs) of simcats/ideal_csd/geometric: tct_bezier,
    initialize_tct_functions, calculate_all_bezier_anchors. Real numbers stand for float64. *)
From Verif Require Import RPrelude ModelSupport.
Local Open Scope R_scope.

(** The eight TCT parameters, _tct_bezier.py:30-39. *)
Record tct_params := mk_tct {
  len_left : R; len_right : R; slope_left : R; slope_right : R;
  start_x : R; start_y : R; end_x : R; end_y : R }.

(** ** _tct_bezier.py *)

(** Central bezier anchor, lines 66-75. For equal slopes numpy divides by zero: the anchor becomes
    inf or nan, both of which fail the assertion in line 79 - hence the exception. *)
Definition bezier_center (p : tct_params) : result point :=
  if Reqb (start_x p) (end_x p) && Reqb (start_y p) (end_y p)
  then Ok (start_x p, start_y p)
  else if Reqb (slope_right p) (slope_left p) then Err AssertionError
  else
    let cx := (start_y p - end_y p + end_x p * slope_right p - start_x p * slope_left p)
              / (slope_right p - slope_left p) in
    Ok (cx, start_y p + slope_left p * (cx - start_x p)).

(** One coordinate of the quadratic bezier curve with nodes a0, a1, a2 (package bezier). *)
Definition bezier_at (a0 a1 a2 t : R) : R := (1 - t)^2 * a0 + 2 * (1 - t) * t * a1 + t^2 * a2.

(** [np.argmin]: index of the first minimum (0 for the empty list, on which numpy raises; the lookup
    table has at least one entry here). *)
Fixpoint argmin_from (l : list R) (i best : nat) (m : R) : nat :=
  match l with
  | [] => best
  | x :: t => if Rltb x m then argmin_from t (S i) i x else argmin_from t (S i) best m
  end.
Definition argmin (l : list R) : nat :=
  match l with [] => 0%nat | x :: t => argmin_from t 1 0 x end.

(** Lookup table (lines 88-90) and its evaluation (lines 145, 171-176). *)
Definition lut_points (p : tct_params) (c : point) (n : nat) : list point :=
  map (fun t => (bezier_at (start_x p) (fst c) (end_x p) t, bezier_at (start_y p) (snd c) (end_y p) t))
      (linspace 0 1 n).
Definition lut_eval (p : tct_params) (c : point) (n : nat) (x : R) : R :=
  let lut := lut_points p c n in
  snd (nth (argmin (map (fun q => Rabs (fst q - x)) lut)) lut (0, 0)).

(** Explicit evaluation, lines 92-94 and 148-158. [sympy.solve] of the implicit equation for y: the
    implicit polynomial is the resultant of x(t) - x and y(t) - y, whose roots in y are the values of
    y(t) at the solutions t of x(t) = x. These are two (then the maximum is taken) unless the
    quadratic coefficient of x(t) vanishes. *)
Definition bezier_solve (p : tct_params) (c : point) (x : R) : R :=
  let y := bezier_at (start_y p) (snd c) (end_y p) in
  let a := start_x p - 2 * fst c + end_x p in
  let b := 2 * (fst c - start_x p) in
  if Reqb a 0 then y ((x - start_x p) / b)
  else
    let s := sqrt (b ^ 2 - 4 * a * (start_x p - x)) in
    Rmax (y ((- b - s) / (2 * a))) (y ((- b + s) / (2 * a))).

(** [if lut_entries:] - None and 0 both select the explicit solution. *)
Definition bezier_eval (p : tct_params) (c : point) (lut : option nat) : R -> R :=
  match lut with
  | None | Some O => bezier_solve p c
  | Some n => lut_eval p c n
  end.

(** Derived lengths and offsets, lines 98-114. *)
Definition bezier_length (p : tct_params) : R := end_x p - start_x p.
Definition left_lin_length (p : tct_params) (c : point) : R := len_left p - 2 * (fst c - start_x p).
Definition right_lin_length (p : tct_params) (c : point) : R := len_right p - 2 * (end_x p - fst c).
Definition period_length (p : tct_params) : R := len_left p + len_right p.
Definition y_offset_inv (p : tct_params) (c : point) : R :=
  (end_y p + right_lin_length p c * slope_right p) - (-1 * end_y p).
Definition y_offset_period (p : tct_params) (c : point) : R :=
  start_y p - ((y_offset_inv p c - start_y p) + left_lin_length p c * slope_left p).

(** Lines 138-199 for one entry; [x] is already shifted by start_x (line 106). A zero period makes
    math.floor fail on nan or inf. *)
Definition wave_value (p : tct_params) (c : point) (bez : R -> R) (x : R) : result R :=
  let period := period_length p in
  if Reqb period 0 then Err (if Reqb x 0 then ValueError else OverflowError)
  else
    let period_no := Int_part (x / period) in
    let x_mod := x - period * IZR period_no in
    let bl := bezier_length p in
    let rl := right_lin_length p c in
    let y :=
      if Rltb x_mod bl then bez (x_mod + start_x p)
      else if Rltb x_mod (bl + rl) then end_y p + (x_mod - bl) * slope_right p
      else if Rltb x_mod (bl * 2 + rl) then
        -1 * bez (2 * bl + rl - x_mod + start_x p) + y_offset_inv p c
      else (y_offset_inv p c - start_y p) + (x_mod - (bl * 2 + rl)) * slope_left p in
    Ok (y - y_offset_period p c * IZR period_no).

(** Wave range, lines 116-127. *)
Definition wave_end (p : tct_params) (mp : nat) : R :=
  end_x p + (INR mp - 1) * (len_left p + len_right p).
Definition in_wave (p : tct_params) (mp : nat) (x : R) : bool :=
  Rleb (start_x p) x && Rleb x (wave_end p mp).

(** Outer linear parts, lines 204-211: they overwrite both boundary points as well. *)
Definition outer_value (p : tct_params) (c : point) (mp : nat) (xy : R * R) : R :=
  let (x, y) := xy in
  let y1 := if Rleb x (start_x p) then start_y p + (x - start_x p) * slope_left p else y in
  if Rleb (wave_end p mp) x then
    (start_y p - (INR mp - 1) * y_offset_period p c + (end_y p - start_y p))
    + (x - wave_end p mp) * slope_right p
  else y1.

(** tct_bezier on an array, lines 51-216. Without [max_peaks] line 129 reads the first entry. *)
Definition tct_bezier (p : tct_params) (lut : option nat) (max_peaks : option nat) (xs : list R)
  : result (list R) :=
  let? c := bezier_center p in
  raise_if (negb (Rleb (start_x p) (fst c) && Rleb (fst c) (end_x p))) AssertionError
  (raise_if (negb (Rleb (2 * (fst c - start_x p)) (len_left p)
                   && Rleb (2 * (end_x p - fst c)) (len_right p))) AssertionError
   (let wave x := wave_value p c (bezier_eval p c lut) (x - start_x p) in
    match max_peaks with
    | None => match xs with [] => Err IndexError | _ => mapM wave xs end
    | Some mp =>
        let? ys := mapM (fun x => if in_wave p mp x then wave x else Ok 0) xs in
        if forallb (in_wave p mp) xs then Ok ys
        else Ok (map (outer_value p c mp) (combine xs ys))
    end)).

(** tct_bezier on a number, lines 52-54 and 213-214. *)
Definition tct_bezier_number (p : tct_params) (lut : option nat) (max_peaks : option nat) (x : R)
  : result R :=
  let? ys := tct_bezier p lut max_peaks [x] in get_item ys 0.

(** ** _initialize_tct_functions.py:59-65: TCT number max_peaks + i is limited to max_peaks + i peaks.
    The dictionary is a list of pairs in insertion order. *)
Definition initialize_tct_functions (tcts : list tct_params) (max_peaks : nat)
  : list (nat * (option nat -> list R -> result (list R))) :=
  map (fun ip => ((max_peaks + fst ip)%nat,
                  fun lut xs => tct_bezier (snd ip) lut (Some (max_peaks + fst ip)%nat) xs))
      (combine (seq 0 (length tcts)) tcts).

(** ** _calculate_all_bezier_anchors.py *)

(** (left, center, right) anchor of one peak or valley *)
Definition anchors := (point * point * point)%type.

(** Lines 67-76: the first peak. No exception here: equal slopes give nan coordinates, which the
    theorems exclude. *)
Definition first_anchors (p : tct_params) : anchors :=
  let cx := (start_y p - end_y p + end_x p * slope_right p - start_x p * slope_left p)
            / (slope_right p - slope_left p) in
  ((start_x p, start_y p), (cx, start_y p + slope_left p * (cx - start_x p)), (end_x p, end_y p)).

(** Lines 97-114: from the anchors with number i to those with number i + 1; [dl], [dr] are the
    x-distances of lines 79-80. *)
Definition next_anchors (p : tct_params) (dl dr : R) (i : nat) (a : anchors) : anchors :=
  let '(_, (cx, cy), _) := a in
  if Nat.odd i then
    let cx := cx + len_left p in
    let cy := cy + len_left p * slope_left p in
    ((cx - dl, cy - dl * slope_left p), (cx, cy), (cx + dr, cy + dr * slope_right p))
  else
    let cx := cx + len_right p in
    let cy := cy + len_right p * slope_right p in
    ((cx - dr, cy - dr * slope_right p), (cx, cy), (cx + dl, cy + dl * slope_left p)).

(** The loop of lines 87-114: entries i, i+1, ..., i+n-1. *)
Fixpoint anchor_loop (p : tct_params) (dl dr : R) (i n : nat) (a : anchors) : list anchors :=
  match n with
  | O => []
  | S n' => a :: anchor_loop p dl dr (S i) n' (next_anchors p dl dr i a)
  end.

(** Unrotated anchors of the TCT with number [k] = wf_id + max_peaks: (k * 2 - 1) entries, line 64. *)
Definition tct_anchors (p : tct_params) (k : nat) : list anchors :=
  let a := first_anchors p in
  let cx := fst (snd (fst a)) in
  anchor_loop p (cx - start_x p) (end_x p - cx) 0 (k * 2 - 1) a.

(** Lines 117-119. *)
Definition rotate_anchors (angle : R) (a : anchors) : anchors :=
  let '(l, c, r) := a in (rotate_point angle l, rotate_point angle c, rotate_point angle r).

(** The dictionary of lines 62-124, a list of pairs in insertion order. *)
Definition calculate_all_bezier_anchors (tcts : list tct_params) (max_peaks : nat) (rotation : R)
  : list (nat * list anchors) :=
  map (fun ip => ((fst ip + max_peaks)%nat,
                  map (rotate_anchors rotation) (tct_anchors (snd ip) (max_peaks + fst ip))))
      (combine (seq 0 (length tcts)) tcts).
