(** Total charge transitions and the pixels they are drawn to, in double precision.

    float64 numbers as in ModelFloat: binary64 without overflow, [fl] rounds to nearest, ties to even. The
    evaluation of the bezier curves is not modelled: [bez] stands for it. *)
From Flocq Require Import Core.
From Verif Require Import RPrelude ModelFloat ModelTct.
Local Open Scope R_scope.

(** ** numpy *)

(** fmod of C: exact. *)
Definition fmod (a b : R) : R := a - b * IZR (Ztrunc (a / b)).
(** Different signs of divisor and remainder *)
Definition signs_differ (m b : R) : bool := negb (Reqb m 0) && xorb (Rltb b 0) (Rltb m 0).
(** np.mod(a, b) for b <> 0 (npy_divmod) *)
Definition np_mod (a b : R) : R :=
  let m := fmod a b in if signs_differ m b then fl (m + b) else m.
(** np.floor_divide(a, b) for b <> 0 (npy_divmod), the sign of zeros left out *)
Definition np_floor_divide (a b : R) : R :=
  let m := fmod a b in
  let q := fl (fl (a - m) / b) in
  let d := if signs_differ m b then fl (q - 1) else q in
  if Reqb d 0 then 0
  else let f := IZR (Zfloor d) in if Rltb (1/2) (fl (d - f)) then fl (f + 1) else f.

(** ** _tct_bezier.py for a number *)

(** Lines 66-75 *)
Definition float_center (p : tct_params) : result point :=
  if Reqb (start_x p) (end_x p) && Reqb (start_y p) (end_y p)
  then Ok (start_x p, start_y p)
  else if Reqb (slope_right p) (slope_left p) then Err AssertionError
  else
    let cx := fl (fl (fl (fl (start_y p - end_y p) + fl (end_x p * slope_right p)) - fl (start_x p * slope_left p))
                  / fl (slope_right p - slope_left p)) in
    Ok (cx, fl (start_y p + fl (slope_left p * fl (cx - start_x p)))).

Section Tct.
Variables (p : tct_params) (cx : R) (bez : R -> R).
(** Lines 98-114 *)
Definition float_bezier_length : R := fl (end_x p - start_x p).
Definition float_left_lin : R := fl (len_left p - fl (2 * fl (cx - start_x p))).
Definition float_right_lin : R := fl (len_right p - fl (2 * fl (end_x p - cx))).
Definition float_period : R := fl (len_left p + len_right p).
Definition float_y_offset_inv : R := fl (fl (end_y p + fl (float_right_lin * slope_right p)) - - end_y p).
Definition float_y_offset_period : R :=
  fl (start_y p - fl (fl (float_y_offset_inv - start_y p) + fl (float_left_lin * slope_left p))).
(** Lines 139-140 *)
Definition float_period_no (x : R) : Z := Zfloor (fl (x / float_period)).
(** Lines 138-199; [x] is already shifted by start_x (line 106) *)
Definition float_wave_value (x : R) : R :=
  let x_mod := np_mod x float_period in
  let bl := float_bezier_length in
  let rl := float_right_lin in
  let y :=
    if Rltb x_mod bl then bez (fl (x_mod + start_x p))
    else if Rltb x_mod (fl (bl + rl)) then fl (end_y p + fl (fl (x_mod - bl) * slope_right p))
    else if Rltb x_mod (fl (fl (bl * 2) + rl)) then
      fl (- bez (fl (fl (fl (fl (2 * bl) + rl) - x_mod) + start_x p)) + float_y_offset_inv)
    else fl (fl (float_y_offset_inv - start_y p) + fl (fl (x_mod - fl (fl (bl * 2) + rl)) * slope_left p)) in
  fl (y - fl (float_y_offset_period * IZR (float_period_no x))).
(** Lines 121-127 *)
Definition float_wave_end (mp : nat) : R := fl (end_x p + fl ((INR mp - 1) * fl (len_left p + len_right p))).
(** Lines 202-211 *)
Definition float_outer_value (mp : nat) (x : R) : R :=
  if Rleb (float_wave_end mp) x then
    fl (fl (fl (start_y p - fl ((INR mp - 1) * float_y_offset_period)) + fl (end_y p - start_y p))
        + fl (fl (x - float_wave_end mp) * slope_right p))
  else if Rleb x (start_x p) then fl (start_y p + fl (fl (x - start_x p) * slope_left p))
  else 0.
End Tct.

(** tct_bezier on a number with max_peaks = mp; [bez c] evaluates the bezier curve with central anchor c. *)
Definition float_tct (p : tct_params) (bez : point -> R -> R) (mp : nat) (x : R) : result R :=
  let? c := float_center p in
  raise_if (negb (Rleb (start_x p) (fst c) && Rleb (fst c) (end_x p))) AssertionError
  (raise_if (negb (Rleb (fl (2 * fl (fst c - start_x p))) (len_left p)
                   && Rleb (fl (2 * fl (end_x p - fst c))) (len_right p))) AssertionError
   (let x0 := fl (x - start_x p) in
    let x1 := fl (x0 + start_x p) in
    if Rleb (start_x p) x1 && Rleb x1 (float_wave_end p mp) then
      if Reqb (float_period p) 0 then Err (if Reqb x0 0 then ValueError else OverflowError)
      else Ok (float_wave_value p (fst c) (bez c) x0)
    else Ok (float_outer_value p (fst c) mp x1))).

(** ** _generate_lead_transition_mask.py, one axis: n pixels from lo to hi *)

(** Lines 91-92 *)
Definition float_step (lo hi : R) (n : nat) : R := fl (fl (hi - lo) / INR (n - 1)).
(** Lines 117-122 *)
Definition float_inside (lo hi step v : R) : bool :=
  Rltb (fl (lo - fl (1/2 * step))) v && Rltb v (fl (hi + fl (1/2 * step))).
(** Lines 132-133 *)
Definition float_pixel_id (lo step v : R) : Z :=
  Ztrunc (np_floor_divide (fl (fl (v + fl (1/2 * step)) - lo)) step).
