(** Model of tct_bezier (simcats/ideal_csd/geometric/_tct_bezier.py) for parameters and x-values of type int or float.

    numpy makes an array of ints from numbers that are all ints; storing a float in it cuts off the digits behind the point, and an operation in
    place with a float raises TypeError (UFuncTypeError). Simplification: only the types of the x- and y-coordinates of the anchors and of x_eval
    matter; storing nan in an array of ints raises ValueError, storing inf OverflowError; the bezier package converts ints to floats. *)
From Flocq Require Import Core.
From Verif Require Import RPrelude ModelSupport ModelTct.
Local Open Scope R_scope.

Inductive number_type := IntType | FloatType.
(** The type of np.array([a, 0, b]) *)
Definition common (a b : number_type) : number_type := match a, b with IntType, IntType => IntType | _, _ => FloatType end.
Definition store (t : number_type) (x : R) : R := match t with IntType => IZR (Ztrunc x) | FloatType => x end.
(** The types of start_x, start_y, end_x and end_y *)
Record tct_types := mk_tct_types { t_start_x : number_type; t_start_y : number_type; t_end_x : number_type; t_end_y : number_type }.
Definition float_types : tct_types := mk_tct_types FloatType FloatType FloatType FloatType.
Definition int_types : tct_types := mk_tct_types IntType IntType IntType IntType.

(** Lines 64-75: x_vals and y_vals are arrays, the centre is stored in them *)
Definition typed_center (p : tct_params) (t : tct_types) : result point :=
  let tx := common (t_start_x t) (t_end_x t) in
  let ty := common (t_start_y t) (t_end_y t) in
  if Reqb (start_x p) (end_x p) && Reqb (start_y p) (end_y p)
  then Ok (store tx (start_x p), store ty (start_y p))
  else if Reqb (slope_right p) (slope_left p)
  then match tx with
       | FloatType => Err AssertionError
       | IntType => Err (if Reqb (start_y p - end_y p + end_x p * slope_right p - start_x p * slope_left p) 0 then ValueError else OverflowError)
       end
  else
    let cx := store tx ((start_y p - end_y p + end_x p * slope_right p - start_x p * slope_left p)
                        / (slope_right p - slope_left p)) in
    Ok (cx, store ty (start_y p + slope_left p * (cx - start_x p))).

(** Lines 51-216; line 106 subtracts in place *)
Definition tct_bezier_typed (p : tct_params) (t : tct_types) (lut : option nat) (max_peaks : option nat) (xt : number_type) (xs : list R)
  : result (list R) :=
  let? c := typed_center p t in
  raise_if (negb (Rleb (start_x p) (fst c) && Rleb (fst c) (end_x p))) AssertionError
  (raise_if (negb (Rleb (2 * (fst c - start_x p)) (len_left p)
                   && Rleb (2 * (end_x p - fst c)) (len_right p))) AssertionError
   (match xt, common (t_start_x t) (t_end_x t) with
    | IntType, FloatType => Err TypeError
    | _, _ =>
    let wave x := wave_value p c (bezier_eval p c lut) (x - start_x p) in
    match max_peaks with
    | None => match xs with [] => Err IndexError | _ => mapM wave xs end
    | Some mp =>
        let? ys := mapM (fun x => if in_wave p mp x then wave x else Ok 0) xs in
        if forallb (in_wave p mp) xs then Ok ys
        else Ok (map (outer_value p c mp) (combine xs ys))
    end
    end)).
