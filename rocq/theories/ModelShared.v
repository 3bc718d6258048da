(** Model of the constructors of SensorGeneric (simcats/sensor/_sensor_generic.py:38-41) and SensorScanSensorGeneric
    (simcats/sensor/_sensor_scan_sensor_generic.py:87-104) with a heap for the objects that Python passes by reference.

    Simplifications: peaks, barrier functions and rises are their parameters; an array is the list of its entries, the
    shapes (2,), (3,) and (3, 2) are told apart by the number of entries; an object that occurs twice in a list is copied
    twice by deepcopy; a constructor that raises is modelled without the deformations it may already have assigned. *)
From Verif Require Import RPrelude Arr ModelSupport ModelTct ModelCsd ModelSensor.
Local Open Scope R_scope.

Definition ref := nat.
Inductive deformation := Linear (angle : R) | Circle (radius : R).
Record scan_fields := mk_scan_fields {
  f_peaks : option (list ref); f_deform : list (nat * ref); f_rise : option ref; f_dot : ref; f_gate : ref; f_sensor : ref;
  f_offset : ref; f_barriers : ref * ref }.
Record generic_fields := mk_generic_fields { g_peaks : option (list ref); g_dot : ref; g_gate : ref; g_offset : R }.
Inductive cell :=
| CArray (l : list R)
| CPeak (parameters : list R)
| CBarrier (parameters : list R)
| CRise (parameters : list R)
| CDeform (d : deformation) (sensor : option ref)
| CScan (f : scan_fields)
| CGeneric (f : generic_fields)
| CBlank.                                                 (* an object whose __init__ is running *)
Definition heap := list cell.
Fixpoint write (h : heap) (a : ref) (c : cell) : heap :=
  match h, a with
  | [], _ => []
  | _ :: t, O => c :: t
  | x :: t, S a => x :: write t a c
  end.

Inductive peaks_arg := PeaksNone | PeaksOne (p : ref) | PeaksList (l : list ref) | PeaksOther.
Inductive array_arg := ArrayNone | ArrayRef (a : ref) | ArrayOther.
Inductive offset_arg := OffsetNumber (x : R) | OffsetRef (a : ref) | OffsetOther.
Inductive barriers_arg := OneBarrier (b : ref) | TwoBarriers (b1 b2 : ref) | BarriersOther.

(** deepcopy of peaks: isinstance checks and copies *)
Definition get_peak (h : heap) (p : ref) : result cell :=
  match nth_error h p with Some (CPeak s) => Ok (CPeak s) | _ => Err ValueError end.
(** The setter sensor_peak_function, lines 67-80 and 124-137 *)
Definition set_peaks (arg : peaks_arg) (h : heap) : result (heap * option (list ref)) :=
  let copies l := let? cs := mapM (get_peak h) l in Ok (h ++ cs, Some (seq (length h) (length cs))) in
  match arg with
  | PeaksNone => Ok (h, None)
  | PeaksOne p => copies [p]
  | PeaksList l => copies l
  | PeaksOther => Err ValueError
  end.

(** *** SensorGeneric *)
(** The setters alpha_dot and alpha_gate, lines 102-104 and 126-128: an array of two entries is copied *)
Definition set_pair (arg : array_arg) (h : heap) : result (heap * ref) :=
  match arg with
  | ArrayRef a => match nth_error h a with
                  | Some (CArray [x; y]) => Ok (h ++ [CArray [x; y]], length h)
                  | _ => Err ValueError
                  end
  | _ => Err ValueError
  end.
Definition set_number (arg : offset_arg) : result R := match arg with OffsetNumber x => Ok x | _ => Err ValueError end.
Definition new_generic (peaks : peaks_arg) (dot gate : array_arg) (offset : offset_arg) (h : heap) : result (heap * ref) :=
  let self := length h in
  let? p := set_peaks peaks (h ++ [CBlank]) in
  let? d := set_pair dot (fst p) in
  let? g := set_pair gate (fst d) in
  let? o := set_number offset in
  Ok (write (fst g) self (CGeneric (mk_generic_fields (snd p) (snd d) (snd g) o)), self).

(** *** SensorScanSensorGeneric *)
(** The setters alpha_dot and alpha_gate, lines 240-253 and 291-304: an array of shape (3, 2) is stored itself *)
Definition set_rows (arg : array_arg) (h : heap) : result (heap * ref) :=
  match arg with
  | ArrayNone => Ok (h ++ [CArray [0; 0; 0; 0; 0; 0]], length h)
  | ArrayRef a => match nth_error h a with
                  | Some (CArray [x; y]) => Ok (h ++ [CArray [x; y; x; y; x; y]], length h)
                  | Some (CArray [_; _; _; _; _; _]) => Ok (h, a)
                  | _ => Err ValueError
                  end
  | ArrayOther => Err ValueError
  end.
(** The setter alpha_sensor_gate, lines 341-348 *)
Definition set_sensor_rows (arg : array_arg) (h : heap) : result ref :=
  match arg with
  | ArrayRef a => match nth_error h a with Some (CArray [_; _; _; _; _; _]) => Ok a | _ => Err ValueError end
  | _ => Err ValueError
  end.
(** The setter offset_mu_sens, lines 375-381 *)
Definition set_offset (arg : offset_arg) (h : heap) : result (heap * ref) :=
  match arg with
  | OffsetNumber x => Ok (h ++ [CArray [x; x; x]], length h)
  | OffsetRef a => match nth_error h a with Some (CArray [_; _; _]) => Ok (h, a) | _ => Err ValueError end
  | OffsetOther => Err ValueError
  end.
(** The setter final_rise, lines 163-168 *)
Definition set_rise (arg : option ref) (h : heap) : result (option ref) :=
  match arg with
  | None => Ok None
  | Some a => match nth_error h a with Some (CRise _) => Ok (Some a) | _ => Err ValueError end
  end.
(** The setter barrier_functions, lines 192-202: one function is copied twice, two are stored themselves *)
Definition get_barrier (h : heap) (b : ref) : result cell :=
  match nth_error h b with Some (CBarrier s) => Ok (CBarrier s) | _ => Err ValueError end.
Definition set_barriers (arg : barriers_arg) (h : heap) : result (heap * (ref * ref)) :=
  match arg with
  | OneBarrier b => let? c := get_barrier h b in Ok (h ++ [c; c], (length h, S (length h)))
  | TwoBarriers b1 b2 => let? _ := get_barrier h b1 in let? _ := get_barrier h b2 in Ok (h, (b1, b2))
  | BarriersOther => Err ValueError
  end.
(** Lines 91-95: the deformations of existing peaks get to know the sensor *)
Definition assign_sensor (self : ref) (h : heap) (d : ref) : heap :=
  match nth_error h d with Some (CDeform x _) => write h d (CDeform x (Some self)) | _ => h end.
Definition used_deformations (peaks : option (list ref)) (deform : list (nat * ref)) : list ref :=
  match peaks with
  | None => []
  | Some l => flat_map (fun idx => match dict_get deform idx with Ok d => [d] | Err _ => [] end) (seq 0 (length l))
  end.
Record scan_args := mk_scan_args {
  a_barriers : barriers_arg; a_peaks : peaks_arg; a_sensor : array_arg; a_gate : array_arg; a_dot : array_arg;
  a_offset : offset_arg; a_rise : option ref; a_deform : list (nat * ref) }.
Definition new_scan (x : scan_args) (h : heap) : result (heap * ref) :=
  let self := length h in
  let? p := set_peaks (a_peaks x) (h ++ [CBlank]) in
  let? r := set_rise (a_rise x) (fst p) in
  let h1 := fold_left (assign_sensor self) (used_deformations (snd p) (a_deform x)) (fst p) in
  let? d := set_rows (a_dot x) h1 in
  let? g := set_rows (a_gate x) (fst d) in
  let? s := set_sensor_rows (a_sensor x) (fst g) in
  let? o := set_offset (a_offset x) (fst g) in
  let? b := set_barriers (a_barriers x) (fst o) in
  Ok (write (fst b) self (CScan (mk_scan_fields (snd p) (a_deform x) r (snd d) (snd g) s (snd o) (snd b))), self).

(** calc_mu of a deformation: the lever-arms are those of its sensor (_sensor_peak_deformation_linear.py:71,
    _sensor_peak_deformation_circle.py:84); without sensor the attribute does not exist. *)
Definition sensor_row (h : heap) (s : ref) : result (R * R) :=
  match nth_error h s with
  | Some (CScan f) => match nth_error h (f_sensor f) with Some (CArray (x :: y :: _)) => Ok (x, y) | _ => Err IndexError end
  | _ => Err AttributeError
  end.
Definition calc_mu (h : heap) (d : ref) (dist m : R) : result R :=
  match nth_error h d with
  | Some (CDeform x (Some s)) =>
      let? a := sensor_row h s in
      Ok (match x with Linear angle => linear_calc_mu a angle dist m | Circle radius => circle_calc_mu a radius dist m end)
  | _ => Err AttributeError
  end.
