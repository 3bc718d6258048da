(** What sensors hold, in terms of the contents of their objects. *)
From Verif Require Import RPrelude ModelShared.
Local Open Scope R_scope.

(** All objects from the number [n] on are the same in [h] and [h']: only older ones may have been changed. *)
Definition only_older_changed (n : nat) (h h' : heap) : Prop := forall a, (n <= a)%nat -> nth_error h' a = nth_error h a.

(** The contents of a SensorGeneric *)
Definition generic_peaks (h : heap) (s : ref) : option (option (list (option cell))) :=
  match nth_error h s with Some (CGeneric f) => Some (option_map (map (nth_error h)) (g_peaks f)) | _ => None end.
Definition generic_array (h : heap) (s : ref) (attribute : generic_fields -> ref) : option cell :=
  match nth_error h s with Some (CGeneric f) => nth_error h (attribute f) | _ => None end.
(** The contents of a SensorScanSensorGeneric *)
Definition scan_peaks (h : heap) (s : ref) : option (option (list (option cell))) :=
  match nth_error h s with Some (CScan f) => Some (option_map (map (nth_error h)) (f_peaks f)) | _ => None end.
Definition scan_content (h : heap) (s : ref) (attribute : scan_fields -> ref) : option cell :=
  match nth_error h s with Some (CScan f) => nth_error h (attribute f) | _ => None end.
Definition scan_rise (h : heap) (s : ref) : option (option cell) :=
  match nth_error h s with Some (CScan f) => Some (match f_rise f with Some r => nth_error h r | None => None end) | _ => None end.
Definition scan_deformation (h : heap) (s : ref) (idx : nat) : option ref :=
  match nth_error h s with
  | Some (CScan f) => match ModelCsd.dict_get (f_deform f) idx with Ok d => Some d | Err _ => None end
  | _ => None
  end.

(** The peaks passed to a sensor *)
Definition passed_peaks (h : heap) (arg : peaks_arg) : option (list (option cell)) :=
  match arg with
  | PeaksOne p => Some [nth_error h p]
  | PeaksList l => Some (map (nth_error h) l)
  | PeaksNone | PeaksOther => None
  end.
Definition number_of_peaks (arg : peaks_arg) : nat :=
  match arg with PeaksOne _ => 1 | PeaksList l => length l | PeaksNone | PeaksOther => 0 end.
(** Lever-arms of shape (3, 2), kept by the sensor itself, and other acceptable ones *)
Definition full_array (h : heap) (arg : array_arg) (a : ref) : Prop := arg = ArrayRef a /\ exists l, nth_error h a = Some (CArray l) /\ length l = 6%nat.
Definition short_array (h : heap) (arg : array_arg) : Prop :=
  arg = ArrayNone \/ exists a l, arg = ArrayRef a /\ nth_error h a = Some (CArray l) /\ length l = 2%nat.
(** Objects passed to a constructor exist. *)
Definition peaks_exist (h : heap) (arg : peaks_arg) : Prop :=
  (forall p, arg = PeaksOne p -> (p < length h)%nat) /\ (forall l, arg = PeaksList l -> Forall (fun p => (p < length h)%nat) l).
Definition existing (h : heap) (x : scan_args) : Prop :=
  (forall a, a_dot x = ArrayRef a \/ a_gate x = ArrayRef a \/ a_sensor x = ArrayRef a -> (a < length h)%nat) /\
  (forall a, a_offset x = OffsetRef a -> (a < length h)%nat) /\ (forall a, a_rise x = Some a -> (a < length h)%nat) /\
  (forall b, a_barriers x = OneBarrier b -> (b < length h)%nat) /\
  (forall b1 b2, a_barriers x = TwoBarriers b1 b2 -> (b1 < length h)%nat /\ (b2 < length h)%nat) /\
  (forall p, a_peaks x = PeaksOne p -> (p < length h)%nat) /\ (forall l, a_peaks x = PeaksList l -> Forall (fun p => (p < length h)%nat) l) /\
  (forall k d, In (k, d) (a_deform x) -> (d < length h)%nat).
(** What a sensor is supposed to hold for passed arguments *)
Definition held_rows (h : heap) (arg : array_arg) : option cell :=
  match arg with
  | ArrayNone => Some (CArray [0; 0; 0; 0; 0; 0])
  | ArrayRef a => match nth_error h a with Some (CArray [x; y]) => Some (CArray [x; y; x; y; x; y]) | c => c end
  | ArrayOther => None
  end.
Definition held_offset (h : heap) (arg : offset_arg) : option cell :=
  match arg with OffsetNumber x => Some (CArray [x; x; x]) | OffsetRef a => nth_error h a | OffsetOther => None end.
Definition held_barriers (h : heap) (arg : barriers_arg) : option cell * option cell :=
  match arg with
  | OneBarrier b => (nth_error h b, nth_error h b)
  | TwoBarriers b1 b2 => (nth_error h b1, nth_error h b2)
  | BarriersOther => (None, None)
  end.
(** Arguments with which a sensor can be made *)
Definition good_peaks (h : heap) (arg : peaks_arg) : Prop :=
  let peak p := exists s, nth_error h p = Some (CPeak s) in
  match arg with PeaksNone => True | PeaksOne p => peak p | PeaksList l => Forall peak l | PeaksOther => False end.
Definition good_pair (h : heap) (arg : array_arg) : Prop := exists a l, arg = ArrayRef a /\ nth_error h a = Some (CArray l) /\ length l = 2%nat.
Definition good_offset (h : heap) (arg : offset_arg) : Prop :=
  match arg with OffsetNumber _ => True | OffsetRef a => exists l, nth_error h a = Some (CArray l) /\ length l = 3%nat | OffsetOther => False end.
Definition good_barriers (h : heap) (arg : barriers_arg) : Prop :=
  let barrier b := exists s, nth_error h b = Some (CBarrier s) in
  match arg with OneBarrier b => barrier b | TwoBarriers b1 b2 => barrier b1 /\ barrier b2 | BarriersOther => False end.
Definition good_args (h : heap) (x : scan_args) : Prop :=
  good_peaks h (a_peaks x) /\ (forall a, a_rise x = Some a -> exists s, nth_error h a = Some (CRise s)) /\
  (short_array h (a_dot x) \/ exists a, full_array h (a_dot x) a) /\ (short_array h (a_gate x) \/ exists a, full_array h (a_gate x) a) /\
  (exists a, full_array h (a_sensor x) a) /\ good_offset h (a_offset x) /\ good_barriers h (a_barriers x).
