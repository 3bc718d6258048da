(** Property theorems about the objects that sensors share with the caller and with each other. *)
From Verif Require Import RPrelude ModelCsd ModelSensor ModelShared SpecShared ExamplesShared ProofsShared ProofsShared2.
Local Open Scope R_scope.

(** C152: a SensorGeneric holds what was passed, ... *)
Theorem C152_generic_holds peaks a1 a2 offset h h' s : new_generic peaks (ArrayRef a1) (ArrayRef a2) offset h = Ok (h', s) ->
  peaks_exist h peaks -> (a1 < length h)%nat -> (a2 < length h)%nat ->
  generic_peaks h' s = Some (passed_peaks h peaks) /\ generic_array h' s g_dot = nth_error h a1 /\ generic_array h' s g_gate = nth_error h a2.
Proof. exact (generic_holds peaks a1 a2 offset h h' s). Qed.
Print Assumptions C152_generic_holds.

(** ... and still does after any change to objects that existed before it. *)
Theorem C152_generic peaks dot gate offset h h' s h2 : new_generic peaks dot gate offset h = Ok (h', s) -> only_older_changed (length h) h' h2 ->
  generic_peaks h2 s = generic_peaks h' s /\ generic_array h2 s g_dot = generic_array h' s g_dot /\ generic_array h2 s g_gate = generic_array h' s g_gate.
Proof. exact (generic_independent peaks dot gate offset h h' s h2). Qed.
Print Assumptions C152_generic.

(** A SensorScanSensorGeneric holds what was passed. *)
Theorem C152_holds x h h' s : new_scan x h = Ok (h', s) -> existing h x ->
  scan_content h' s f_dot = held_rows h (a_dot x) /\ scan_content h' s f_gate = held_rows h (a_gate x) /\ scan_content h' s f_sensor = held_rows h (a_sensor x) /\
  scan_content h' s f_offset = held_offset h (a_offset x) /\
  (scan_content h' s (fun f => fst (f_barriers f)), scan_content h' s (fun f => snd (f_barriers f))) = held_barriers h (a_barriers x) /\
  scan_rise h' s = Some (match a_rise x with Some a => nth_error h a | None => None end).
Proof. exact (scan_holds x h h' s). Qed.
Print Assumptions C152_holds.

(** The peaks of a SensorScanSensorGeneric are the passed ones whatever happens to the older objects. *)
Theorem C152_peaks x h h' s h2 : new_scan x h = Ok (h', s) -> existing h x -> only_older_changed (length h) h' h2 ->
  scan_peaks h2 s = Some (passed_peaks h (a_peaks x)).
Proof. exact (scan_peaks_independent x h h' s h2). Qed.
Print Assumptions C152_peaks.

(** Lever-arms given as pairs or None, offsets given as number and a single barrier function are copied, too. *)
Theorem C152_copied_partial x h h' s h2 : new_scan x h = Ok (h', s) -> existing h x -> only_older_changed (length h) h' h2 ->
  (short_array h (a_dot x) -> scan_content h2 s f_dot = scan_content h' s f_dot) /\
  (short_array h (a_gate x) -> scan_content h2 s f_gate = scan_content h' s f_gate) /\
  (forall v, a_offset x = OffsetNumber v -> scan_content h2 s f_offset = scan_content h' s f_offset) /\
  (forall b, a_barriers x = OneBarrier b ->
     scan_content h2 s (fun f => fst (f_barriers f)) = scan_content h' s (fun f => fst (f_barriers f)) /\
     scan_content h2 s (fun f => snd (f_barriers f)) = scan_content h' s (fun f => snd (f_barriers f))).
Proof. exact (scan_copied x h h' s h2). Qed.
Print Assumptions C152_copied_partial.

(** Everything else is shared: whatever is written into the passed object afterwards is what the sensor holds. *)
Theorem C152_shared_refuted x h h' s a c : new_scan x h = Ok (h', s) -> existing h x ->
  (a_sensor x = ArrayRef a -> scan_content (write h' a c) s f_sensor = Some c) /\
  (full_array h (a_dot x) a -> scan_content (write h' a c) s f_dot = Some c) /\
  (full_array h (a_gate x) a -> scan_content (write h' a c) s f_gate = Some c) /\
  (a_offset x = OffsetRef a -> scan_content (write h' a c) s f_offset = Some c) /\
  (a_rise x = Some a -> scan_rise (write h' a c) s = Some (Some c)) /\
  (forall b, a_barriers x = TwoBarriers a b -> scan_content (write h' a c) s (fun f => fst (f_barriers f)) = Some c) /\
  (forall b, a_barriers x = TwoBarriers b a -> scan_content (write h' a c) s (fun f => snd (f_barriers f)) = Some c).
Proof. exact (scan_shared x h h' s a c). Qed.
Print Assumptions C152_shared_refuted.

(** Two sensors made with the same arrays, for example the default ones, share them. *)
Theorem C152_two_refuted x y h h1 s1 h2 s2 a c : new_scan x h = Ok (h1, s1) -> new_scan y h1 = Ok (h2, s2) -> existing h x -> existing h y ->
  let both attribute := scan_content (write h2 a c) s1 attribute = Some c /\ scan_content (write h2 a c) s2 attribute = Some c in
  s1 <> s2 /\ (a_sensor x = ArrayRef a -> a_sensor y = ArrayRef a -> both f_sensor) /\ (full_array h (a_dot x) a -> full_array h (a_dot y) a -> both f_dot) /\
  (full_array h (a_gate x) a -> full_array h (a_gate y) a -> both f_gate) /\ (a_offset x = OffsetRef a -> a_offset y = OffsetRef a -> both f_offset).
Proof. exact (scan_two x y h h1 s1 h2 s2 a c). Qed.
Print Assumptions C152_two_refuted.

(** A deformation uses the lever-arms of the last sensor made with it, also for the sensors made before,
    although their own lever-arms have not changed. *)
Theorem C152_deformation_refuted x y h h1 s1 h2 s2 a b la lb d df o i j dist m : new_scan x h = Ok (h1, s1) -> new_scan y h1 = Ok (h2, s2) ->
  existing h x -> existing h y ->
  a_sensor x = ArrayRef a -> nth_error h a = Some (CArray la) -> a_sensor y = ArrayRef b -> nth_error h b = Some (CArray lb) ->
  nth_error h d = Some (CDeform df o) ->
  (i < number_of_peaks (a_peaks x))%nat -> dict_get (a_deform x) i = Ok d -> (j < number_of_peaks (a_peaks y))%nat -> dict_get (a_deform y) j = Ok d ->
  let mu l := Ok (match df with Linear angle => linear_calc_mu (nth 0 l 0, nth 1 l 0) angle dist m
                  | Circle radius => circle_calc_mu (nth 0 l 0, nth 1 l 0) radius dist m end) in
  scan_deformation h1 s1 i = Some d /\ calc_mu h1 d dist m = mu la /\
  scan_content h2 s1 f_sensor = Some (CArray la) /\ scan_deformation h2 s1 i = Some d /\ calc_mu h2 d dist m = mu lb.
Proof. exact (deformation_taken x y h h1 s1 h2 s2 a b la lb d df o i j dist m). Qed.
Print Assumptions C152_deformation_refuted.

(** Which arguments are accepted; all others are refused with a ValueError. *)
Theorem C152_accepted x h : existing h x ->
  ((exists r, new_scan x h = Ok r) <-> good_args h x) /\ (forall e, new_scan x h = Err e -> e = ValueError).
Proof. exact (scan_accepted x h). Qed.
Print Assumptions C152_accepted.
Theorem C152_generic_accepted peaks dot gate offset h : peaks_exist h peaks -> (forall a, dot = ArrayRef a \/ gate = ArrayRef a -> (a < length h)%nat) ->
  ((exists r, new_generic peaks dot gate offset h = Ok r) <->
   good_peaks h peaks /\ good_pair h dot /\ good_pair h gate /\ exists v, offset = OffsetNumber v) /\
  (forall e, new_generic peaks dot gate offset h = Err e -> e = ValueError).
Proof. exact (generic_accepted peaks dot gate offset h). Qed.
Print Assumptions C152_generic_accepted.

Example C152_generic_example : exists h' s, new_generic (PeaksOne 4%nat) (ArrayRef 2%nat) (ArrayRef 3%nat) (OffsetNumber 10) shared_objects = Ok (h', s) /\
  generic_array (write h' 2%nat (CArray [0; 0])) s g_dot = Some (CArray [-1; -2]).
Proof. do 2 eexists. split; reflexivity. Qed.
Example C152_scan_example : let h1 := first_objects in let h2 := second_objects in let s1 := 9%nat in let s2 := 16%nat in
  new_scan first_args shared_objects = Ok (h1, s1) /\ new_scan second_args h1 = Ok (h2, s2) /\
  existing shared_objects first_args /\ existing shared_objects second_args /\
  scan_content (write h2 2%nat (CArray [0; 0])) s1 f_dot = Some (CArray [-1; -2; -1; -2; -1; -2]) /\
  scan_content (write h2 0%nat (CArray [5; 5; 5; 5; 5; 5])) s1 f_sensor = Some (CArray [5; 5; 5; 5; 5; 5]) /\
  scan_content (write h2 7%nat (CArray [5; 5; 5; 5; 5; 5])) s2 f_gate = Some (CArray [5; 5; 5; 5; 5; 5]) /\
  calc_mu h1 6%nat 1 0 = Ok 1 /\ calc_mu h2 6%nat 1 0 = Ok 2.
Proof.
  intros h1 h2 s1 s2. split; [reflexivity|]. split; [reflexivity|].
  assert (X : existing shared_objects first_args /\ existing shared_objects second_args).
  { unfold existing; cbn. repeat split; intros;
      repeat match goal with H : _ \/ _ |- _ => destruct H | H : ArrayRef _ = _ |- _ => injection H as <- | H : False |- _ => destruct H
        | H : (_, _) = (_, _) |- _ => injection H as <- <- end; try discriminate;
      repeat match goal with H : OneBarrier _ = _ |- _ => injection H as <- | H : TwoBarriers _ _ = _ |- _ => injection H as <- <- | H : PeaksOne _ = _ |- _ => injection H as <-
        | H : PeaksList _ = _ |- _ => injection H as <- | H : Some _ = _ |- _ => injection H as <- end; try lia; repeat constructor; lia. }
  split; [apply X|]. split; [apply X|]. do 3 (split; [reflexivity|]).
  assert (N : forall x, 0 <= x -> norm2 (x, 0) = x).
  { intros x Hx. unfold norm2. cbn [fst snd]. replace (x ^ 2 + 0 ^ 2) with (Rsqr x) by (unfold Rsqr; ring). apply sqrt_Rsqr. exact Hx. }
  split; [change (Ok (linear_calc_mu (1, 0) (PI / 4) 1 0) = Ok 1)|change (Ok (linear_calc_mu (2, 0) (PI / 4) 1 0) = Ok 2)];
    unfold linear_calc_mu; rewrite tan_PI4, N by lra; f_equal; lra.
Qed.
Example C152_refused_example :
  new_generic (PeaksOne 4%nat) (ArrayRef 2%nat) (ArrayRef 0%nat) (OffsetNumber 10) shared_objects = Err ValueError /\
  new_generic (PeaksOne 4%nat) (ArrayRef 2%nat) (ArrayRef 3%nat) (OffsetRef 2%nat) shared_objects = Err ValueError /\
  new_scan (mk_scan_args (a_barriers first_args) (a_peaks first_args) (ArrayRef 2%nat) (a_gate first_args) (a_dot first_args)
              (a_offset first_args) (a_rise first_args) (a_deform first_args)) shared_objects = Err ValueError.
Proof. repeat split; reflexivity. Qed.
