(** Model of simcats/_simulation.py: measure, measure_sensor_scan and the property setters.

    Sensors, distortions and the ideal CSD object are arbitrary user-supplied objects. Their methods
    may read and change a world state [W] (attributes, random generators) and may raise; an action is
    a function from the world to a result and the new world. Occupation distortions are given the
    caller's arrays and change them in place; apart from that no object changes arrays passed to it.
    get_csd_data is called on a deep copy of the ideal CSD object (lines 242, 474): attributes it changes are lost at
    the end of the call; only its effects on other objects belong to the world.
    numpy integers as resolution (neither int nor a sequence) are left out; see ModelResolution.v. *)
From Verif Require Import RPrelude Arr ModelCsd ModelSensor.
Local Open Scope R_scope.

Definition action (W A : Type) := W -> result A * W.
Definition ret {W A} (a : A) : action W A := fun w => (Ok a, w).
Definition fail {W A} (e : exn) : action W A := fun w => (Err e, w).
Definition mbind {W A B} (m : action W A) (k : A -> action W B) : action W B :=
  fun w => match m w with (Ok a, w1) => k a w1 | (Err e, w1) => (Err e, w1) end.
Notation "'do' x '<-' m ';' k" := (mbind m (fun x => k)) (at level 200, x pattern, m at level 100, k at level 200).

Section Simulation.
Context {W L I K : Type}.          (* world, lead transition mask, image, sensor-scan label masks *)

(** get_csd_data: limits of g1 and g2, resolution *)
Definition generator := R * R -> R * R -> resolution -> action W (occupation * L).
(** OccupationDistortionInterface.noise_function: contents of the passed arrays after the call, and
    the returned arrays. *)
Record occ_distortion := mk_occ_distortion {
  od_noise : occupation -> L -> R * R -> R * R -> generator -> bool -> action W ((occupation * L) * (occupation * L)) }.
(** SensorPotentialDistortionInterface and SensorResponseDistortionInterface *)
Definition img_distortion := I -> R * R -> R * R -> action W I.

(** A potential of the dimension of the scan, an array of several such potentials, or an array of
    some other dimension. *)
Inductive potential := PotOne (i : I) | PotMany (l : list I) | PotOther (i : I).
(** A SensorInterface object; [so_scan] says whether it is a SensorScanSensorInterface object. The
    sensor gate voltages of sensor_potential are passed to such sensors only. *)
Record sensor_object := mk_sensor_object {
  so_scan : bool;
  so_potential : occupation -> volts -> volts -> option (volts * volts) -> action W potential;
  so_response : potential -> action W I;
  so_labels : volts -> volts -> volts -> volts -> potential -> action W K }.

(** The attributes of a Simulation object. *)
Record config := mk_config {
  volt_limits_g1 : option (R * R); volt_limits_g2 : option (R * R);
  volt_limits_sensor_g1 : option (R * R); volt_limits_sensor_g2 : option (R * R);
  ideal_csd_config : option generator; sensor : sensor_object;
  occupation_distortions : option (list occ_distortion);
  sensor_potential_distortions : option (list img_distortion);
  sensor_response_distortions : option (list img_distortion) }.

(** ** Checks *)
(** Lines 161-167 (and 169-176, 377-383, 385-392): a sweep range against limits *)
Definition range_outside (lims : option (R * R)) (s : R * R) : bool :=
  match lims with
  | None => false
  | Some (lo, hi) =>
      let mn := Rmin (fst s) (snd s) in let mx := Rmax (fst s) (snd s) in
      Rltb mn lo || Rltb hi mn || Rltb mx lo || Rltb hi mx
  end.
(** Lines 186-197: comparing None with a number raises TypeError *)
Definition sensor_volt_outside (lims : option (R * R)) (v : option R) : result bool :=
  match lims, v with
  | None, _ => Ok false
  | Some _, None => Err TypeError
  | Some (lo, hi), Some x => Ok (Rltb x lo || Rltb hi x)
  end.
(** Lines 415-428: None is not compared *)
Definition plunger_volt_outside (lims : option (R * R)) (v : option R) : bool :=
  match lims, v with Some (lo, hi), Some x => Rltb x lo || Rltb hi x | _, _ => false end.
Definition is_none {A} (o : option A) : bool := match o with None => true | Some _ => false end.
(** type(resolution) != int and len(resolution) > 2 / == 2 *)
Definition too_long (r : resolution) : bool := match r with ResInt _ => false | ResArray l => (2 <? length l)%nat end.
Definition is_2d (r : resolution) : bool := match r with ResInt _ => false | ResArray l => (length l =? 2)%nat end.
Definition too_small (r : resolution) : bool := match r with ResInt _ => false | ResArray l => existsb (fun n => n <=? 1)%Z l end.
Definition fixed_range (s : R * R) : bool := Reqb (fst s) (snd s).

(** Lines 147-239 of measure: the generator and the two sweep ranges *)
Definition check_measure (c : config) (s1 s2 : list R) (v1 v2 : option R) (res : resolution)
  : result (generator * (R * R) * (R * R)) :=
  match ideal_csd_config c with
  | None => Err ValueError
  | Some gen =>
      match s1, s2 with
      | [a1; b1], [a2; b2] =>
          raise_if (range_outside (volt_limits_g1 c) (a1, b1) || range_outside (volt_limits_g2 c) (a2, b2)) ValueError
          (let? out1 := sensor_volt_outside (volt_limits_sensor_g1 c) v1 in
           let? out := (if out1 then Ok true else sensor_volt_outside (volt_limits_sensor_g2 c) v2) in
           raise_if out ValueError
           (raise_if (xorb (is_none v1) (is_none v2)) ValueError
           (raise_if (too_long res) ValueError
           (raise_if (is_2d res && (fixed_range (a1, b1) || fixed_range (a2, b2))) ValueError
           (raise_if (is_2d res && too_small res) ValueError
           (Ok (gen, (a1, b1), (a2, b2))))))))
      | _, _ => Err ValueError
      end
  end.

(** ** Distortions *)
(** generate_csd_with_noise, lines 254-265 *)
Definition with_noise (gen : generator) (d : occ_distortion) : generator :=
  fun l1 l2 res =>
    do ol <- gen l1 l2 res;
    do r <- od_noise d (fst ol) (snd ol) l1 l2 gen true;
    ret (fst r).
(** The loop of lines 251-265; the returned arrays are ignored *)
Fixpoint occupation_loop (ds : list occ_distortion) (gen : generator) (l1 l2 : R * R) (ol : occupation * L)
  : action W (occupation * L) :=
  match ds with
  | [] => ret ol
  | d :: t =>
      do r <- od_noise d (fst ol) (snd ol) l1 l2 gen false;
      occupation_loop t (with_noise gen d) l1 l2 (fst r)
  end.
(** for i in distortions: x = i.noise_function(x, ...), lines 282-285 and 299-302 *)
Fixpoint image_loop (ds : list img_distortion) (l1 l2 : R * R) (x : I) : action W I :=
  match ds with
  | [] => ret x
  | d :: t => do y <- d x l1 l2; image_loop t l1 l2 y
  end.
(** for pot_num in range(potential.shape[0]), lines 289-292 *)
Fixpoint each_image (d : img_distortion) (l1 l2 : R * R) (xs : list I) : action W (list I) :=
  match xs with
  | [] => ret []
  | x :: t => do y <- d x l1 l2; do ys <- each_image d l1 l2 t; ret (y :: ys)
  end.
Fixpoint images_loop (ds : list img_distortion) (l1 l2 : R * R) (xs : list I) : action W (list I) :=
  match ds with
  | [] => ret xs
  | d :: t => do ys <- each_image d l1 l2 xs; images_loop t l1 l2 ys
  end.
Definition opt_list {A} (o : option (list A)) : list A := match o with None => [] | Some l => l end.
(** Lines 280-292 (and 519-534) *)
Definition distort_potential (ds : option (list img_distortion)) (l1 l2 : R * R) (occ : occupation) (p : potential)
  : action W potential :=
  match occ, p with
  | OccOther, _ | _, PotOther _ => ret p
  | _, PotOne x => do y <- image_loop (opt_list ds) l1 l2 x; ret (PotOne y)
  | _, PotMany xs => do ys <- images_loop (opt_list ds) l1 l2 xs; ret (PotMany ys)
  end.

(** A swept range and an optional fixed voltage as arguments of the sensor. *)
Definition sweep_arg (s : R * R) : volts := VSweep (fst s) (snd s).
Definition volt_arg (v : option R) : volts := match v with None => VNone | Some x => VFix x end.

(** Metadata: the arguments, the configuration and the state of its objects at the end *)
Record metadata := mk_metadata {
  md_range1 : R * R; md_range2 : R * R; md_volt1 : option R; md_volt2 : option R; md_resolution : resolution;
  md_config : config; md_world : W }.
Record measurement := mk_measurement { m_csd : I; m_occ : occupation; m_lead : L; m_meta : metadata }.

(** measure, lines 106-321 *)
Definition measure (c : config) (s1 s2 : list R) (v1 v2 : option R) (res : resolution) : action W measurement :=
  fun w0 =>
  match check_measure c s1 s2 v1 v2 res with
  | Err e => (Err e, w0)
  | Ok (gen, l1, l2) =>
     (do ideal <- gen l1 l2 res;
      do ol <- occupation_loop (opt_list (occupation_distortions c)) gen l1 l2 ideal;
      do p <- so_potential (sensor c) (fst ol) (sweep_arg l1) (sweep_arg l2)
                (if so_scan (sensor c) then Some (volt_arg v1, volt_arg v2) else None);
      do p' <- distort_potential (sensor_potential_distortions c) l1 l2 (fst ol) p;
      do r <- so_response (sensor c) p';
      do csd <- image_loop (opt_list (sensor_response_distortions c)) l1 l2 r;
      fun w => (Ok (mk_measurement csd (fst ol) (snd ol) (mk_metadata l1 l2 v1 v2 res c w)), w)) w0
  end.

(** ** measure_sensor_scan, lines 361-564 *)
Definition check_sensor_scan (c : config) (s1 s2 : list R) (v1 v2 : option R) (res : resolution)
  : result ((R * R) * (R * R)) :=
  raise_if (negb (so_scan (sensor c))) ValueError
  match s1, s2 with
  | [a1; b1], [a2; b2] =>
      raise_if (range_outside (volt_limits_sensor_g1 c) (a1, b1) || range_outside (volt_limits_sensor_g2 c) (a2, b2)) ValueError
      (raise_if (is_2d res && (fixed_range (a1, b1) || fixed_range (a2, b2))) ValueError
      (raise_if (plunger_volt_outside (volt_limits_g1 c) v1 || plunger_volt_outside (volt_limits_g2 c) v2) ValueError
      (raise_if (xorb (is_none v1) (is_none v2)) ValueError
      (raise_if (too_long res) ValueError
      (raise_if (is_2d res && too_small res) ValueError
      (Ok ((a1, b1), (a2, b2))))))))
  | _, _ => Err ValueError
  end.
(** np.zeros / np.ones times an occupation of shape (n, 2) or (rows, columns, 2); negative sizes raise
    ValueError *)
Definition full1 (n : Z) (o : R * R) : result occupation :=
  raise_if (n <? 0)%Z ValueError (Ok (Occ1 (mk_arr1 (Z.to_nat n) (fun _ => o)))).
Definition full2 (r c : Z) (o : R * R) : result occupation :=
  raise_if ((r <? 0) || (c <? 0))%Z ValueError (Ok (Occ2 (mk_arr2 (Z.to_nat r) (Z.to_nat c) (fun _ _ => o)))).
Definition full_entries (l : list Z) (o : R * R) : result occupation :=
  let? r := get_item l 1 in let? c := get_item l 0 in full2 r c o.
(** occupations_csd[0, 0] and [0, 1] of a 1D scan; an array of another dimension gives arrays or
    raises, which is left out (IndexError) *)
Definition first_of (o : occupation) : result (R * R) :=
  match o with Occ1 a => if (0 <? len1 a)%nat then Ok (cell1 a 0%nat) else Err IndexError | _ => Err IndexError end.
(** Lines 466-493: the occupations and the resolution used afterwards *)
Definition scan_occupations (c : config) (v1 v2 : option R) (res : resolution) : action W (occupation * resolution) :=
  match ideal_csd_config c, v1, v2 with
  | Some gen, Some x1, Some x2 =>
      do ol <- gen (x1, x1) (x2, x2) (ResInt 1);
      match res with
      | ResInt _ => fail TypeError                                   (* len of an int, line 481 *)
      | ResArray l =>
          (fun w => (let? o := first_of (fst ol) in
                     match l with
                     | [n] => let? occ := full1 n o in Ok (occ, ResInt n)
                     | _ => let? occ := full_entries l o in Ok (occ, res)
                     end, w))
      end
  | _, _, _ =>
      fun w => (match res with
                | ResInt n => let? occ := full1 n (0, 0) in Ok (occ, res)
                | ResArray l => let? occ := full_entries l (0, 0) in Ok (occ, res)
                end, w)
  end.

Record sensor_scan := mk_sensor_scan { sc_scan : I; sc_labels : K; sc_meta : metadata }.
Definition measure_sensor_scan (c : config) (s1 s2 : list R) (v1 v2 : option R) (res : resolution) : action W sensor_scan :=
  fun w0 =>
  match check_sensor_scan c s1 s2 v1 v2 res with
  | Err e => (Err e, w0)
  | Ok (l1, l2) =>
     (do oc <- scan_occupations c v1 v2 res;
      let (occ, res') := oc in
      do p <- so_potential (sensor c) occ (volt_arg v1) (volt_arg v2) (Some (sweep_arg l1, sweep_arg l2));
      do pu <- so_potential (sensor c) occ (volt_arg v1) (volt_arg v2) (Some (sweep_arg l1, sweep_arg l2));
      do labels <- so_labels (sensor c) (volt_arg v1) (volt_arg v2) (sweep_arg l1) (sweep_arg l2) pu;
      do p' <- distort_potential (sensor_potential_distortions c) l1 l2 occ p;
      do r <- so_response (sensor c) p';
      do scan <- image_loop (opt_list (sensor_response_distortions c)) l1 l1 r;   (* line 543 *)
      fun w => (Ok (mk_sensor_scan scan labels (mk_metadata l1 l2 v1 v2 res' c w)), w)) w0
  end.
End Simulation.
Arguments config : clear implicits. Arguments occ_distortion : clear implicits. Arguments sensor_object : clear implicits.
Arguments potential : clear implicits. Arguments generator : clear implicits. Arguments img_distortion : clear implicits.
