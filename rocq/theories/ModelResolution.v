(** Resolutions of other types: the checks and the uses of the resolution in simcats/_simulation.py and
    ideal_csd/geometric/_ideal_csd_geometric.py.

    Entries of sequences are Python or numpy integers, or finite floats (as real numbers); nan, infinities and bools are
    left out. Sequences are lists, tuples and one-dimensional arrays. *)
From Flocq Require Import Core.
From Verif Require Import RPrelude Arr ModelSupport ModelTct ModelCsd ModelSensor ModelSimulation ModelInstance.
Local Open Scope R_scope.

Inductive entry := EInt (n : Z) | EFloat (x : R).
(** An int, another number (numpy integer, float), or a sequence *)
Inductive any_resolution := AnyInt (n : Z) | AnyNumber (x : entry) | AnySeq (l : list entry).

(** len(resolution) *)
Definition len_of (r : any_resolution) : result nat :=
  match r with AnySeq l => Ok (length l) | _ => Err TypeError end.
(** not type(resolution) == int and len(resolution) > 2 / == 2 *)
Definition entries (r : any_resolution) (p : nat -> bool) : result bool :=
  match r with AnyInt _ => Ok false | _ => let? n := len_of r in Ok (p n) end.
(** <= 1 *)
Definition at_most_one (e : entry) : bool := match e with EInt n => (n <=? 1)%Z | EFloat x => Rleb x 1 end.
(** resolution[0] <= 1 or resolution[1] <= 1, for two entries *)
Definition small (r : any_resolution) : bool := match r with AnySeq l => existsb at_most_one l | _ => false end.
(** An entry as size of an array: operator.index, which floats do not have *)
Definition index (e : entry) : result Z := match e with EInt n => Ok n | EFloat _ => Err TypeError end.
(** int(entry) *)
Definition py_int (e : entry) : Z := match e with EInt n => n | EFloat x => Ztrunc x end.

(** _ideal_csd_geometric.py:81-128: the checks (lines 85-125, see check_request) and np.zeros(resolution[::-1]) *)
Definition ideal_any (label : arr2 nat -> arr2 nat) (params : list tct_params) (l1 l2 : list R) (r : any_resolution)
  (rotation : R) (lut : option nat) (kind : cdf_kind) (gf : option R) : result csd_data :=
  match r with
  | AnyInt n => ideal_csd_geometric label params l1 l2 (ResInt n) rotation lut kind gf
  | AnyNumber _ => let? _ := len_of r in Err TypeError
  | AnySeq l =>
      let? _ := (if (length l =? 2)%nat then
                   let? f1 := fixed_voltage l1 in
                   if f1 then Err ValueError
                   else let? f2 := fixed_voltage l2 in if f2 then Err ValueError else Ok tt
                 else Ok tt) in
      match l1, l2 with
      | [_; _], [_; _] =>
          raise_if (2 <? length l)%nat ValueError
          (raise_if ((length l =? 2)%nat && existsb at_most_one l) ValueError
           (let? sizes := mapM index (rev l) in
            ideal_csd_geometric label params l1 l2 (ResArray (rev sizes)) rotation lut kind gf))
      | _, _ => Err ValueError
      end
  end.

Section Any.
Context {W L I K : Type}.
(** The checks of measure, _simulation.py:147-239 *)
Definition check_any (c : config W L I K) (s1 s2 : list R) (v1 v2 : option R) (r : any_resolution) : result unit :=
  match ideal_csd_config c with
  | None => Err ValueError
  | Some _ =>
      match s1, s2 with
      | [a1; b1], [a2; b2] =>
          raise_if (range_outside (volt_limits_g1 c) (a1, b1) || range_outside (volt_limits_g2 c) (a2, b2)) ValueError
          (let? out1 := sensor_volt_outside (volt_limits_sensor_g1 c) v1 in
           let? out := (if out1 then Ok true else sensor_volt_outside (volt_limits_sensor_g2 c) v2) in
           raise_if out ValueError
           (raise_if (xorb (is_none v1) (is_none v2)) ValueError
           (let? long := entries r (fun n => 2 <? n)%nat in
            raise_if long ValueError
           (let? two := entries r (fun n => n =? 2)%nat in
            raise_if (two && (fixed_range (a1, b1) || fixed_range (a2, b2))) ValueError
           (raise_if (two && small r) ValueError (Ok tt))))))
      | _, _ => Err ValueError
      end
  end.
(** The checks of measure_sensor_scan, lines 361-464 *)
Definition check_scan_any (c : config W L I K) (s1 s2 : list R) (v1 v2 : option R) (r : any_resolution) : result ((R * R) * (R * R)) :=
  raise_if (negb (so_scan (sensor c))) ValueError
  match s1, s2 with
  | [a1; b1], [a2; b2] =>
      raise_if (range_outside (volt_limits_sensor_g1 c) (a1, b1) || range_outside (volt_limits_sensor_g2 c) (a2, b2)) ValueError
      (let? two := entries r (fun n => n =? 2)%nat in
       raise_if (two && (fixed_range (a1, b1) || fixed_range (a2, b2))) ValueError
      (raise_if (plunger_volt_outside (volt_limits_g1 c) v1 || plunger_volt_outside (volt_limits_g2 c) v2) ValueError
      (raise_if (xorb (is_none v1) (is_none v2)) ValueError
      (let? long := entries r (fun n => 2 <? n)%nat in
       raise_if long ValueError
      (raise_if (two && small r) ValueError
      (Ok ((a1, b1), (a2, b2))))))))
  | _, _ => Err ValueError
  end.
(** np.zeros / np.ones((resolution[1], resolution[0], 2)) *)
Definition full_any (l : list entry) (o : R * R) : result occupation :=
  let? e1 := get_item l 1 in let? e0 := get_item l 0 in
  let? r := index e1 in let? c := index e0 in full2 r c o.
(** Lines 466-493: the occupations, and the resolution if it was replaced *)
Definition scan_occupations_any (c : config W L I K) (v1 v2 : option R) (r : any_resolution) : action W (occupation * any_resolution) :=
  match ideal_csd_config c, v1, v2 with
  | Some gen, Some x1, Some x2 =>
      do ol <- gen (x1, x1) (x2, x2) (ResInt 1);
      match r with
      | AnySeq [e] => (fun w => (let? o := first_of (fst ol) in let? occ := full1 (py_int e) o in Ok (occ, AnyInt (py_int e)), w))
      | AnySeq l => (fun w => (let? o := first_of (fst ol) in let? occ := full_any l o in Ok (occ, r), w))
      | _ => fail TypeError
      end
  | _, _, _ =>
      fun w => (match r with
                | AnyInt n => let? occ := full1 n (0, 0) in Ok (occ, r)
                | AnyNumber _ => Err TypeError
                | AnySeq l => let? occ := full_any l (0, 0) in Ok (occ, r)
                end, w)
  end.
(** measure_sensor_scan: the scan, the labels and the resolution of the metadata *)
Definition scan_any (c : config W L I K) (s1 s2 : list R) (v1 v2 : option R) (r : any_resolution) : action W (I * K * any_resolution) :=
  fun w0 =>
  match check_scan_any c s1 s2 v1 v2 r with
  | Err e => (Err e, w0)
  | Ok (l1, l2) =>
     (do oc <- scan_occupations_any c v1 v2 r;
      let (occ, r') := oc in
      do p <- so_potential (sensor c) occ (volt_arg v1) (volt_arg v2) (Some (sweep_arg l1, sweep_arg l2));
      do pu <- so_potential (sensor c) occ (volt_arg v1) (volt_arg v2) (Some (sweep_arg l1, sweep_arg l2));
      do labels <- so_labels (sensor c) (volt_arg v1) (volt_arg v2) (sweep_arg l1) (sweep_arg l2) pu;
      do p' <- distort_potential (sensor_potential_distortions c) l1 l2 occ p;
      do rr <- so_response (sensor c) p';
      do scan <- image_loop (opt_list (sensor_response_distortions c)) l1 l1 rr;
      ret (scan, labels, r')) w0
  end.
End Any.

(** get_csd_data, _ideal_csd_geometric_class.py:115-155 *)
Definition get_csd_data_any {W} (label : arr2 nat -> arr2 nat) (x : geometric) (l1 l2 : R * R) (r : any_resolution) : action W (occupation * lead_mask) :=
  fun w => (let? d := ideal_any label (g_tcts x) [fst l1; snd l1] [fst l2; snd l2] r (g_rotation x) (g_lut x) (g_cdf x) (g_gamma x) in
            Ok (csd_arrays d), w).
(** The beginning of measure, lines 147-247: the checks and the ideal data, for a simulation with the ideal data [x] *)
Definition ideal_data_any {W I K} label (x : geometric) (c : config W lead_mask I K) (s1 s2 : list R) (v1 v2 : option R) (r : any_resolution)
  : action W (occupation * lead_mask) :=
  fun w0 =>
  match check_any c s1 s2 v1 v2 r, s1, s2 with
  | Ok _, [a1; b1], [a2; b2] => get_csd_data_any label x (a1, b1) (a2, b2) r w0
  | Ok _, _, _ => (Err ValueError, w0)          (* not reached: check_any *)
  | Err e, _, _ => (Err e, w0)
  end.
