(** Model of the property setters of Simulation (simcats/_simulation.py, lines 566-836), with a heap
    for the arrays, lists and objects that Python passes by reference.

    Simplifications: an object is its implemented interfaces and its state as numbers; objects are
    not iterable; an object occurring twice in a list is copied twice by deepcopy; lists in lists
    (never accepted by a setter) are copied without their elements. *)
From Verif Require Import RPrelude.

Inductive pyval := PNone | PNumber (x : R) | PRef (a : nat).
Inductive interface := IIdealCsd | ISensor | IOccupation | IPotential | IResponse.
Inductive cell :=
| CArray (l : list R)                                     (* np.ndarray; its size is the length *)
| CList (l : list pyval)                                  (* list *)
| CObject (implements : interface -> bool) (state : list R).
Definition heap := list cell.

Inductive field := FLimitG1 | FLimitG2 | FLimitS1 | FLimitS2 | FIdealCsd | FSensor | FOccupation | FPotential | FResponse.
Definition field_eq_dec (f g : field) : {f = g} + {f <> g}.
Proof. decide equality. Defined.
(** The private attributes of a Simulation object. *)
Definition attributes := field -> pyval.

Definition lookup (h : heap) (v : pyval) : option cell :=
  match v with PRef a => nth_error h a | _ => None end.
Definition is_instance (h : heap) (i : interface) (v : pyval) : bool :=
  match lookup h v with Some (CObject impl _) => impl i | _ => false end.

(** ** deepcopy *)
Definition copy_flat (h : heap) (v : pyval) : heap * pyval :=
  match lookup h v with Some c => (h ++ [c], PRef (length h)) | None => (h, v) end.
Fixpoint copy_elements (h : heap) (l : list pyval) : heap * list pyval :=
  match l with
  | [] => (h, [])
  | v :: t => let (h1, v1) := copy_flat h v in let (h2, t2) := copy_elements h1 t in (h2, v1 :: t2)
  end.
Definition deepcopy (h : heap) (v : pyval) : heap * pyval :=
  match lookup h v with
  | Some (CList l) => let (h1, l1) := copy_elements h l in (h1 ++ [CList l1], PRef (length h1))
  | _ => copy_flat h v
  end.

(** ** Checks *)
(** Lines 587-595 and alike: isinstance(x, (np.ndarray, list)) and x.size == 2; a list has no size *)
Definition check_limits (h : heap) (v : pyval) : result unit :=
  match v with
  | PNone => Ok tt
  | _ => match lookup h v with
         | Some (CArray l) => raise_if (negb (length l =? 2)) ValueError (Ok tt)
         | Some (CList _) => Err AttributeError
         | _ => Err ValueError
         end
  end.
(** Lines 708-712, 738-742 *)
Definition check_instance (i : interface) (h : heap) (v : pyval) : result unit :=
  match v with PNone => Ok tt | _ => raise_if (negb (is_instance h i v)) ValueError (Ok tt) end.
(** Lines 767-774 and alike: iterating over something that is not iterable raises TypeError *)
Definition check_list (i : interface) (h : heap) (v : pyval) : result unit :=
  match v with
  | PNone => Ok tt
  | _ => match lookup h v with
         | Some (CList l) => raise_if (negb (forallb (is_instance h i) l)) ValueError (Ok tt)
         | Some (CArray l) => raise_if (negb (length l =? 0)) ValueError (Ok tt)
         | _ => Err TypeError
         end
  end.
Definition check (f : field) : heap -> pyval -> result unit :=
  match f with
  | FLimitG1 | FLimitG2 | FLimitS1 | FLimitS2 => check_limits
  | FIdealCsd => check_instance IIdealCsd
  | FSensor => check_instance ISensor
  | FOccupation => check_list IOccupation
  | FPotential => check_list IPotential
  | FResponse => check_list IResponse
  end.

(** SensorGeneric() *)
Definition new_generic_sensor : cell :=
  CObject (fun i => match i with ISensor => true | _ => false end) [].

Definition store (s : attributes) (f : field) (v : pyval) : attributes :=
  fun g => if field_eq_dec g f then v else s g.
(** A setter: the exception or nothing, the new heap and the new attributes *)
Definition set_field (f : field) (v : pyval) (h : heap) (s : attributes) : result unit * (heap * attributes) :=
  match check f h v with
  | Err e => (Err e, (h, s))
  | Ok _ =>
      match f, v with
      | FSensor, PNone => (Ok tt, (h ++ [new_generic_sensor], store s f (PRef (length h))))
      | _, _ => let (h1, v1) := deepcopy h v in (Ok tt, (h1, store s f v1))
      end
  end.
(** A getter returns the reference *)
Definition get_field (f : field) (s : attributes) : pyval := s f.

(** Simulation(...): all setters in order, lines 94-103; the first exception ends it *)
Definition initial : list field := [FLimitG1; FLimitG2; FLimitS1; FLimitS2; FIdealCsd; FSensor; FOccupation; FPotential; FResponse].
Fixpoint set_all (fs : list field) (args : field -> pyval) (h : heap) (s : attributes) : result unit * (heap * attributes) :=
  match fs with
  | [] => (Ok tt, (h, s))
  | f :: t => match set_field f (args f) h s with
              | (Ok _, (h1, s1)) => set_all t args h1 s1
              | (Err e, st) => (Err e, st)
              end
  end.
Definition construct (args : field -> pyval) (h : heap) : result unit * (heap * attributes) :=
  set_all initial args h (fun _ => PNone).
