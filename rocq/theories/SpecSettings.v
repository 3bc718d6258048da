(** What a setter of Simulation promises, in terms of the contents behind references. *)
From Verif Require Import RPrelude ModelSettings.

(** The contents of a value. *)
Inductive content :=
| NoValue | ANumber (x : R) | AnArray (l : list R) | AnObject (impl : interface -> bool) (state : list R)
| AList (l : list content) | NestedList | Dangling.
Definition flat_content (h : heap) (v : pyval) : content :=
  match v with
  | PNone => NoValue
  | PNumber x => ANumber x
  | PRef a => match nth_error h a with
              | Some (CArray l) => AnArray l
              | Some (CObject i s) => AnObject i s
              | Some (CList _) => NestedList
              | None => Dangling
              end
  end.
Definition contents (h : heap) (v : pyval) : content :=
  match v with
  | PRef a => match nth_error h a with
              | Some (CList l) => AList (map (flat_content h) l)
              | _ => flat_content h v
              end
  | _ => flat_content h v
  end.

Definition has_interface (i : interface) (c : content) : Prop :=
  match c with AnObject impl _ => impl i = true | _ => False end.
(** The documented values of the properties. *)
Definition acceptable (f : field) (c : content) : Prop :=
  let limits := c = NoValue \/ exists a b, c = AnArray [a; b] in
  let object i := c = NoValue \/ has_interface i c in
  let objects i := c = NoValue \/ exists l, c = AList l /\ Forall (has_interface i) l in
  match f with
  | FLimitG1 | FLimitG2 | FLimitS1 | FLimitS2 => limits
  | FIdealCsd => object IIdealCsd
  | FSensor => object ISensor
  | FOccupation => objects IOccupation
  | FPotential => objects IPotential
  | FResponse => objects IResponse
  end.
(** The properties that hold lists of distortions. *)
Definition list_field (f : field) : Prop := f = FOccupation \/ f = FPotential \/ f = FResponse.
(** The exception of a refused value: lists have no size, numbers and single objects cannot be iterated over. *)
Definition refusal (f : field) (c : content) : exn :=
  match f with
  | FLimitG1 | FLimitG2 | FLimitS1 | FLimitS2 => match c with AList _ => AttributeError | _ => ValueError end
  | FIdealCsd | FSensor => ValueError
  | FOccupation | FPotential | FResponse => match c with AList _ | AnArray _ => ValueError | _ => TypeError end
  end.
(** What is read back after a value was set: the value; a new generic sensor for the sensor None. *)
Definition read_back (f : field) (c : content) : content :=
  match f, c with FSensor, NoValue => AnObject (fun i => match i with ISensor => true | _ => false end) [] | _, _ => c end.

(** Cells that can be reached from a value. *)
Definition reachable (h : heap) (v : pyval) (a : nat) : Prop :=
  v = PRef a \/ exists b l, v = PRef b /\ nth_error h b = Some (CList l) /\ In (PRef a) l.

(** A user creates objects, changes objects they created and sets properties. [user] are the cells
    the user created; the second function is what the properties should contain. *)
Inductive op := New (c : cell) | Write (a : nat) (c : cell) | Set_ (f : field) (v : pyval).
Record state := mk_state { st_heap : heap; st_sim : attributes; st_user : list nat; st_expected : field -> content }.
Definition write (h : heap) (a : nat) (c : cell) : heap := firstn a h ++ c :: skipn (S a) h.
Definition step (o : op) (st : state) : option state :=
  match o with
  | New c => Some (mk_state (st_heap st ++ [c]) (st_sim st) (length (st_heap st) :: st_user st) (st_expected st))
  | Write a c =>
      if in_dec Nat.eq_dec a (st_user st)
      then Some (mk_state (write (st_heap st) a c) (st_sim st) (st_user st) (st_expected st))
      else None                                        (* not the user's object *)
  | Set_ f v =>
      let (r, hs) := set_field f v (st_heap st) (st_sim st) in
      Some (mk_state (fst hs) (snd hs) (st_user st)
             (fun g => match r with
                       | Ok _ => if field_eq_dec g f then read_back f (contents (st_heap st) v) else st_expected st g
                       | Err _ => st_expected st g
                       end))
  end.
Fixpoint run (os : list op) (st : state) : option state :=
  match os with [] => Some st | o :: t => match step o st with Some st' => run t st' | None => None end end.
(** Nothing the user created belongs to the simulation, and the properties contain what they should. *)
Record separated (st : state) : Prop := {
  sp_user : forall a, In a (st_user st) -> a < length (st_heap st);
  sp_reach : forall f a, reachable (st_heap st) (st_sim st f) a -> a < length (st_heap st) /\ ~ In a (st_user st);
  sp_expected : forall f, contents (st_heap st) (st_sim st f) = st_expected st f }.
(** The arguments of Simulation, in their order, and the values that its setters accept. *)
Definition arguments : list field := [FLimitG1; FLimitG2; FLimitS1; FLimitS2; FIdealCsd; FSensor; FOccupation; FPotential; FResponse].
Definition accepted (f : field) (c : content) : Prop := acceptable f c \/ (list_field f /\ c = AnArray []).
