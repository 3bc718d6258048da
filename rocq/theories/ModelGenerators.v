(** Model of the random generators of distortions and of the copies of distortions made by Simulation
    (simcats/_simulation.py:774, 805, 836; the constructors of the distortions keep the generator they get, for example
    _white_noise.py:20-33, and use one generator per class if they get none).

    Simplifications: of a distortion only its generators and what it draws are modelled; what a distortion does with the data is an
    arbitrary program that asks its generators and computes with the answers (its own generator and those of the samplers used as
    parameters). The activation and the recorded noise of earlier calls are part of no object here: they are set anew by unfrozen calls. *)
From Verif Require Import RPrelude.

Definition ref := nat.
Section Generators.
Context {G D X V : Type}.
Variable draw : D -> G -> X * G.                          (* one call of a method of a generator *)

(** Generators are objects: [gen] gives the states, [next] is the number of the next new one. *)
Record generators := mk_generators { next : nat; gen : ref -> G }.
Definition update (g : ref -> G) (r : ref) (s : G) : ref -> G := fun q => if (q =? r)%nat then s else g q.

Inductive program := Return (v : V) | Ask (i : nat) (d : D) (k : X -> program).
Record noise := mk_noise { noise_function : V -> program; own : ref; samplers : list ref }.
Fixpoint run (p : program) (o : ref) (l : list ref) (g : ref -> G) : V * (ref -> G) :=
  match p with
  | Return v => (v, g)
  | Ask i d k => let r := nth i l o in let '(x, s) := draw d (g r) in run (k x) o l (update g r s)
  end.
(** A list of distortions, applied one after the other *)
Fixpoint run_all (l : list noise) (v : V) (g : ref -> G) : V * (ref -> G) :=
  match l with
  | [] => (v, g)
  | o :: t => let '(w, g1) := run (noise_function o v) (own o) (samplers o) g in run_all t w g1
  end.

(** copy.deepcopy: the memo maps generators to their copies *)
Definition memo := list (ref * ref).
Fixpoint find (m : memo) (r : ref) : option ref :=
  match m with [] => None | (a, b) :: t => if (r =? a)%nat then Some b else find t r end.
Definition copy_ref (r : ref) (st : generators * memo) : ref * (generators * memo) :=
  let '(h, m) := st in
  match find m r with
  | Some c => (c, st)
  | None => (next h, (mk_generators (S (next h)) (update (gen h) (next h) (gen h r)), (r, next h) :: m))
  end.
Fixpoint copy_refs (l : list ref) (st : generators * memo) : list ref * (generators * memo) :=
  match l with
  | [] => ([], st)
  | r :: t => let '(c, st1) := copy_ref r st in let '(cs, st2) := copy_refs t st1 in (c :: cs, st2)
  end.
Fixpoint copy_list (l : list noise) (st : generators * memo) : list noise * (generators * memo) :=
  match l with
  | [] => ([], st)
  | o :: t => let '(a, st1) := copy_ref (own o) st in
              let '(s, st2) := copy_refs (samplers o) st1 in
              let '(cs, st3) := copy_list t st2 in (mk_noise (noise_function o) a s :: cs, st3)
  end.
Definition deepcopy (l : list noise) (h : generators) : list noise * generators :=
  let '(c, (h1, _)) := copy_list l (h, []) in (c, h1).

(** Simulation.__init__: three lists, copied one after the other *)
Record simulation := mk_simulation { occupation_noise : list noise; potential_noise : list noise; response_noise : list noise }.
Definition new_simulation (a : simulation) (h : generators) : simulation * generators :=
  let '(o, h1) := deepcopy (occupation_noise a) h in
  let '(p, h2) := deepcopy (potential_noise a) h1 in
  let '(r, h3) := deepcopy (response_noise a) h2 in (mk_simulation o p r, h3).

(** Simulation.measure: [x] is the undistorted data of the measurement, [to_potential] and [to_response] are the sensor *)
Variable to_potential to_response : V -> V.
Definition measure (s : simulation) (x : V) (g : ref -> G) : (V * V * V) * (ref -> G) :=
  let '(x1, g1) := run_all (occupation_noise s) x g in
  let '(x2, g2) := run_all (potential_noise s) (to_potential x1) g1 in
  let '(x3, g3) := run_all (response_noise s) (to_response x2) g2 in ((x1, x2, x3), g3).
Fixpoint measures (s : simulation) (xs : list V) (g : ref -> G) : list (V * V * V) * (ref -> G) :=
  match xs with
  | [] => ([], g)
  | x :: t => let '(y, g1) := measure s x g in let '(ys, g2) := measures s t g1 in (y :: ys, g2)
  end.
End Generators.
