(** Which generators a list of distortions uses. *)
From Verif Require Import RPrelude ModelGenerators.

Definition uses {D X V} (l : list (@noise D X V)) (r : ref) : Prop := exists o, In o l /\ (r = own o \/ In r (samplers o)).
Definition simulation_uses {D X V} (s : @simulation D X V) (r : ref) : Prop :=
  uses (occupation_noise s) r \/ uses (potential_noise s) r \/ uses (response_noise s) r.
(** Generators that exist *)
Definition exist {G D X V} (s : @simulation D X V) (h : @generators G) : Prop := forall r, simulation_uses s r -> (r < next h)%nat.
(** Two lists of distortions have no generator in common. *)
Definition separate {D X V} (a b : list (@noise D X V)) : Prop := forall r, uses a r -> uses b r -> False.
(** Measurements in which every list of distortions has its own set of generators *)
Section Apart.
Context {G D X V : Type}.
Variable draw : D -> G -> X * G.
Variable to_potential to_response : V -> V.
Fixpoint measures_apart (s : @simulation D X V) (xs : list V) (g1 g2 g3 : ref -> G) : list (V * V * V) :=
  match xs with
  | [] => []
  | x :: t =>
      let '(x1, g1) := run_all draw (occupation_noise s) x g1 in
      let '(x2, g2) := run_all draw (potential_noise s) (to_potential x1) g2 in
      let '(x3, g3) := run_all draw (response_noise s) (to_response x2) g3 in
      (x1, x2, x3) :: measures_apart s t g1 g2 g3
  end.
End Apart.
