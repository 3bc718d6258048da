(** Charge sensing: what the sensor shows when an electron enters a dot. *)
From Verif Require Import RPrelude ModelSensor.
Local Open Scope R_scope.

(** Two measured values are the sums of the peaks at two potentials, the second of which is higher by [drop]. *)
Definition potential_drop (ps : list peak) (y y' drop : R) : Prop :=
  exists mu, y = Rsum (map (fun p => peak_fun p (mu0 p) mu) ps) /\ y' = Rsum (map (fun p => peak_fun p (mu0 p) (mu + drop)) ps).
(** The lever arm of the dot that gets the electron across a right ([true]) or left branch of a transition. *)
Definition entered (right : bool) (dot : R * R) : R := if right then fst dot else snd dot.
