(** Vocabulary for the statements about parameter sampling. *)
From Verif Require Import RPrelude ModelSampling.
Local Open Scope R_scope.

(** What numpy guarantees: a uniform number lies between its ends. Nothing is assumed about the
    other distributions. *)
Definition uniform_ok {G} (r : rng G) : Prop :=
  forall lo hi g, lo <= hi -> lo <= fst (r_uniform r lo hi g) <= hi.
(** A range may be given with its ends exchanged (ExponentialSamplingRange only). *)
Definition within (rg : R * R) (v : R) : Prop := Rmin (fst rg) (snd rg) <= v <= Rmax (fst rg) (snd rg).
Definition width (rg : R * R) : R := Rabs (snd rg - fst rg).
Definition ordered (rg : R * R) : Prop := fst rg <= snd rg.
Definition admissible_range (a : sampler_args) (total : R * R) : Prop :=
  match a with AExponential _ => True | _ => ordered total end.
Definition admissible_width (sampling_range : option R) : Prop :=
  match sampling_range with None => True | Some w => 0 <= w end.
(** One number drawn from a distribution: exponential numbers are measured from the first end of the range in units of its width. *)
Definition one_draw {G} (r : rng G) (d : distribution) (rg : R * R) (g : G) : R * G :=
  match d with
  | DNormal mean std => r_normal r mean std g
  | DUniform => r_uniform r (fst rg) (snd rg) g
  | DLogNormal mean sigma => r_lognormal r mean sigma g
  | DExponential scale => ((1 - fst (r_exponential r scale g)) * fst rg + fst (r_exponential r scale g) * snd rg, snd (r_exponential r scale g))
  end.
(** The n-th number drawn from a distribution, starting at generator state g. *)
Fixpoint nth_draw {G} (r : rng G) (d : distribution) (rg : R * R) (n : nat) (g : G) : R :=
  match n with
  | O => fst (one_draw r d rg g)
  | S k => nth_draw r d rg k (snd (one_draw r d rg g))
  end.
(** The exponential distribution with the given scale: share of the numbers up to x. *)
Definition exponential_cdf (scale x : R) : R := 1 - exp (- (x / scale)).
