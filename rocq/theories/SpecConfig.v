(** Vocabulary for the statements about the configuration sampler. *)
From Verif Require Import RPrelude Arr ModelSupport ModelSampling ModelSensor ModelConfig SpecSampling.
Local Open Scope R_scope.

(** What numpy guarantees about choosing one of the integers from a to b. *)
Definition choice_ok {G} (choice : nat -> nat -> G -> nat * G) : Prop :=
  forall a b g, (a <= b)%nat -> (a <= fst (choice a b g) <= b)%nat.

(** Lever arms of the plunger gates and of the dots, for a quality multiplier q. *)
Definition consistent_arms (q : R) (compensated : bool) (gates dots : R * R) : Prop :=
  (if compensated then 0.0001 <= fst gates <= 0.0005 else 0.02805 <= fst gates <= 0.15093) /\
  fst gates / 2 <= snd gates <= 2 * fst gates /\
  -0.0007994 <= fst dots <= -0.0007994 + q * 0.0007033 /\
  -0.0005214 <= snd dots <= -0.0005214 + q * 0.0004584 /\
  2 * fst dots <= snd dots <= fst dots / 2 /\
  (* two pixels of 0.03 / 100 V *)
  2 * (0.0003 * fst gates) <= - fst dots /\ 2 * (0.0003 * snd gates) <= - snd dots.

Definition ascending (ps : list lorentz) : Prop :=
  forall i j p q, (i < j)%nat -> nth_error ps i = Some p -> nth_error ps j = Some q -> lz_mu0 p <= lz_mu0 q.
(** Consecutive distances of a peak list compared with the distance of its first two peaks. *)
Definition even_spacing (ps : list lorentz) : Prop :=
  forall i p0 p1 p q, (1 <= i)%nat -> nth_error ps 0 = Some p0 -> nth_error ps 1 = Some p1 ->
  nth_error ps i = Some p -> nth_error ps (S i) = Some q ->
  let d := lz_mu0 p1 - lz_mu0 p0 in 0.887 * d <= lz_mu0 q - lz_mu0 p <= 1.06 * d.

(** Peak list of a sensor-scan sensor with the first peak at [base]. *)
Definition scan_peaks_ok (base : R) (ps : list lorentz) : Prop :=
  Forall (fun p => 0 < lz_gamma p /\ 0 <= lz_height p /\ lz_offset p = 0) ps /\
  ascending ps /\ even_spacing ps /\ (forall p, nth_error ps 0 = Some p -> lz_mu0 p = base) /\
  (forall p q, nth_error ps 0 = Some p -> nth_error ps 1 = Some q -> 0 <= lz_mu0 q - lz_mu0 p <= 0.0147) /\
  (forall i p, (2 <= i)%nat -> nth_error ps i = Some p -> lz_gamma p <= 0.0022) /\
  (forall i p q, nth_error ps i = Some p -> nth_error ps (S i) = Some q -> (1 <= i)%nat -> 0.0018 <= lz_gamma q \/ lz_gamma q <= 1.5 * lz_gamma p).

(** The two potentials whose minimum and maximum bound the peaks of a generic sensor: both dots empty
    at the lower ends, five electrons in each dot at the upper ends of the plunger ranges. *)
Definition end_potentials (gates dots : R * R) : R * R :=
  (-0.2 * (fst gates + snd gates), -0.06 * (fst gates + snd gates) + 5 * (fst dots + snd dots)).
Definition between_ends (gates dots : R * R) (x : R) : Prop := within (end_potentials gates dots) x.
Definition end_distance (gates dots : R * R) : R := width (end_potentials gates dots).
(** All pairs are more than [d] apart. *)
Definition apart (d : R) (xs : list R) : Prop :=
  forall i j x y, i <> j -> nth_error xs i = Some x -> nth_error xs j = Some y -> d < Rabs (x - y).
(** [x] is more than [d] away from all of [xs]. *)
Definition away (d : R) (xs : list R) (x : R) : Prop := forall y, In y xs -> d < Rabs (x - y).

(** Ranges of the parameters of the peaks of a generic sensor relative to its first peak. *)
Definition similar_peaks (ps : list lorentz) : Prop :=
  exists p0, nth_error ps 0 = Some p0 /\
  0.02245 <= lz_height p0 <= 0.19204 /\ -0.42275 <= lz_offset p0 <= -0.0838 /\
  forall p, In p ps -> 0.0009636 <= lz_gamma p <= 0.0029509 /\
    0.8 * lz_height p0 <= lz_height p <= 1.2 * lz_height p0 /\
    1.2 * lz_offset p0 <= lz_offset p <= 0.8 * lz_offset p0.

(** A Lorentzian: the full height above the offset at [lz_mu0], half of it at the distance [lz_gamma]. *)
Definition lorentz_value (p : lorentz) (x : R) : R :=
  lz_offset p + lz_height p / (1 + ((x - lz_mu0 p) / lz_gamma p) ^ 2).
(** The peak object has these parameters. *)
Definition has_shape (p : lorentz) (k : peak) : Prop :=
  mu0 k = lz_mu0 p /\ forall x, sensor_function k x = lorentz_value p x.

(** A generator that returns the given numbers in turn, whatever is asked for (0 after the last one). *)
Definition next (g : list R) : R * list R := match g with [] => (0, []) | x :: t => (x, t) end.
Definition tape : rng (list R) :=
  mk_rng (fun _ _ => next) (fun _ _ => next) (fun _ _ => next) (fun _ => next).
(** A generator of uniform numbers with the given numbers as relative positions in the range. *)
Definition relative_tape : rng (list R) :=
  mk_rng (fun lo hi g => let '(x, t) := next g in (lo + Rmax 0 (Rmin 1 x) * (hi - lo), t))
         (fun _ _ => next) (fun _ _ => next) (fun _ => next).

(** Slope of sampled values at sample i of n: difference of the neighbouring samples (of the sample
    itself at the ends) per step. *)
Definition sample_slope (f : nat -> R) (n i : nat) : R :=
  let a := (i - 1)%nat in let b := Nat.min (i + 1) (n - 1) in (f b - f a) / INR (b - a).

(** Parameters of a sampled sensor-scan sensor. *)
Definition scan_lever_arms (a : rows3) : Prop :=
  0 < fst (row0 a) /\ 0 < snd (row0 a) /\ Rmax (fst (row0 a)) (snd (row0 a)) = 0.1 /\
  fst (row1 a) = 0.99 /\ 0.1 <= snd (row1 a) <= 0.3 /\ 0.1 <= fst (row2 a) <= 0.3 /\ snd (row2 a) = 0.99.
(** Potential of a row of sensor gate lever arms at sensor gate voltages. *)
Definition gate_potential (row v : R * R) : R := fst row * fst v + snd row * snd v.
Definition has_ratio (ds : list distortion) (x : R) : Prop :=
  exists scale std height, In (TelegraphNoise scale std height x) ds.

(** The state of the generator after [k] draws from [lo, hi]. *)
Fixpoint after_draws {G} (r : rng G) (lo hi : R) (k : nat) (g : G) : G :=
  match k with O => g | S k => after_draws r lo hi k (snd (r_uniform r lo hi g)) end.

(** A generator that returns the middle of a uniform range and the mean of a normal distribution. *)
Definition middle : rng unit :=
  mk_rng (fun lo hi g => ((lo + hi) / 2, g)) (fun mean _ g => (mean, g)) (fun mean _ g => (mean, g)) (fun _ g => (0, g)).
