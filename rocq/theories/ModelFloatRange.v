(** Pixel voltages and uniformly sampled parameters in double precision.

    float64 numbers as in ModelFloat: binary64 without overflow, [fl] rounds to nearest, ties to even. *)
From Verif Require Import RPrelude ModelFloat.
Local Open Scope R_scope.

(** np.linspace(a, b, num=n) of two float64 numbers, as used for the voltages of all pixels
    (_get_electron_occupation.py:146-150, _sensor_generic.py:203-212, _sensor_scan_sensor_generic.py:719-744).
    numpy computes arange(n) * step + a with step = (b - a) / (n - 1) and overwrites the last entry by b;
    arange(n) / (n - 1) * (b - a) + a if the step is rounded to zero. *)
Definition float_linspace (a b : R) (n : nat) : list R :=
  match n with
  | O => []
  | 1%nat => [a]
  | S m =>
      let delta := fl (b - a) in
      let step := fl (delta / INR m) in
      map (fun i => fl (fl (if Reqb step 0 then fl (INR i / INR m) * delta else INR i * step) + a)) (seq 0 m) ++ [b]
  end.

(** numpy.random.Generator.uniform(low, high): low + (high - low) * v with a random number v of 53 bits. *)
Definition float_uniform (v low high : R) : R := fl (low + fl (fl (high - low) * v)).

(** UniformSamplingRange, NormalSamplingRange and LogNormalSamplingRange: the range narrowed to the width [w],
    _parameter_sampling.py:74-88 (139-153, 201-219); the warning is left out. *)
Definition float_narrow (v : R) (total : R * R) (w : R) : R * R :=
  if Rleb (fl (snd total - fst total)) w then total
  else let h := fl (1/2 * w) in
       let c := float_uniform v (fl (fst total + h)) (fl (snd total - h)) in
       (fl (c - h), fl (c + h)).
(** A parameter sampled uniformly from the narrowed range, line 157. *)
Definition float_sample (v1 v2 : R) (total : R * R) (w : R) : R :=
  let rg := float_narrow v1 total w in float_uniform v2 (fst rg) (snd rg).
