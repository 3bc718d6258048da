(** The checks of voltages and parameters with all values of float64: numbers, infinities and not-a-number.

    Comparisons as in IEEE 754 (Flocq): every comparison with NaN is false. np.min and np.max return NaN if one of
    the entries is NaN. *)
From Flocq Require Import IEEE754.BinarySingleNaN.
From Verif Require Import RPrelude ModelCsd ModelSimulation.

Definition float64 : Set := binary_float 53 1024.
Definition nan64 : float64 := B754_nan.
Definition lt64 (x y : float64) : bool := Bltb x y.
Definition le64 (x y : float64) : bool := Bleb x y.
Definition eq64 (x y : float64) : bool := Beqb x y.
(** np.min and np.max of two entries *)
Definition min64 (x y : float64) : float64 := if is_nan x then x else if is_nan y then y else if lt64 y x then y else x.
Definition max64 (x y : float64) : float64 := if is_nan x then x else if is_nan y then y else if lt64 x y then y else x.

Definition limits64 : Type := option (float64 * float64).
(** _simulation.py:161-176 and 377-392 *)
Definition range_outside64 (lims : limits64) (s : float64 * float64) : bool :=
  match lims with
  | None => false
  | Some (lo, hi) =>
      let mn := min64 (fst s) (snd s) in let mx := max64 (fst s) (snd s) in
      lt64 mn lo || lt64 hi mn || lt64 mx lo || lt64 hi mx
  end.
(** Lines 186-197 *)
Definition sensor_volt_outside64 (lims : limits64) (v : option float64) : result bool :=
  match lims, v with
  | None, _ => Ok false
  | Some _, None => Err TypeError
  | Some (lo, hi), Some x => Ok (lt64 x lo || lt64 hi x)
  end.
(** Lines 415-428 *)
Definition plunger_volt_outside64 (lims : limits64) (v : option float64) : bool :=
  match lims, v with Some (lo, hi), Some x => lt64 x lo || lt64 hi x | _, _ => false end.
Definition fixed_range64 (s : float64 * float64) : bool := eq64 (fst s) (snd s).

(** The limits of the four gates: plunger gates 1 and 2, sensor gates 1 and 2. *)
Record all_limits := mk_all_limits { al_g1 : limits64; al_g2 : limits64; al_sensor_g1 : limits64; al_sensor_g2 : limits64 }.
(** measure, lines 147-239; [configured]: there is an ideal CSD configuration *)
Definition check_measure64 (configured : bool) (l : all_limits) (s1 s2 : list float64) (v1 v2 : option float64) (res : resolution) : result unit :=
  raise_if (negb configured) ValueError
  match s1, s2 with
  | [a1; b1], [a2; b2] =>
      raise_if (range_outside64 (al_g1 l) (a1, b1) || range_outside64 (al_g2 l) (a2, b2)) ValueError
      (let? out1 := sensor_volt_outside64 (al_sensor_g1 l) v1 in
       let? out := (if out1 then Ok true else sensor_volt_outside64 (al_sensor_g2 l) v2) in
       raise_if out ValueError
       (raise_if (xorb (is_none v1) (is_none v2)) ValueError
       (raise_if (too_long res) ValueError
       (raise_if (is_2d res && (fixed_range64 (a1, b1) || fixed_range64 (a2, b2))) ValueError
       (raise_if (is_2d res && too_small res) ValueError
       (Ok tt))))))
  | _, _ => Err ValueError
  end.
(** measure_sensor_scan, lines 361-464; [scans]: the sensor supports sensor scans *)
Definition check_sensor_scan64 (scans : bool) (l : all_limits) (s1 s2 : list float64) (v1 v2 : option float64) (res : resolution) : result unit :=
  raise_if (negb scans) ValueError
  match s1, s2 with
  | [a1; b1], [a2; b2] =>
      raise_if (range_outside64 (al_sensor_g1 l) (a1, b1) || range_outside64 (al_sensor_g2 l) (a2, b2)) ValueError
      (raise_if (is_2d res && (fixed_range64 (a1, b1) || fixed_range64 (a2, b2))) ValueError
      (raise_if (plunger_volt_outside64 (al_g1 l) v1 || plunger_volt_outside64 (al_g2 l) v2) ValueError
      (raise_if (xorb (is_none v1) (is_none v2)) ValueError
      (raise_if (too_long res) ValueError
      (raise_if (is_2d res && too_small res) ValueError
      (Ok tt))))))
  | _, _ => Err ValueError
  end.

(** The setters of gamma (_sensor_peak_lorentzian.py:45-48), sigma (_sensor_peak_gaussian.py:46-49) and asymmetry
    (_sensor_rise_glf.py:144, _barrier_function_glf.py:214), and the radius of line_circle_intersection
    (_linear_algebra.py:114) *)
Definition set_positive64 (x : float64) : result float64 := raise_if (le64 x (B754_zero false)) ValueError (Ok x).
(** quality_multiplier, _GaAs_v1_random_variations_v3_config_sampler.py:63 *)
Definition one64 : float64 := @Bone 53 1024 eq_refl eq_refl.
Definition set_quality64 (q : float64) : result float64 :=
  raise_if (negb (lt64 (B754_zero false) q && le64 q one64)) ValueError (Ok q).
