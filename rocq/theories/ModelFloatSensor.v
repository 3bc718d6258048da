(** Sensor responses in double precision.

    float64 numbers as in ModelFloat: binary64 without overflow, [fl] rounds to nearest, ties to even. Squares are
    taken to be rounded products. *)
From Verif Require Import RPrelude ModelFloat.
Local Open Scope R_scope.

(** sensor_response_lorentz, _sensor_peak_lorentzian.py:105, for one potential. *)
Definition float_lorentz (mu mu0 gamma height offset : R) : R :=
  let g2 := fl (gamma * gamma) in
  let d := fl (mu - mu0) in
  fl (offset + fl (fl (height * g2) / fl (g2 + fl (d * d)))).

(** The series combination of one sensor response and two barrier responses,
    _sensor_scan_sensor_generic.py:572-574. *)
Definition float_series (s b1 b2 : R) : R :=
  let num := fl (fl (s * b1) * b2) in
  let den := fl (fl (fl (b1 * b2) + fl (s * b1)) + fl (s * b2)) in
  if Reqb den 0 then 0 else fl (num / den).
