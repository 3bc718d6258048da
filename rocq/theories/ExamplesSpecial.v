(** Concrete float64 values. *)
From Flocq Require Import IEEE754.BinarySingleNaN.
From Verif Require Import RPrelude ModelSimulation ModelSpecial.

Definition half64 : float64 := @B754_finite 53 1024 false 4503599627370496 (-53) eq_refl.
Definition minus_half64 : float64 := @B754_finite 53 1024 true 4503599627370496 (-53) eq_refl.
Definition zero64 : float64 := B754_zero false.
Definition inf64 : float64 := B754_infinity false.
Definition gates64 : all_limits :=
  let l := Some (minus_half64, half64) in mk_all_limits l l l l.
