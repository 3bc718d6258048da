(** Vocabulary for the Coulomb peaks labelled in sensor scans. *)
From Verif Require Import RPrelude Arr ModelDistortions ModelSensor SpecSensor.
Local Open Scope R_scope.

(** How much the potential of the sensor dot changes from pixel to pixel along a row of a scan over the ranges [l1], [l2] of
    the sensor gates. *)
Definition row_step (s : scan_sensor) (im : image) (l1 l2 : R * R) : R :=
  let arm := row0 (ss_sensor s) in
  match im with
  | Img1 a => (fst arm * (snd l1 - fst l1) + snd arm * (snd l2 - fst l2)) / INR (len1 a - 1)
  | Img2 a => fst arm * (snd l1 - fst l1) / INR (cols a - 1)
  end.
