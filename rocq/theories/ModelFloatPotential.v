(** The potential of the generic sensor in double precision.

    float64 numbers as in ModelFloat: binary64 without overflow, [fl] rounds to nearest, ties to even. The dot products
    of two entries are computed by the BLAS library numpy was built with, which may round both products before adding
    them or fuse one of the products with the addition; [fused] selects the variant, and everything is proved for all. *)
From Verif Require Import RPrelude ModelFloat.
Local Open Scope R_scope.

Inductive fused := NoneFused | FirstFused | SecondFused.
Definition float_dot (k : fused) (a x : R * R) : R :=
  let p := fst a * fst x in
  let q := snd a * snd x in
  match k with
  | NoneFused => fl (fl p + fl q)
  | FirstFused => fl (p + fl q)
  | SecondFused => fl (fl p + q)
  end.

(** sensor_potential, _sensor_generic.py:215, for one pixel. *)
Definition float_potential (k1 k2 : fused) (alpha_dot alpha_gate : R * R) (offset : R) (v occ : R * R) : R :=
  fl (fl (float_dot k1 alpha_dot occ + float_dot k2 alpha_gate v) + offset).

(** reset_offset_mu_sens, _reset_offset_mu_sens.py:41-43: the new offset; [v] and [occ] belong to the first pixel. *)
Definition float_reset (k1 k2 : fused) (alpha_dot alpha_gate : R * R) (offset target : R) (v occ : R * R) : R :=
  fl (target - fl (float_potential k1 k2 alpha_dot alpha_gate offset v occ - offset)).
