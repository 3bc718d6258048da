(** Numbers with few binary digits. *)
From Flocq Require Import Core.
From Verif Require Import RPrelude ModelTct SpecFloatRange.
Local Open Scope R_scope.

(** A multiple of 2^-e between -b and b. *)
Definition on_grid (e b : Z) (r : R) : Prop := (exists z, r = IZR z * pow2 (- e)) /\ Rabs r <= IZR b.
(** Lengths and voltages are multiples of 2^-13 up to 2, slopes multiples of 2^-10 up to 8, and the other coordinates of the anchors
    multiples of 2^-26 up to 8. *)
Record short_tct (p : tct_params) : Prop := {
  st_len_left : on_grid 13 2 (len_left p); st_len_right : on_grid 13 2 (len_right p);
  st_slope_left : on_grid 10 8 (slope_left p); st_slope_right : on_grid 10 8 (slope_right p);
  st_start_x : on_grid 13 2 (start_x p); st_end_x : on_grid 13 2 (end_x p);
  st_start_y : on_grid 26 8 (start_y p); st_end_y : on_grid 26 8 (end_y p) }.
