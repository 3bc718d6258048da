(** TCTs of ordinary size. *)
From Verif Require Import RPrelude ModelFloat ModelTct.
Local Open Scope R_scope.

(** Voltages and lengths of at most one volt, gradients of at most one that differ by at least 1/32. *)
Record ordinary_tct (p : tct_params) : Prop := {
  or_start_x : Rabs (start_x p) <= 1; or_start_y : Rabs (start_y p) <= 1; or_end_x : Rabs (end_x p) <= 1; or_end_y : Rabs (end_y p) <= 1;
  or_slope_left : Rabs (slope_left p) <= 1; or_slope_right : Rabs (slope_right p) <= 1; or_slopes : 1/32 <= slope_left p - slope_right p;
  or_len_left : 0 <= len_left p <= 1; or_len_right : 0 <= len_right p <= 1 }.
(** Parameters as the program holds them: decimal literals are rounded to double precision. *)
Definition as_doubles (p : tct_params) : tct_params :=
  mk_tct (fl (len_left p)) (fl (len_right p)) (fl (slope_left p)) (fl (slope_right p)) (fl (start_x p)) (fl (start_y p)) (fl (end_x p)) (fl (end_y p)).
