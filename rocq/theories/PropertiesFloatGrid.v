(** C125: TCTs whose parameters have few binary digits. *)
From Verif Require Import RPrelude ModelTct ModelFloatDraw SpecFloatGrid ProofsFloatGrid.
Local Open Scope R_scope.

(** If lengths, slopes, coordinates and the voltage have few binary digits, and the anchor and the bezier curve have few at the points in question,
    then the double precision evaluation of a TCT returns exactly the value of the TCT, or raises the same exception. *)
Theorem C125_short_partial p lut mp x : short_tct p -> (mp <= 1024)%nat -> on_grid 13 8 x ->
  (forall c, bezier_center p = Ok c -> on_grid 13 2 (fst c) /\ forall t, on_grid 13 2 t -> start_x p <= t <= end_x p -> on_grid 26 64 (bezier_eval p c lut t)) ->
  float_tct p (fun c => bezier_eval p c lut) mp x = tct_bezier_number p lut (Some mp) x.
Proof. exact (short_exact p lut mp x). Qed.
Print Assumptions C125_short_partial.

(** The arc of the parabola y = - 2 x - x^2 from 0 to 2 and its continuation at 3, where the arc is run through backwards. *)
Example C125_short_example : float_tct parabola (fun c => bezier_eval parabola c None) 5 3 = Ok (-13).
Proof. rewrite (C125_short_partial parabola None 5 3 parabola_short ltac:(lia) three parabola_ready). exact parabola_at. Qed.
