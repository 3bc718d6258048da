(** A peak of the width 1 between the slopes 1 and -1, with straight sides of the length [l]. *)
From Verif Require Import RPrelude ModelTct.
Local Open Scope R_scope.

Definition unit_peak (l s : R) : tct_params := mk_tct l l 1 (-1) s 0 (s + 1) 0.
