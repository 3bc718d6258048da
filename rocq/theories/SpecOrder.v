(** Vocabulary for statements about the position of consecutive total charge transitions. *)
From Verif Require Import RPrelude ModelTct SpecTct ModelCsd SpecCsd.
Local Open Scope R_scope.

(** The lead transitions of [q] are at most as steep as those of [p]. *)
Definition flatter (p q : tct_params) : Prop := slope_left q <= slope_left p /\ slope_right p <= slope_right q.

(** The k-th interdot vector (from 0): from the k-th peak of [p] to the k-th valley of [q]. *)
Definition interdot_vector (p q : tct_params) (k : nat) (d : point) : Prop :=
  exists cp cq, corner p cp /\ corner q cq /\
    d = (fst (peak_point q cq k) + len_right q - fst (peak_point p cp k),
         snd (peak_point q cq k) + len_right q * slope_right q - snd (peak_point p cp k)).

(** The end of the vector [d] lies at least [delta] above both straight lines through its start. *)
Definition rises (delta : R) (p : tct_params) (d : point) : Prop :=
  slope_left p * fst d + delta <= snd d /\ slope_right p * fst d + delta <= snd d.

(** The TCT [q] of number n + 1 is placed above the TCT [p] of number n: it is at most as steep, and
    the first and the last interdot vector between the two rise by at least [delta]. *)
Definition placed_above (delta : R) (n : nat) (p q : tct_params) : Prop :=
  flatter p q /\
  (exists d, interdot_vector p q 0 d /\ rises delta p d) /\
  (exists d, interdot_vector p q (n - 1) d /\ rises delta p d).
Definition stacked (delta : R) (params : list tct_params) : Prop :=
  forall n p q, (1 <= n)%nat -> nth_error params (n - 1) = Some p -> nth_error params n = Some q ->
    placed_above delta n p q.

(** Two TCTs made of parallel lead transitions of the same lengths; their rounded parts may differ. *)
Definition same_lines (p q : tct_params) : Prop :=
  len_left p = len_left q /\ len_right p = len_right q /\
  slope_left p = slope_left q /\ slope_right p = slope_right q.

(** Number of TCTs that the point [v] lies on or above. *)
Definition passed (params : list tct_params) (lut : option nat) (rotation : R) (v : point) (n : nat) : Prop :=
  (n <= length params)%nat /\
  forall k, (1 <= k <= length params)%nat -> (on_or_above params lut rotation v k <-> (k <= n)%nat).
