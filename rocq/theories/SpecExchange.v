(** Exchanging the two gates and the two dots. *)
From Verif Require Import RPrelude ModelSupport ModelTct ModelCsd SpecSupport SpecTct SpecCsd SpecOrder SpecQuant.
Local Open Scope R_scope.

(** (V1, V2) becomes (V2, V1), (dot 1, dot 2) becomes (dot 2, dot 1) *)
Definition exchange {A} (v : A * A) : A * A := (snd v, fst v).

(** In the coordinates of the TCT parameters (rotated by 45 degrees) the exchange is a reflection at the y-axis. The reflected curve
    of the TCT with k peaks starts with the reflection of the last peak. *)
Definition exchanged_tct (k : nat) (p : tct_params) : tct_params :=
  let dx := INR (k - 1) * fst (period_vector p) in
  let dy := INR (k - 1) * snd (period_vector p) in
  mk_tct (len_right p) (len_left p) (- slope_right p) (- slope_left p)
    (- (end_x p + dx)) (end_y p + dy) (- (start_x p + dx)) (start_y p + dy).

(** The TCT with number k (counted from 1) has k peaks. *)
Definition exchanged_tcts (params : list tct_params) : list tct_params :=
  map (fun ip => exchanged_tct (S (fst ip)) (snd ip)) (combine (seq 0 (length params)) params).

(** TCT n and TCT n + 1 have the same distance between peaks. *)
Definition same_period (params : list tct_params) (n : nat) : Prop :=
  exists p q, nth_error params (n - 1) = Some p /\ nth_error params n = Some q /\ period_vector p = period_vector q.

(** The interdot transitions of the region with n electrons are wider than 1e-8 (narrower ones are drawn as steps). *)
Definition coupled (params : list tct_params) (g : R) (n : nat) : Prop :=
  forall u l po, interdot_line params n u l -> nth_error params (n - 1) = Some po ->
  1 / 100000000 * Rabs g * dist2 u l < Rabs (cross (vec u l) (coupling_vector po)).

Definition exchangeable (params : list tct_params) (g : R) : Prop :=
  forall n, (1 <= n < length params)%nat -> same_period params n /\ coupled params g n.

(** [q] lies on the straight line from the k-th (from 0) peak of TCT n (s = 0) to the k-th valley of TCT n + 1 (s = 1). *)
Definition between_triple_points (params : list tct_params) (n k : nat) (s : R) (q : point) : Prop :=
  exists p r c d, nth_error params (n - 1) = Some p /\ nth_error params n = Some r /\ corner p c /\ interdot_vector p r k d /\
    q = (fst (peak_point p c k) + s * fst d, snd (peak_point p c k) + s * snd d).
