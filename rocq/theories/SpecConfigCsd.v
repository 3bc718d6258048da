(** Vocabulary for the statements about sampled ideal charge stability diagrams. *)
From Verif Require Import RPrelude Arr ModelSupport ModelTct ModelCsd ModelSampling ModelInstance ModelConfigCsd SpecTct SpecCsd SpecOrder.
Local Open Scope R_scope.

(** Ranges of the sampled parameters: the first TCT [p], and the shift [d] from one TCT to the next. *)
Definition sampled_tct (p : tct_params) (d : point) : Prop :=
  0.01 <= len_left p <= 0.025 /\ 0.01 <= len_right p <= 0.025 /\
  0.21429 <= slope_left p <= 0.54688 /\ -0.44 <= slope_right p <= -0.07692 /\
  (* angle between the lead transitions *)
  0.43760867228 <= atan (slope_left p) - atan (slope_right p) /\
  (* the gate voltages at the start of the first rounded part *)
  rotate_point (- (PI / 4)) (start_x p, start_y p) = (-0.14, -0.14) /\
  exists a len w,
    0.58153916891 <= a <= 1.396938844 /\ 0.00261 <= len <= 0.00987 /\ 0.00043 <= w <= 0.00814 /\
    0.8692269873603532 <= len / w <= 9.055385138137407 /\
    (* the rounded part runs a distance w in the direction of the mean slope *)
    (let m := atan ((slope_left p + slope_right p) / 2) in
     end_x p = start_x p + w * cos m /\ end_y p = start_y p + w * sin m) /\
    (* the interdot vector has length len and encloses the angle a with the left lead transitions *)
    (let t := atan (slope_left p) + a in
     (fst d + len_right p, snd d + len_right p * slope_right p) = (len * cos t, len * sin t)).

(** Every TCT is the one before it, moved by [d]; the first one is [p]. *)
Definition translates (p : tct_params) (d : point) (tcts : list tct_params) : Prop :=
  forall k q, nth_error tcts k = Some q ->
    q = mk_tct (len_left p) (len_right p) (slope_left p) (slope_right p)
          (start_x p + INR k * fst d) (start_y p + INR k * snd d) (end_x p + INR k * fst d) (end_y p + INR k * snd d).

(** The attributes of a sampled object other than its TCTs. *)
Definition sampled_attributes (x : geometric) : Prop :=
  g_rotation x = - (PI / 4) /\ g_lut x = Some 1000%nat /\ g_cdf x = Sigmoid /\ g_gamma x = None.

(** Gate voltages of the sampler's voltage range. *)
Definition in_range (v : point) : Prop := -0.2 <= fst v <= -0.06 /\ -0.2 <= snd v <= -0.06.
