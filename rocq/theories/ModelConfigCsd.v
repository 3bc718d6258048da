(** Model of sample_IdealCSDGeometric and _add_one_tct of
    simcats/config_samplers/_GaAs_v1_random_variations_v3_config_sampler.py (line numbers refer to this
    file). Rejection loops are bounded by [fuel] as in ModelConfig.v, and so is the number of TCTs. *)
From Verif Require Import RPrelude Arr ModelSupport ModelTct ModelCsd ModelSensor ModelSampling ModelSimulation ModelInstance
  ModelConfig.
Local Open Scope R_scope.

(** np.linalg.norm of a plane vector, and division and multiplication by a number *)
Definition norm (v : point) : R := sqrt (fst v ^ 2 + snd v ^ 2).
Definition scale (a : R) (v : point) : point := (a * fst v, a * snd v).
Definition normalise (v : point) : point := (fst v / norm v, snd v / norm v).
(** Line 133: the angle between two lead transitions with slopes s1 and s2 *)
Definition lead_angle (s1 s2 : R) : R := acos ((1 * 1 + s1 * s2) / (norm (1, s1) * norm (1, s2))).

(** _add_one_tct, lines 901-919: tct_params[-1] raises IndexError for the empty list *)
Definition shift_tct (d : point) (p : tct_params) : tct_params :=
  mk_tct (len_left p) (len_right p) (slope_left p) (slope_right p)
         (start_x p + fst d) (start_y p + snd d) (end_x p + fst d) (end_y p + snd d).
Definition add_one_tct (tcts : list tct_params) (d : point) : result (list tct_params) :=
  match rev tcts with [] => Err IndexError | p :: _ => Ok (tcts ++ [shift_tct d p]) end.

Section ConfigCsd.
Context {G : Type}.
Variable r : rng G.
Variable fuel : nat.
Variable label : arr2 nat -> arr2 nat.        (* dip.Label *)

(** Lines 130-149 *)
Fixpoint sample_slopes (n : nat) : action G (R * R) :=
  match n with
  | O => fail OutOfFuel
  | S k =>
      do s1 <- uniform r 0.21429 0.54688;
      do s2 <- uniform r (-0.44) (-0.07692);
      if Rleb 0.43760867228 (lead_angle s1 s2) && Rleb (lead_angle s1 s2) 1.6789624091 then ret (s1, s2)
      else sample_slopes k
  end.
(** Lines 157-166: the direction of the interdot vector *)
Fixpoint sample_interdot_direction (n : nat) (s1 : R) : action G point :=
  match n with
  | O => fail OutOfFuel
  | S k =>
      do a <- uniform r 0.58153916891 1.396938844;
      let v := rotate_point a (1, s1) in
      let v' := rotate_point (- (PI / 4)) v in
      if Rltb (fst v') 0 || Rltb (snd v') 0 then sample_interdot_direction k s1 else ret (normalise v)
  end.
(** Lines 168-172 *)
Fixpoint sample_interdot_length (n : nat) : action G R :=
  match n with
  | O => fail OutOfFuel
  | S k => do l <- uniform r 0.00261 0.00987;
           if Rltb l 0.00261 || Rltb 0.00987 l then sample_interdot_length k else ret l
  end.
(** Lines 175-183; [len] and [width] are the values before the test *)
Fixpoint fit_width (n : nat) (len width : R) : action G (R * R) :=
  if Rleb 0.8692269873603532 (len / width) && Rleb (len / width) 9.055385138137407 then ret (len, width)
  else match n with
       | O => fail OutOfFuel
       | S k => do len' <- uniform r 0.00261 0.00987; do width' <- uniform r 0.00043 0.00814; fit_width k len' width'
       end.
(** Lines 126-213: parameters of the first TCT and the shift to the next one *)
Definition sample_first_tct : action G (tct_params * point) :=
  do (s1, s2) <- sample_slopes fuel;
  do l0 <- uniform r 0.01 0.025;
  do l1 <- uniform r 0.01 0.025;
  do dir <- sample_interdot_direction fuel s1;
  do len0 <- sample_interdot_length fuel;
  do width0 <- uniform r 0.00043 0.00814;
  do (len, width) <- fit_width fuel len0 width0;
  let interdot := scale len dir in
  do bx <- uniform r (-0.14) (-0.14);
  do by_ <- uniform r (-0.14) (-0.14);
  let b := rotate_point (PI / 4) (bx, by_) in
  let d := scale width (normalise (1, (s1 + s2) / 2)) in
  ret (mk_tct l0 l1 s1 s2 (fst b) (snd b) (fst b + fst d) (snd b + snd d),
       (- l1 + fst interdot, snd interdot - l1 * s2)).

(** Attributes of the sampled object: those of the default configuration GaAs_v1 except for the TCTs *)
Definition sampled_csd (tcts : list tct_params) : geometric := mk_geometric tcts (- (PI / 4)) (Some 1000%nat) Sigmoid None.
(** Lines 220-227: the test measurement *)
Definition test_range : R * R := (-0.2, -0.06).
Definition test_measurement (tcts : list tct_params) : result (@measurement unit lead_mask response unit) :=
  fst (measure (plain_config label (Some test_range) (Some test_range) (sampled_csd tcts) default_sensor)
         [fst test_range; snd test_range] [fst test_range; snd test_range] None None (ResArray [10; 10]%Z) tt).
(** Lines 215-231 *)
Fixpoint add_tcts (n : nat) (tcts : list tct_params) (d : point) : result (list tct_params) :=
  match n with
  | O => Err OutOfFuel
  | S k =>
      match test_measurement tcts with
      | Ok _ => Ok tcts
      | Err IndexError => let? tcts' := add_one_tct tcts d in add_tcts k tcts' d
      | Err e => Err e
      end
  end.
(** sample_IdealCSDGeometric, lines 89-231 *)
Definition sample_ideal_csd : action G geometric :=
  do (p, d) <- sample_first_tct;
  do tcts <- lift (add_tcts fuel [p] d);
  ret (sampled_csd tcts).
End ConfigCsd.
