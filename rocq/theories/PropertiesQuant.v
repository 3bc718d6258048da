(** C128: charge is quantised between the interdot transitions. *)
From Verif Require Import RPrelude Arr ModelSupport ModelTct ModelCsd ModelDefault SpecSupport SpecCsd SpecQuant ProofsQuant ExamplesCsd.
Local Open Scope R_scope.

(** Sigmoid distribution: a bound that does not depend on the number of electrons. *)
Theorem C128_sigmoid label params rot lut gf res d a1 b1 a2 b2 v o lab n u l po m c :
  csd_config label params lut Sigmoid gf ->
  ideal_csd_geometric label params [a1; b1] [a2; b2] res rot lut Sigmoid gf = Ok d ->
  scan_pixel d (a1, b1) (a2, b2) v o lab -> fst o + snd o = INR n -> (1 <= n)%nat ->
  interdot_line params n u l -> nth_error params (n - 1) = Some po -> 0 < gamma_of Sigmoid gf ->
  1 / 100000000 * gamma_of Sigmoid gf * dist2 u l < Rabs (cross (vec u l) (coupling_vector po)) ->
  0 < pitch u l po -> between u l po n m c (tct_view rot v) ->
  let bound := exp (- (2 * gamma_of Sigmoid gf * c)) / (1 - exp (- (2 * gamma_of Sigmoid gf * pitch u l po))) in
  Rabs (fst o - INR m) <= bound /\ Rabs (snd o - INR (n - m)) <= bound.
Proof.
  intros C H P S N I E G W. exact (quantised_sigmoid label params rot lut Sigmoid gf res d a1 b1 a2 b2 v o lab n u l po C H P S N I E G W m c eq_refl).
Qed.
Print Assumptions C128_sigmoid.

(** Cauchy distribution: long tails, the bound grows with the number of electrons. *)
Theorem C128_cauchy label params rot lut gf res d a1 b1 a2 b2 v o lab n u l po m c :
  csd_config label params lut Cauchy gf ->
  ideal_csd_geometric label params [a1; b1] [a2; b2] res rot lut Cauchy gf = Ok d ->
  scan_pixel d (a1, b1) (a2, b2) v o lab -> fst o + snd o = INR n -> (1 <= n)%nat ->
  interdot_line params n u l -> nth_error params (n - 1) = Some po -> 0 < gamma_of Cauchy gf ->
  1 / 100000000 * gamma_of Cauchy gf * dist2 u l < Rabs (cross (vec u l) (coupling_vector po)) ->
  0 <= pitch u l po -> 0 < c -> between u l po n m c (tct_view rot v) ->
  let bound := INR n / (PI * gamma_of Cauchy gf * c) in
  Rabs (fst o - INR m) <= bound /\ Rabs (snd o - INR (n - m)) <= bound.
Proof.
  intros C H P S N I E G W. exact (quantised_cauchy label params rot lut Cauchy gf res d a1 b1 a2 b2 v o lab n u l po C H P S N I E G W m c eq_refl).
Qed.
Print Assumptions C128_cauchy.

(** The interdot transitions are equidistant. *)
Theorem C128_equidistant u l po k q : beyond u l po (S k) q = beyond u l po k q - pitch u l po.
Proof. rewrite <- (Nat.add_1_r k), beyond_linear. simpl. ring. Qed.
Print Assumptions C128_equidistant.

(** The default configurations: transitions are at least 4.6 widths apart; one width away from all of them the
    occupations are integers up to 1/72, halfway between two of them up to 1/15000. *)
Theorem C128_default label res d a1 b1 a2 b2 v o lab n u l po m :
  (forall x, is_labelling x (label x)) ->
  ideal_csd_geometric label default_tcts [a1; b1] [a2; b2] res (- (PI / 4)) (Some 1000%nat) Sigmoid None = Ok d ->
  scan_pixel d (a1, b1) (a2, b2) v o lab -> fst o + snd o = INR n -> (1 <= n)%nat ->
  interdot_line default_tcts n u l -> nth_error default_tcts (n - 1) = Some po ->
  46/10 <= pitch u l po /\
  (between u l po n m 1 (tct_view (- (PI / 4)) v) -> Rabs (fst o - INR m) <= 1/72 /\ Rabs (snd o - INR (n - m)) <= 1/72) /\
  (between u l po n m (pitch u l po / 2) (tct_view (- (PI / 4)) v) -> Rabs (fst o - INR m) <= 1/15000 /\ Rabs (snd o - INR (n - m)) <= 1/15000).
Proof.
  intros Lab H P S N I E. exact (default_between label res d a1 b1 a2 b2 v o lab n u l po m Lab H P S N I E).
Qed.
Print Assumptions C128_default.

(** The region of one electron: to the right of the reference line it is in dot 1, to the left in dot 2. *)
Example C128_example : interdot_line (couple (1/4)) 1 (0, 2) (0, 0) /\ exists po, nth_error (couple (1/4)) 0 = Some po /\
  pitch (0, 2) (0, 0) po = 16 /\ between (0, 2) (0, 0) po 1 1 (3/2) (3/4, 1) /\ between (0, 2) (0, 0) po 1 0 (3/2) (-3/4, 1).
Proof.
  split; [apply couple_line; lra|]. exists (first_tct (1/4)). split; [reflexivity|].
  unfold between, pitch, beyond, period_vector, coupling_vector, peak_point, cross, vec, first_tct.
  cbn [fst snd len_left len_right slope_left slope_right start_x start_y end_x end_y INR Nat.sub].
  replace ((0 - 0) * (- (1 / 4) - - (1 / 4)) - (0 - 2) * (1 / 4 - - (1 / 4))) with 1 by lra.
  repeat split; try lia; intros; try lia; lra.
Qed.
