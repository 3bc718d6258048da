(** C139: which dot gets the electron when a lead transition is crossed. *)
From Verif Require Import RPrelude Arr ModelSupport ModelTct ModelCsd ModelInstance ModelSampling ModelConfigCsd ModelDefault
  SpecSupport SpecTct SpecCsd SpecInstance SpecSampling SpecConfigCsd SpecQuant SpecExchange SpecEnter
  ProofsSupport ProofsLabel ProofsEnter ProofsEnter2 ExamplesCsd ExamplesEnter.
Local Open Scope R_scope.

(** The branches without the rounded parts belong to the TCT. *)
Theorem C139_on_tct params lut n k right t b p f :
  nth_error params (n - 1) = Some p -> admissible p -> good_mode p lut -> is_tct p lut (Some n) f ->
  on_branch params n k right t b -> straight_part params n k right b -> f (fst b) = snd b.
Proof. exact (branch_on_tct params lut n k right t b p f). Qed.
Print Assumptions C139_on_tct.

(** A pixel with n electrons near the branch right of the k-th peak (from 0) of TCT n has k + 1 electrons in dot 1,
    near the branch left of that peak k electrons, up to the tails of the interdot transitions. *)
Theorem C139_above label params rot lut kind gf res d a1 b1 a2 b2 v o lab n u l po k right t b delta c :
  csd_config label params lut kind gf ->
  ideal_csd_geometric label params [a1; b1] [a2; b2] res rot lut kind gf = Ok d -> scan_pixel d (a1, b1) (a2, b2) v o lab ->
  fst o + snd o = INR n -> (1 <= n)%nat -> interdot_line params n u l -> nth_error params (n - 1) = Some po -> 0 < gamma_of kind gf ->
  1 / 100000000 * gamma_of kind gf * dist2 u l < Rabs (cross (vec u l) (coupling_vector po)) ->
  0 < pitch u l po -> (forall s, 0 <= span u l po (branch_vector s po)) -> 0 < c ->
  on_branch params n k right t b -> dist2 (tct_view rot v) b <= delta ->
  let c' := c + delta * (dist2 u l / Rabs (cross (vec u l) (coupling_vector po))) in
  c' <= t * span u l po (branch_vector right po) -> (outer right n k \/ c' <= (1 - t) * span u l po (branch_vector right po)) ->
  Rabs (fst o - (INR k + (if right then 1 else 0))) <= tail_bound kind (gamma_of kind gf) n c (pitch u l po).
Proof. intros C H Px Sum Hn I Ep G W. exact (above_pixel label params rot lut kind gf res d a1 b1 a2 b2 v o lab n u l po C H Px Sum Hn I Ep G W k right t b delta c). Qed.
Print Assumptions C139_above.

(** A pixel with n electrons near either branch at the k-th peak of TCT n + 1 has k electrons in dot 1. *)
Theorem C139_below label params rot lut kind gf res d a1 b1 a2 b2 v o lab n u l po pu k right t b delta c :
  csd_config label params lut kind gf ->
  ideal_csd_geometric label params [a1; b1] [a2; b2] res rot lut kind gf = Ok d -> scan_pixel d (a1, b1) (a2, b2) v o lab ->
  fst o + snd o = INR n -> (1 <= n)%nat -> interdot_line params n u l -> nth_error params (n - 1) = Some po -> 0 < gamma_of kind gf ->
  1 / 100000000 * gamma_of kind gf * dist2 u l < Rabs (cross (vec u l) (coupling_vector po)) ->
  nth_error params n = Some pu -> period_vector po = period_vector pu ->
  0 < pitch u l po -> (forall s, 0 <= span u l po (branch_vector s pu)) -> 0 < c ->
  on_branch params (S n) k right t b -> dist2 (tct_view rot v) b <= delta ->
  let c' := c + delta * (dist2 u l / Rabs (cross (vec u l) (coupling_vector po))) in
  c' <= t * span u l po (branch_vector right pu) -> (outer right (S n) k \/ c' <= (1 - t) * span u l po (branch_vector right pu)) ->
  Rabs (fst o - INR k) <= tail_bound kind (gamma_of kind gf) n c (pitch u l po).
Proof. intros C H Px Sum Hn I Ep G W. exact (below_pixel label params rot lut kind gf res d a1 b1 a2 b2 v o lab n u l po C H Px Sum Hn I Ep G W pu k right t b delta c). Qed.
Print Assumptions C139_below.

(** Default configuration: the electron that enters across the middle third of a right branch goes into dot 1, across that of a left
    branch into dot 2, up to a third of an electron; at the middle of the branch up to a tenth. *)
Theorem C139_default label res res' d d' a1 b1 a2 b2 a1' b1' a2' b2' v v' o o' lab lab' n k right t b tau e :
  (forall x, is_labelling x (label x)) ->
  ideal_csd_geometric label default_tcts [a1; b1] [a2; b2] res (- (PI / 4)) (Some 1000%nat) Sigmoid None = Ok d -> scan_pixel d (a1, b1) (a2, b2) v o lab ->
  ideal_csd_geometric label default_tcts [a1'; b1'] [a2'; b2'] res' (- (PI / 4)) (Some 1000%nat) Sigmoid None = Ok d' -> scan_pixel d' (a1', b1') (a2', b2') v' o' lab' ->
  fst o + snd o = INR n -> fst o' + snd o' = INR n - 1 -> on_branch default_tcts n k right t b ->
  dist2 (tct_view (- (PI / 4)) v) b <= 5/100000 -> dist2 (tct_view (- (PI / 4)) v') b <= 5/100000 ->
  (tau = 1/3 /\ e = 1/3) \/ (tau = 1/2 /\ e = 1/10) -> tau <= t -> outer right n k \/ t <= 1 - tau ->
  let j := if right then 1 else 0 in
  Rabs (fst o - fst o' - j) <= e /\ Rabs (snd o - snd o' - (1 - j)) <= e.
Proof. exact (default_jump label res res' d d' a1 b1 a2 b2 a1' b1' a2' b2' v v' o o' lab lab' n k right t b tau e). Qed.
Print Assumptions C139_default.

(** Sampled configurations: at the middle of every branch the larger part of the electron goes into the dot that belongs to the branch. *)
Theorem C139_sampled {G} (r : rng G) fuel label g x g1 res res' d d' a1 b1 a2 b2 a1' b1' a2' b2' v v' o o' lab lab' n k right t b :
  uniform_ok r -> (forall m, is_labelling m (label m)) -> sample_ideal_csd r fuel label g = (Ok x, g1) ->
  ideal_csd_geometric label (g_tcts x) [a1; b1] [a2; b2] res (g_rotation x) (g_lut x) (g_cdf x) (g_gamma x) = Ok d -> scan_pixel d (a1, b1) (a2, b2) v o lab ->
  ideal_csd_geometric label (g_tcts x) [a1'; b1'] [a2'; b2'] res' (g_rotation x) (g_lut x) (g_cdf x) (g_gamma x) = Ok d' -> scan_pixel d' (a1', b1') (a2', b2') v' o' lab' ->
  fst o + snd o = INR n -> fst o' + snd o' = INR n - 1 -> (n < length (g_tcts x))%nat -> on_branch (g_tcts x) n k right t b ->
  dist2 (tct_view (g_rotation x) v) b <= 1/100000 -> dist2 (tct_view (g_rotation x) v') b <= 1/100000 ->
  1/2 <= t -> outer right n k \/ t = 1/2 ->
  let j := if right then 1 else 0 in
  Rabs (fst o - fst o' - j) <= 49/100 /\ Rabs (snd o - snd o' - (1 - j)) <= 49/100.
Proof. exact (sampled_jump r fuel label g x g1 res res' d d' a1 b1 a2 b2 a1' b1' a2' b2' v v' o o' lab lab' n k right t b). Qed.
Print Assumptions C139_sampled.

(** A scan of two pixels across the right branch of the first TCT: the electron goes into dot 1. *)
Example C139_example : exists o o' l l',
  ideal_csd_geometric component_label (couple (1/4)) [1; 1] [-3/2; -1/2] (ResInt 2) 0 None Sigmoid None = Ok (Csd1 [o'; o] [l'; l]) /\
  fst o' + snd o' = 0 /\ fst o + snd o = 1 /\ Rabs (fst o - 1) <= 1/50.
Proof.
  destruct couple_step as (o & o' & l & l' & E & S1 & S2). exists o, o', l, l'. split; [exact E|]. split; [exact S1|]. split; [exact S2|].
  destruct couple_branch as (Br & _ & Ou).
  assert (D0 : dist2 (0, 2) (0, 0) = 2).
  { unfold dist2. cbn [fst snd]. replace ((0 - 0) ^ 2 + (2 - 0) ^ 2) with (2 ^ 2) by ring. apply sqrt_pow2. lra. }
  assert (Cr : cross (vec (0, 2) (0, 0)) (coupling_vector (first_tct (1/4))) = 1).
  { unfold cross, vec, coupling_vector, first_tct. cbn [fst snd start_x start_y end_x end_y]. lra. }
  assert (Sp : forall s, span (0, 2) (0, 0) (first_tct (1/4)) (branch_vector s (first_tct (1/4))) = 8).
  { intros s. unfold span. rewrite Cr. unfold cross, vec, branch_vector, first_tct. destruct s; simpl; field. }
  assert (Pi : pitch (0, 2) (0, 0) (first_tct (1/4)) = 16).
  { unfold pitch. rewrite Cr. unfold cross, vec, period_vector, first_tct. simpl. field. }
  pose proof (C139_above component_label (couple (1/4)) 0 None Sigmoid None (ResInt 2) (Csd1 [o'; o] [l'; l]) 1 1 (-3/2) (-1/2) (1, -1/2) o l 1 (0, 2) (0, 0) (first_tct (1/4))
    0 true (1/4) (1, -1) (1/2) 1) as Q. cbv zeta in Q. rewrite D0, Cr, Sp, Pi, Rabs_R1 in Q. cbn [gamma_of] in Q.
  assert (Q' : Rabs (fst o - (INR 0 + 1)) <= tail_bound Sigmoid (22/10) 1 1 16).
  { apply Q; auto; try lra.
    - apply couple_config; [lra|discriminate|simpl; lra].
    - exists 1%nat. repeat split; auto. unfold pixel_voltage. simpl. f_equal; field.
    - apply couple_line.
    - intros s. rewrite Sp. lra.
    - unfold tct_view, rotate_point. rewrite Ropp_0, cos_0, sin_0. unfold dist2. cbn [fst snd].
      match goal with |- sqrt ?z <= _ => replace z with ((1/2) ^ 2) by field end. rewrite sqrt_pow2 by lra. lra. }
  simpl (INR 0) in Q'. rewrite Rplus_0_l in Q'. eapply Rle_trans; [exact Q'|]. cbn [tail_bound].
  assert (E1 : exp (- (2 * (22/10) * 1)) <= / (72)) by (apply (ProofsQuant.small_tail _ 88%nat); [rewrite INR_IZR_INZ; simpl IZR; lra|lra|lra]).
  assert (E2 : exp (- (2 * (22/10) * 16)) <= / (72)) by (apply (ProofsQuant.small_tail _ 88%nat); [rewrite INR_IZR_INZ; simpl IZR; lra|lra|lra]).
  set (x := exp (- (2 * (22/10) * 1))) in *. set (y := exp (- (2 * (22/10) * 16))) in *. clearbody x y.
  apply Rmult_le_reg_r with (1 - y); [lra|]. unfold Rdiv at 1. rewrite Rmult_assoc, Rinv_l by lra. lra.
Qed.
