(** C130: the two gates and dots are treated alike. C131: interdot transitions connect the triple points. *)
From Verif Require Import RPrelude Arr ModelSupport ModelTct ModelCsd ModelInstance ModelDefault ModelSampling ModelConfigCsd SpecSupport SpecTct SpecCsd SpecOrder SpecInstance SpecQuant
  SpecSampling SpecConfigCsd SpecExchange ProofsExchange ProofsExchange2 ProofsTriple ProofsQuant ProofsLabel ExamplesCsd.
Local Open Scope R_scope.

(** The TCT of the exchanged parameters is the reflected TCT. *)
Theorem C130_tct p lut k x : admissible p -> peak p -> explicit lut -> (1 <= k)%nat ->
  exists y, tct_bezier_number p lut (Some k) x = Ok y /\ tct_bezier_number (exchanged_tct k p) lut (Some k) (- x) = Ok y.
Proof. apply exchange_tct. Qed.
Print Assumptions C130_tct.

(** TCTs with a common peak distance: wherever both scans see the same number of electrons, the occupations are exchanged. *)
Theorem C130_pixels_partial label params lut kind gf res res' d d' a1 b1 a2 b2 c1 e1 c2 e2 v o lab o' lab' :
  csd_config label params lut kind gf -> exchangeable params (gamma_of kind gf) ->
  ideal_csd_geometric label params [a1; b1] [a2; b2] res (- (PI / 4)) lut kind gf = Ok d ->
  ideal_csd_geometric label (exchanged_tcts params) [c1; e1] [c2; e2] res' (- (PI / 4)) lut kind gf = Ok d' ->
  scan_pixel d (a1, b1) (a2, b2) v o lab -> scan_pixel d' (c1, e1) (c2, e2) (exchange v) o' lab' ->
  fst o' + snd o' = fst o + snd o -> o' = exchange o.
Proof. apply exchange_pixels. Qed.
Print Assumptions C130_pixels_partial.

(** Without lookup table a line scan is the exchanged line scan. *)
Theorem C130_line_partial label params a1 b1 a2 b2 res n lut kind gf :
  csd_config label params lut kind gf -> exchangeable params (gamma_of kind gf) -> explicit lut -> res_list res = [Z.of_nat n] ->
  exists occ lead, ideal_csd_geometric label params [a1; b1] [a2; b2] res (- (PI / 4)) lut kind gf = Ok (Csd1 occ lead) /\
    ideal_csd_geometric label (exchanged_tcts params) [a2; b2] [a1; b1] res (- (PI / 4)) lut kind gf = Ok (Csd1 (map exchange occ) lead).
Proof. apply exchange_line_scan. Qed.
Print Assumptions C130_line_partial.

(** Sampled configurations have TCTs with a common peak distance. *)
Theorem C130_sampled_partial {G} (r : rng G) fuel label g x g1 res res' d d' a1 b1 a2 b2 c1 e1 c2 e2 v o lab o' lab' :
  uniform_ok r -> (forall m, is_labelling m (label m)) -> sample_ideal_csd r fuel label g = (Ok x, g1) ->
  ideal_csd_geometric label (g_tcts x) [a1; b1] [a2; b2] res (g_rotation x) (g_lut x) (g_cdf x) (g_gamma x) = Ok d ->
  ideal_csd_geometric label (exchanged_tcts (g_tcts x)) [c1; e1] [c2; e2] res' (g_rotation x) (g_lut x) (g_cdf x) (g_gamma x) = Ok d' ->
  scan_pixel d (a1, b1) (a2, b2) v o lab -> scan_pixel d' (c1, e1) (c2, e2) (exchange v) o' lab' ->
  fst o' + snd o' = fst o + snd o -> o' = exchange o.
Proof. apply sampled_exchange. Qed.
Print Assumptions C130_sampled_partial.

(** The default configurations: seven electrons are divided differently after the exchange. *)
Theorem C130_default_refuted label : (forall m, is_labelling m (label m)) ->
  exists v o o' lead lead',
    ideal_csd_geometric label default_tcts [fst v; fst v] [snd v; snd v] (ResInt 1) (- (PI / 4)) (Some 1000%nat) Sigmoid None = Ok (Csd1 [o] lead) /\
    ideal_csd_geometric label (exchanged_tcts default_tcts) [snd v; snd v] [fst v; fst v] (ResInt 1) (- (PI / 4)) (Some 1000%nat) Sigmoid None
      = Ok (Csd1 [o'] lead') /\
    fst o + snd o = 7 /\ fst o' + snd o' = 7 /\ snd o + 1/200 < fst o'.
Proof. apply default_exchange_differs. Qed.
Print Assumptions C130_default_refuted.

(** Two TCTs that are their own exchanged TCTs: the occupations at exchanged voltages are exchanged. *)
Example C130_example : exchanged_tcts (couple (1/4)) = couple (1/4) /\ exchangeable (couple (1/4)) (22/10) /\
  forall a1 b1 a2 b2, exists occ lead,
    ideal_csd_geometric component_label (couple (1/4)) [a1; b1] [a2; b2] (ResInt 9) (- (PI / 4)) None Sigmoid None = Ok (Csd1 occ lead) /\
    ideal_csd_geometric component_label (couple (1/4)) [a2; b2] [a1; b1] (ResInt 9) (- (PI / 4)) None Sigmoid None = Ok (Csd1 (map exchange occ) lead).
Proof.
  assert (E : exchanged_tcts (couple (1/4)) = couple (1/4)).
  { unfold exchanged_tcts, couple, exchanged_tct, first_tct, second_tct, period_vector.
    cbn [length seq combine map fst snd len_left len_right slope_left slope_right start_x start_y end_x end_y INR Nat.sub].
    repeat (f_equal; try lra). }
  assert (X : exchangeable (couple (1/4)) (22/10)).
  { intros [|[|n]] Hn; [lia| |simpl in Hn; lia]. split.
    - exists (first_tct (1/4)), second_tct. repeat split.
    - intros u l po (pu & cu & pl & Eu & Cu & -> & El & Cl) Ep. simpl in Eu, El, Ep. injection Eu as <-. injection El as <-. injection Ep as <-.
      destruct cu as [cx cy], l as [lx ly], Cu as [C1 C2], Cl as [C3 C4]. simpl in *.
      assert (cx = -4) by lra. assert (cy = 6) by lra. assert (lx = 0) by lra. assert (ly = 0) by lra. subst.
      unfold dist2, cross, vec, coupling_vector, first_tct. cbn [fst snd start_x start_y end_x end_y].
      rewrite (Rabs_pos_eq (22/10)) by lra.
      match goal with |- _ * sqrt ?s < _ => replace s with (2 * 2) by lra; rewrite (sqrt_square 2) by lra end.
      match goal with |- _ < Rabs ?y => replace y with 1 by lra; rewrite Rabs_R1; lra end. }
  split; [exact E|]. split; [exact X|]. intros.
  destruct (exchange_line_scan component_label (couple (1/4)) a1 b1 a2 b2 (ResInt 9) 9 None Sigmoid None) as (occ & lead & H1 & H2); auto.
  - apply couple_config; [lra|discriminate|]. simpl. lra.
  - left; reflexivity.
  - exists occ, lead. rewrite E in H2. split; assumption.
Qed.

(** Sigmoid distribution: halfway between k and k + 1 electrons all along the line between the triple points, up to the tails of the
    neighbouring transitions. *)
Theorem C131_sigmoid_partial label params rot lut gf res d a1 b1 a2 b2 v o lab n u l po k s :
  csd_config label params lut Sigmoid gf ->
  ideal_csd_geometric label params [a1; b1] [a2; b2] res rot lut Sigmoid gf = Ok d ->
  scan_pixel d (a1, b1) (a2, b2) v o lab -> fst o + snd o = INR n -> (1 <= n)%nat ->
  interdot_line params n u l -> nth_error params (n - 1) = Some po -> 0 < gamma_of Sigmoid gf ->
  1 / 100000000 * gamma_of Sigmoid gf * dist2 u l < Rabs (cross (vec u l) (coupling_vector po)) ->
  (k < n)%nat -> 0 < pitch u l po -> same_period params n \/ k = 0%nat ->
  between_triple_points params n k s (tct_view rot v) ->
  let e := exp (- (2 * gamma_of Sigmoid gf * pitch u l po)) in Rabs (fst o - (INR k + 1/2)) <= e / (1 - e).
Proof.
  intros C H Px Sum Hn I Ep G W Hk P Sp Tp.
  exact (triple_sigmoid label params rot lut Sigmoid gf res d a1 b1 a2 b2 v o lab n u l po C H Px Sum Hn I Ep G W k s Hk P Sp Tp eq_refl).
Qed.
Print Assumptions C131_sigmoid_partial.

Theorem C131_cauchy_partial label params rot lut gf res d a1 b1 a2 b2 v o lab n u l po k s :
  csd_config label params lut Cauchy gf ->
  ideal_csd_geometric label params [a1; b1] [a2; b2] res rot lut Cauchy gf = Ok d ->
  scan_pixel d (a1, b1) (a2, b2) v o lab -> fst o + snd o = INR n -> (1 <= n)%nat ->
  interdot_line params n u l -> nth_error params (n - 1) = Some po -> 0 < gamma_of Cauchy gf ->
  1 / 100000000 * gamma_of Cauchy gf * dist2 u l < Rabs (cross (vec u l) (coupling_vector po)) ->
  (k < n)%nat -> 0 < pitch u l po -> same_period params n \/ k = 0%nat ->
  between_triple_points params n k s (tct_view rot v) ->
  Rabs (fst o - (INR k + 1/2)) <= INR (n - 1) / (PI * gamma_of Cauchy gf * pitch u l po).
Proof.
  intros C H Px Sum Hn I Ep G W Hk P Sp Tp.
  exact (triple_cauchy label params rot lut Cauchy gf res d a1 b1 a2 b2 v o lab n u l po C H Px Sum Hn I Ep G W k s Hk P Sp Tp eq_refl).
Qed.
Print Assumptions C131_cauchy_partial.

Theorem C131_sampled_partial {G} (r : rng G) fuel label g x g1 res d a1 b1 a2 b2 v o lab n k s :
  uniform_ok r -> (forall m, is_labelling m (label m)) -> sample_ideal_csd r fuel label g = (Ok x, g1) ->
  ideal_csd_geometric label (g_tcts x) [a1; b1] [a2; b2] res (g_rotation x) (g_lut x) (g_cdf x) (g_gamma x) = Ok d ->
  scan_pixel d (a1, b1) (a2, b2) v o lab -> fst o + snd o = INR n -> (k < n)%nat ->
  between_triple_points (g_tcts x) n k s (tct_view (g_rotation x) v) -> Rabs (fst o - (INR k + 1/2)) <= 1/300.
Proof. apply sampled_triple. Qed.
Print Assumptions C131_sampled_partial.

(** The default configurations: on the line between the last triple points of seven electrons the transition is missed by far. *)
Theorem C131_default_refuted label : (forall m, is_labelling m (label m)) ->
  exists v o lead,
    ideal_csd_geometric label default_tcts [fst v; fst v] [snd v; snd v] (ResInt 1) (- (PI / 4)) (Some 1000%nat) Sigmoid None = Ok (Csd1 [o] lead) /\
    between_triple_points default_tcts 7 6 (9/10) (tct_view (- (PI / 4)) v) /\ fst o + snd o = 7 /\ fst o < 6 + 1/2 - 1/8.
Proof. apply default_triple_misses. Qed.
Print Assumptions C131_default_refuted.

(** The middle between the triple points of one electron. *)
Example C131_example : between_triple_points (couple (1/4)) 1 0 (1/2) (0, 1) /\ same_period (couple (1/4)) 1 /\ pitch (0, 2) (0, 0) (first_tct (1/4)) = 16.
Proof.
  split; [|split].
  - exists (first_tct (1/4)), second_tct, (0, 0), (0, 2). split; [reflexivity|]. split; [reflexivity|].
    split; [split; simpl; lra|]. split.
    + exists (0, 0), (-4, 6). split; [split; simpl; lra|]. split; [split; simpl; lra|]. simpl. f_equal; lra.
    + unfold peak_point, period_vector. simpl. f_equal; lra.
  - exists (first_tct (1/4)), second_tct. repeat split.
  - unfold pitch, period_vector, coupling_vector, cross, vec, first_tct. simpl.
    match goal with |- _ / ?y = _ => replace y with 1 by lra end. lra.
Qed.
