(** Property theorems about total charge transitions and drawn pixels in double precision. *)
From Flocq Require Import Core.
From Verif Require Import RPrelude ModelFloat ModelFloatRange SpecFloatRange ModelTct ModelCsd ModelFloatDraw ProofsFloat ProofsFloatRange ProofsFloatDraw.
Local Open Scope R_scope.

(** C124: a transition point accepted as inside the image is drawn to the pixel nearest to it, up to rounding errors, if it is not
    at the very edge of the last pixel. No index is negative (it would address the opposite edge). *)
Theorem C124_pixel_partial lo hi n v : double lo -> double hi -> double v -> (2 <= n)%nat -> (Z.of_nat n <= 2 ^ 40)%Z ->
  pow2 (-900) <= hi - lo -> pow2 (-40) * magnitude lo hi <= (hi - lo) / INR (n - 1) ->
  float_inside lo hi (float_step lo hi n) v = true ->
  let id := float_pixel_id lo (float_step lo hi n) v in
  let pitch := (hi - lo) / INR (n - 1) in
  (0 <= id <= Z.of_nat n)%Z /\
  Rabs (v - exact_voltage lo hi n (Z.to_nat id)) <= pitch / 2 + pow2 (-47) * magnitude lo hi /\
  (v < hi + pitch / 2 - pow2 (-47) * magnitude lo hi -> (id < Z.of_nat n)%Z).
Proof. exact (drawn_pixel lo hi n v). Qed.
Print Assumptions C124_pixel_partial.

(** At the edge the index can be too large, so that drawing the transition raises: 101 pixels from -100/1024 V to 0 V. *)
Theorem C124_edge_refuted : exists lo hi n v, double lo /\ double hi /\ double v /\ (2 <= n)%nat /\ lo < hi /\
  float_inside lo hi (float_step lo hi n) v = true /\ np_index n (float_pixel_id lo (float_step lo hi n) v) = Err IndexError.
Proof.
  exists edge_lo, 0, 101%nat, edge_v. split; [exact edge_lo_double|]. split; [exact (double_int 0 ltac:(lia))|]. split; [exact edge_v_double|].
  split; [lia|]. split; [unfold edge_lo; lra|]. split; [exact edge_inside|]. rewrite edge_id. reflexivity.
Qed.
Print Assumptions C124_edge_refuted.

(** The integer division of numpy is exact, although it is computed from a rounded quotient, for dividends of both signs. *)
Theorem C124_floor_divide a b : double b -> 0 < b -> (Z.abs (Zfloor (a / b)) <= 2 ^ 49)%Z ->
  np_floor_divide a b = IZR (Zfloor (a / b)).
Proof. exact (floor_divide_all a b). Qed.
Print Assumptions C124_floor_divide.

(** The remainder is exact for dividends that are not negative, and rounded once for negative ones. *)
Theorem C124_mod a b : 0 < b -> (0 <= a -> np_mod a b = a - b * IZR (Zfloor (a / b))) /\ (a < 0 -> np_mod a b = fl (a - b * IZR (Zfloor (a / b)))).
Proof. exact (mod_all a b). Qed.
Print Assumptions C124_mod.

Example C124_example : np_floor_divide 7 2 = 3 /\ np_floor_divide (-7) 2 = -4.
Proof.
  assert (F1 : Zfloor (7 / 2) = 3%Z) by (apply Zfloor_imp; simpl; lra).
  assert (F2 : Zfloor (-7 / 2) = (-4)%Z) by (apply Zfloor_imp; simpl; lra).
  split; (rewrite C124_floor_divide; [rewrite ?F1, ?F2; reflexivity|exact (double_int 2 ltac:(lia))|lra|rewrite ?F1, ?F2; lia]).
Qed.
(** The hypotheses of C124_pixel_partial hold for the scan of C124_edge_refuted and its middle pixel. *)
Example C124_example_pixel : float_inside edge_lo 0 (float_step edge_lo 0 101) (- (50 / 1024)) = true /\
  pow2 (-40) * magnitude edge_lo 0 <= (0 - edge_lo) / INR (101 - 1).
Proof.
  rewrite edge_step. unfold float_inside. rewrite edge_half. split.
  - rewrite (fl_id (edge_lo - / 2048)) by (apply (double_eq _ (-201) (-11)); [unfold edge_lo; simpl; lra|lia|lia]).
    rewrite Rplus_0_l, (fl_id (/ 2048)) by (apply (double_eq _ 1 (-11)); [simpl; lra|lia|lia]).
    unfold edge_lo. rewrite !Rltb_true by lra. reflexivity.
  - unfold magnitude, edge_lo. rewrite Rabs_Ropp, Rabs_R0, Rabs_pos_eq by lra. rewrite Rmax_left by lra.
    change (101 - 1)%nat with 100%nat. rewrite INR_IZR_INZ. change (pow2 (-40)) with (/ 1099511627776). simpl. lra.
Qed.

(** C125: position within a period and number of the period belong together, if the point is not within
    2^-53 (relative) of the next period. *)
Theorem C125_period_partial p x : 0 <= x -> 0 < float_period p -> (Zfloor (x / float_period p) < 2 ^ 52)%Z ->
  let k := Zfloor (x / float_period p) in
  x < (IZR k + 1) * float_period p * (1 - pow2 (-53)) ->
  float_period_no p x = k /\ np_mod x (float_period p) = x - float_period p * IZR k /\ 0 <= np_mod x (float_period p) < float_period p.
Proof.
  intros X P K k N. destruct (mod_exact x (float_period p) X P) as [E B]. split; [|exact (conj E B)].
  destruct (period_no_bounds x (float_period p) X P K) as [H|[_ H]]; [exact H|fold k in H; lra].
Qed.
Print Assumptions C125_period_partial.

(** In any case the number of the period is the right one or one too large; the position is always exact. *)
Theorem C125_period_no p x : 0 <= x -> 0 < float_period p -> (Zfloor (x / float_period p) < 2 ^ 52)%Z ->
  let k := Zfloor (x / float_period p) in
  np_mod x (float_period p) = x - float_period p * IZR k /\ (float_period_no p x = k \/ float_period_no p x = (k + 1)%Z).
Proof.
  intros X P K k. destruct (mod_exact x (float_period p) X P) as [E B]. split; [exact E|].
  destruct (period_no_bounds x (float_period p) X P K) as [H|[H _]]; [left|right]; exact H.
Qed.
Print Assumptions C125_period_no.

(** Where it is too large, the transition is off by the difference between two periods. *)
Theorem C125_value_refuted : exists p mp x y y', double x /\ tct_bezier_number p None (Some mp) x = Ok y /\
  (forall bez, float_tct p bez mp x = Ok y') /\ 1/5 <= Rabs (y' - y) /\ len_left p + len_right p <= 2.
Proof.
  exists glitch_tct, 5%nat, glitch_x, (- (3/4) + pow2 (-52)), (- (1 - 3 * pow2 (-53))).
  split; [exact glitch_x_double|]. split; [exact glitch_exact|]. split; [exact glitch_value|].
  cbn [len_left len_right glitch_tct]. rewrite p52, u_value. split; [|lra]. rewrite <- Rabs_Ropp, Rabs_pos_eq; lra.
Qed.
Print Assumptions C125_value_refuted.

Example C125_example : np_mod 7 2 = 1.
Proof.
  destruct (mod_exact 7 2 ltac:(lra) ltac:(lra)) as [E _]. rewrite E. replace (Zfloor (7 / 2)) with 3%Z; [simpl; ring|].
  symmetry. apply Zfloor_imp. simpl. lra.
Qed.
