(** The complete shape of a TCT: one period, and the straight outer parts of a limited TCT. *)
From Verif Require Import RPrelude ModelTct SpecTct ProofsTct.
Local Open Scope R_scope.

Lemma tct_one_period p lut f : admissible p -> good_mode p lut -> is_tct p lut None f ->
  exists c, corner p c /\
  let straight := len_right p - 2 * (end_x p - fst c) in
  let next := start_x p + (len_left p + len_right p) in
  (explicit lut -> forall x, start_x p <= x <= end_x p -> exists t, 0 <= t <= 1 /\ curve_point p c t = (x, f x)) /\
  (forall x, end_x p <= x <= end_x p + straight -> f x = end_y p + slope_right p * (x - end_x p)) /\
  (forall x, start_x p <= x <= end_x p ->
     f (2 * end_x p + straight - x) = 2 * end_y p + slope_right p * straight - f x) /\
  (forall x, 2 * end_x p + straight - start_x p <= x <= next -> f x = f next - slope_left p * (next - x)).
Proof.
  intros (Hsl & HP & c & Hc & Hb & Hl & Hr) G H. exists c. split; [exact Hc|]. cbn zeta.
  assert (Hs := fun L => proj1 (bezier_ends p c lut G Hc Hb L)).
  assert (He := fun L => proj2 (bezier_ends p c lut G Hc Hb L)).
  destruct (lens p c Hb Hl Hr HP) as (L1 & L2 & L3 & L4 & L5).
  assert (F : forall x, start_x p <= x <= start_x p + (len_left p + len_right p) ->
            f x = seg p c (bezier_eval p c lut) (x - start_x p)).
  { intros x X. rewrite (is_tct_F p c lut None f) by (simpl; auto). unfold Ftct.
    rewrite (W_on_period p c _ Hc Hb Hl Hr HP Hs He 0) by (unfold period_length; lra).
    rewrite Rmult_0_l, Rmult_0_r, !Rminus_0_r. reflexivity. }
  unfold period_length, bezier_length in *.
  assert (RL : right_lin_length p c = len_right p - 2 * (end_x p - fst c)) by reflexivity.
  assert (LL : left_lin_length p c = len_left p - 2 * (fst c - start_x p)) by reflexivity.
  split; [|split; [|split]].
  - intros E x X. rewrite F by lra. destruct (Rlt_dec (start_x p) (end_x p)) as [Lt|Ge].
    + rewrite seg1; auto; try (unfold bezier_length; lra).
      replace (x - start_x p + start_x p) with x by ring.
      assert (Pk : peak p) by (apply G; exact E).
      destruct (explicit_curve p c x Hc Hb Pk Lt X) as (t & T & Ht). exists t. split; auto.
      destruct E; subst lut; exact Ht.
    + assert (x = start_x p) by lra. subst x. replace (start_x p - start_x p) with 0 by ring.
      rewrite seg_0; auto. exists 0. split; [lra|]. unfold curve_point. f_equal; ring.
  - intros x X. rewrite F by lra. rewrite seg2; auto; unfold bezier_length; lra.
  - intros x X. destruct (Rlt_dec (start_x p) (end_x p)) as [Lt|Ge].
    + rewrite !F by lra. rewrite seg3; auto; try (unfold bezier_length; lra).
      rewrite seg1; auto; try (unfold bezier_length; lra). rewrite yoi. unfold bezier_length. rewrite RL.
      match goal with |- -1 * bezier_eval p c lut ?a + _ = _ - bezier_eval p c lut ?b => replace a with b by ring end. ring.
    + rewrite !F by lra. rewrite !seg2; auto; unfold bezier_length; try lra.
  - intros x X. rewrite !F by lra. rewrite !seg4; auto; try (unfold bezier_length; lra).
Qed.

Lemma tct_outer p lut m f g : admissible p -> good_mode p lut -> (1 <= m)%nat ->
  is_tct p lut None f -> is_tct p lut (Some m) g ->
  let last := end_x p + (INR m - 1) * (len_left p + len_right p) in
  (forall x, start_x p <= x <= last -> g x = f x) /\
  (forall x, x <= start_x p -> g x = start_y p + slope_left p * (x - start_x p)) /\
  (forall x, last <= x ->
     g x = end_y p + (INR m - 1) * (len_left p * slope_left p + len_right p * slope_right p) + slope_right p * (x - last)).
Proof.
  intros (Hsl & HP & c & Hc & Hb & Hl & Hr) G Hm Hf Hg. cbn zeta.
  assert (Hm1 : 1 <= INR m) by (apply (le_INR 1); exact Hm).
  assert (Hw : start_x p <= wave_end p m).
  { unfold wave_end. assert (0 <= (INR m - 1) * (len_left p + len_right p)) by (apply Rmult_le_pos; lra). lra. }
  assert (Gx : forall x, g x = Ftct p c lut (Some m) x) by (apply is_tct_F; simpl; auto).
  split; [|split].
  - intros x X. rewrite Gx, F_wave by auto. rewrite (is_tct_F p c lut None f) by (simpl; auto). reflexivity.
  - intros x X. rewrite Gx. destruct (Req_dec x (wave_end p m)) as [E|N].
    + rewrite F_wave by (auto; lra).
      assert (Z : x - start_x p = 0) by lra. rewrite Z. rewrite W_start by auto. ring.
    + unfold Ftct, outer_value. rewrite Rleb_false by lra. rewrite Rleb_true by lra. ring.
  - intros x X. fold (wave_end p m) in *. rewrite Gx. unfold Ftct, outer_value. rewrite Rleb_true by exact X.
    rewrite <- (offset_period p c Hc). ring.
Qed.

Lemma example_shape : exists f g, is_tct example_tct None None f /\ is_tct example_tct None (Some 2%nat) g /\
  f 0 = 0 /\ f 2 = 0 /\ f 4 = -2 /\ g (-3) = -3 /\ g 12 = -2.
Proof.
  assert (G : good_mode example_tct None) by (split; [discriminate|intros _; unfold peak; simpl; lra]).
  destruct (tct_total example_tct None None example_admissible G I) as (f & Hf).
  destruct (tct_total example_tct None (Some 2%nat) example_admissible G) as (g & Hg); [simpl; lia|].
  exists f, g. split; auto. split; auto.
  destruct (tct_one_period _ _ _ example_admissible G Hf) as (c & Hc & _ & S2 & S3 & _).
  destruct (tct_outer _ _ 2 _ _ example_admissible G ltac:(lia) Hf Hg) as (O1 & O2 & O3).
  assert (Ec : c = (1, 1)). { destruct c as [x y]. unfold corner in Hc. simpl in Hc. f_equal; lra. }
  subst c. simpl in *.
  assert (F2 : f 2 = 0) by (rewrite S2; lra).
  assert (F4 : f 4 = -2) by (rewrite S2; lra).
  assert (F0 : f 0 = 0).
  { rewrite <- O1 by lra. rewrite O2; lra. }
  repeat split; auto.
  - rewrite O2; lra.
  - rewrite O3; lra.
Qed.
