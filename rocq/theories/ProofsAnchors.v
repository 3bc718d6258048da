(** The dictionary of bezier anchors. *)
From Verif Require Import RPrelude ModelSupport ModelTct SpecTct ProofsTct ProofsTctShape.
Local Open Scope R_scope.

Lemma indexed_nth (l : list tct_params) : forall s i p, nth_error l i = Some p -> nth_error (combine (seq s (length l)) l) i = Some ((s + i)%nat, p).
Proof.
  induction l as [|q l IH]; intros s [|i] p H; try discriminate; simpl in *.
  - injection H as ->. now rewrite Nat.add_0_r.
  - rewrite (IH (S s) i p H). do 2 f_equal. lia.
Qed.

Lemma indexed_keys (l : list tct_params) (F : nat -> tct_params -> list anchors) m : forall s,
  map fst (map (fun ip => ((fst ip + m)%nat, F (fst ip) (snd ip))) (combine (seq s (length l)) l)) = seq (s + m) (length l).
Proof. induction l as [|q l IH]; intros s; simpl; [reflexivity|]. f_equal. apply (IH (S s)). Qed.

Lemma dictionary_keys tcts m rot : map fst (calculate_all_bezier_anchors tcts m rot) = seq m (length tcts).
Proof. exact (indexed_keys tcts (fun i p => map (rotate_anchors rot) (tct_anchors p (m + i))) m 0). Qed.

Lemma dictionary_anchors tcts m rot i p :
  nth_error tcts i = Some p -> admissible p ->
  exists l, nth_error (calculate_all_bezier_anchors tcts m rot) i = Some ((m + i)%nat, l) /\
  length l = (2 * (m + i) - 1)%nat /\
  forall j a, nth_error l j = Some a ->
  exists x1 y1 xc yc x2 y2,
    a = ((cos rot * x1 - sin rot * y1, sin rot * x1 + cos rot * y1),
         (cos rot * xc - sin rot * yc, sin rot * xc + cos rot * yc),
         (cos rot * x2 - sin rot * y2, sin rot * x2 + cos rot * y2)) /\
    (forall lut f, good_mode p lut -> is_tct p lut (Some (m + i)%nat) f -> f x1 = y1 /\ f x2 = y2) /\
    x1 <= xc <= x2 /\
    yc - y1 = (if Nat.even j then slope_left p else slope_right p) * (xc - x1) /\
    y2 - yc = (if Nat.even j then slope_right p else slope_left p) * (x2 - xc) /\
    nth_error (tct_anchors p (m + i)) j = Some ((x1, y1), (xc, yc), (x2, y2)).
Proof.
  intros H A. exists (map (rotate_anchors rot) (tct_anchors p (m + i))). split; [|split].
  - unfold calculate_all_bezier_anchors. rewrite (map_nth_error _ i _ (indexed_nth tcts 0 i p H)). cbn [fst snd].
    now rewrite Nat.add_0_l, (Nat.add_comm i m).
  - rewrite map_length, tct_anchors_length. lia.
  - intros j a N. rewrite nth_error_map in N. destruct (nth_error (tct_anchors p (m + i)) j) as [[[[x1 y1] [xc yc]] [x2 y2]]|] eqn:E; [|discriminate].
    injection N as <-. exists x1, y1, xc, yc, x2, y2. split; [reflexivity|].
    destruct (anchors_lines p (m + i) A j _ E) as (L1 & L2 & L3 & _). cbn in L1, L2, L3. repeat split; try assumption; try apply L3.
    + exact (proj1 (proj2 (anchors_on_tct p lut (Some (m + i)%nat) (m + i) f A H0 (or_intror eq_refl) H1) j _ E)).
    + exact (proj2 (proj2 (anchors_on_tct p lut (Some (m + i)%nat) (m + i) f A H0 (or_intror eq_refl) H1) j _ E)).
Qed.

Lemma tct_rounded p lut mp f x : admissible p -> good_mode p lut -> some_peaks mp -> is_tct p lut mp f ->
  start_x p < end_x p -> start_x p <= x <= end_x p ->
  exists c, corner p c /\ start_x p <= fst c <= end_x p /\ f x = bezier_eval p c lut x.
Proof.
  intros A G M T L X. open_admissible A. exists c. split; [assumption|]. split; [assumption|].
  rewrite (is_tct_F p c lut mp f Hsl Hc Hb Hl Hr HP G M T x).
  assert (Hs : 0 < bezier_length p -> bezier_eval p c lut (start_x p) = start_y p) by (intros H; apply (bezier_ends p c lut G Hc Hb H)).
  assert (He : 0 < bezier_length p -> bezier_eval p c lut (end_x p) = end_y p) by (intros H; apply (bezier_ends p c lut G Hc Hb H)).
  assert (E : W p c (bezier_eval p c lut) (x - start_x p) = bezier_eval p c lut x).
  { destruct (lens p c Hb Hl Hr HP) as (L1 & L2 & L3 & L4 & L5). unfold bezier_length in L1, L5.
    rewrite (W_on_period p c _ Hc Hb Hl Hr HP Hs He 0) by lra.
    rewrite Rmult_0_l, Rminus_0_r, (seg1 p c _ Hb Hl Hr HP He) by (unfold bezier_length; lra).
    replace (x - start_x p + start_x p) with x by ring. ring. }
  destruct mp as [m|]; [|exact E].
  rewrite (F_wave p c lut Hc Hb Hl Hr HP G m x M); [exact E|].
  unfold wave_end. assert (1 <= INR m) by (change 1 with (INR 1); apply le_INR; exact M).
  assert (0 <= (INR m - 1) * (len_left p + len_right p)) by (apply Rmult_le_pos; lra). lra.
Qed.

Lemma tct_nearest p n mp f x : admissible p -> (2 <= n)%nat -> some_peaks mp -> is_tct p (Some n) mp f ->
  start_x p < end_x p -> start_x p <= x <= end_x p ->
  exists c, corner p c /\ start_x p <= fst c <= end_x p /\
  let entry i := curve_point p c (INR i / INR (n - 1)) in
  exists i, (i < n)%nat /\ f x = snd (entry i) /\
    (forall j, (j < n)%nat -> Rabs (fst (entry i) - x) <= Rabs (fst (entry j) - x)) /\
    exists j, (S j < n)%nat /\ fst (entry j) <= x <= fst (entry (S j)) /\
              Rabs (fst (entry i) - x) <= (fst (entry (S j)) - fst (entry j)) / 2.
Proof.
  intros A N M T L X.
  assert (G : good_mode p (Some n)).
  { split; [intros E; inversion E; lia|]. intros [E|E]; [discriminate|inversion E; lia]. }
  destruct (tct_rounded p (Some n) mp f x A G M T L X) as (c & C & B & E). exists c. split; [assumption|]. split; [assumption|].
  rewrite E. destruct n as [|n]; [lia|]. exact (lut_nearest p c (S n) x C B N X).
Qed.

Lemma tct_explicit p mp f x : admissible p -> peak p -> some_peaks mp -> is_tct p None mp f ->
  start_x p < end_x p -> start_x p <= x <= end_x p ->
  exists c t, corner p c /\ start_x p <= fst c <= end_x p /\ 0 <= t <= 1 /\ curve_point p c t = (x, f x).
Proof.
  intros A K M T L X. assert (G : good_mode p None) by (split; [discriminate|auto]).
  destruct (tct_rounded p None mp f x A G M T L X) as (c & C & B & E).
  destruct (explicit_curve p c x C B K L X) as (t & T1 & T2). exists c, t. rewrite E. auto.
Qed.
