(** Stretching and shifting a configuration together with the voltages: TCTs. *)
From Verif Require Import RPrelude Arr ModelSupport ModelTct ModelCsd ModelInstance SpecCsd SpecSimilar ProofsTct.
Local Open Scope R_scope.

Section Similar.
Variables (k : R) (d : point).
Hypothesis Hk : 0 < k.
Notation sx := (stretch k (fst d)).
Notation sy := (stretch k (snd d)).

Lemma stretch_lt e a b : Rltb (stretch k e a) (stretch k e b) = Rltb a b.
Proof.
  unfold stretch. destruct (Rltb_spec a b) as [L|L].
  - apply Rltb_true. apply Rplus_lt_compat_r. apply Rmult_lt_compat_l; auto.
  - apply Rltb_false. apply Rplus_le_compat_r. apply Rmult_le_compat_l; lra.
Qed.
Lemma stretch_le e a b : Rleb (stretch k e a) (stretch k e b) = Rleb a b.
Proof.
  unfold stretch. destruct (Rleb_spec a b) as [L|L].
  - apply Rleb_true. apply Rplus_le_compat_r. apply Rmult_le_compat_l; lra.
  - apply Rleb_false. apply Rplus_lt_compat_r. apply Rmult_lt_compat_l; lra.
Qed.
Lemma stretch_eq e a b : Reqb (stretch k e a) (stretch k e b) = Reqb a b.
Proof.
  unfold stretch. destruct (Reqb_spec a b) as [->|L]; [apply Reqb_true; reflexivity|]. apply Reqb_false. intros E. apply L.
  apply (Rmult_eq_reg_l k); lra.
Qed.
Lemma scale_lt a b : Rltb (k * a) (k * b) = Rltb a b.
Proof. rewrite <- (stretch_lt 0 a b). unfold stretch. f_equal; ring. Qed.
Lemma scale_le a b : Rleb (k * a) (k * b) = Rleb a b.
Proof. rewrite <- (stretch_le 0 a b). unfold stretch. f_equal; ring. Qed.
Lemma scale_eq a b : Reqb (k * a) (k * b) = Reqb a b.
Proof. rewrite <- (stretch_eq 0 a b). unfold stretch. f_equal; ring. Qed.
Lemma stretch_diff e a b : stretch k e a - stretch k e b = k * (a - b).
Proof. unfold stretch. ring. Qed.
Lemma stretch_add e a b : stretch k e a + k * b = stretch k e (a + b).
Proof. unfold stretch. ring. Qed.
Lemma stretch_max e a b : Rmax (stretch k e a) (stretch k e b) = stretch k e (Rmax a b).
Proof.
  destruct (Rle_lt_dec a b) as [L|L].
  - rewrite !Rmax_right; auto. unfold stretch. apply Rplus_le_compat_r. apply Rmult_le_compat_l; lra.
  - rewrite !Rmax_left; auto; try lra. unfold stretch. apply Rplus_le_compat_r. apply Rmult_le_compat_l; lra.
Qed.
Lemma stretch_min e a b : Rmin (stretch k e a) (stretch k e b) = stretch k e (Rmin a b).
Proof.
  destruct (Rle_lt_dec a b) as [L|L].
  - rewrite !Rmin_left; auto. unfold stretch. apply Rplus_le_compat_r. apply Rmult_le_compat_l; lra.
  - rewrite !Rmin_right; auto; try lra. unfold stretch. apply Rplus_le_compat_r. apply Rmult_le_compat_l; lra.
Qed.
Lemma scale_div a b : k * a / (k * b) = a / b.
Proof. unfold Rdiv. rewrite Rinv_mult. replace (k * a * (/ k * / b)) with (k * / k * (a * / b)) by ring. rewrite Rinv_r by lra. ring. Qed.

Notation st := (stretch_tct k d).
Notation sp := (stretch_point k d).

Lemma center_stretch p : bezier_center (st p) = let? c := bezier_center p in Ok (sp c).
Proof.
  unfold bezier_center, stretch_tct. cbn [len_left len_right slope_left slope_right start_x start_y end_x end_y]. rewrite !stretch_eq.
  destruct (Reqb (start_x p) (end_x p) && Reqb (start_y p) (end_y p)); [reflexivity|].
  destruct (Reqb_spec (slope_right p) (slope_left p)) as [E|E]; [reflexivity|]. cbn [bind]. f_equal. unfold stretch_point. cbn [fst snd].
  unfold stretch. assert (E' : slope_right p - slope_left p <> 0) by lra. f_equal; field; auto.
Qed.

Lemma bezier_at_stretch e a b c t : bezier_at (stretch k e a) (stretch k e b) (stretch k e c) t = stretch k e (bezier_at a b c t).
Proof. unfold bezier_at, stretch. ring. Qed.

Lemma argmin_scale l : argmin (map (Rmult k) l) = argmin l.
Proof.
  destruct l as [|x t]; [reflexivity|]. cbn [map argmin].
  assert (H : forall l i b m, argmin_from (map (Rmult k) l) i b (k * m) = argmin_from l i b m).
  { intros l. induction l as [|y l IH]; intros i b m; [reflexivity|]. cbn [map argmin_from]. rewrite scale_lt. destruct (Rltb y m); apply IH. }
  apply H.
Qed.

Lemma lut_stretch p c n x : (0 < n)%nat -> lut_eval (st p) (sp c) n (sx x) = sy (lut_eval p c n x).
Proof.
  intros Hn. unfold lut_eval.
  assert (E : lut_points (st p) (sp c) n = map sp (lut_points p c n)).
  { unfold lut_points. rewrite map_map. apply map_ext. intros t. unfold stretch_point, stretch_tct. cbn [fst snd start_x start_y end_x end_y].
    rewrite !bezier_at_stretch. reflexivity. }
  rewrite E. rewrite map_map.
  assert (A : map (fun q => Rabs (fst (sp q) - sx x)) (lut_points p c n) = map (Rmult k) (map (fun q => Rabs (fst q - x)) (lut_points p c n))).
  { rewrite map_map. apply map_ext. intros q. cbn [stretch_point fst]. rewrite stretch_diff, Rabs_mult. rewrite (Rabs_right k) by lra. reflexivity. }
  rewrite A, argmin_scale.
  set (L := lut_points p c n). set (i := argmin (map (fun q => Rabs (fst q - x)) L)).
  assert (B : (i < length L)%nat).
  { assert (N : L <> []).
    { intros N. assert (Z : length L = n) by (unfold L, lut_points; rewrite map_length, length_linspace; reflexivity). rewrite N in Z. cbn in Z. lia. }
    destruct (argmin_spec (map (fun q => Rabs (fst q - x)) L)) as (H & _).
    - intros M. apply N. destruct L; [reflexivity|discriminate].
    - rewrite map_length in H. exact H. }
  rewrite (nth_indep (map sp L) (0, 0) (sp (0, 0))) by (rewrite map_length; exact B). rewrite map_nth. reflexivity.
Qed.

Lemma solve_stretch p c x : bezier_solve (st p) (sp c) (sx x) = sy (bezier_solve p c x).
Proof.
  unfold bezier_solve, stretch_tct, stretch_point. cbn [fst snd len_left len_right slope_left slope_right start_x start_y end_x end_y].
  replace (sx (start_x p) - 2 * sx (fst c) + sx (end_x p)) with (k * (start_x p - 2 * fst c + end_x p)) by (unfold stretch; ring).
  replace (2 * (sx (fst c) - sx (start_x p))) with (k * (2 * (fst c - start_x p))) by (unfold stretch; ring).
  replace (Reqb (k * (start_x p - 2 * fst c + end_x p)) 0) with (Reqb (start_x p - 2 * fst c + end_x p) 0).
  2: { rewrite <- (scale_eq (start_x p - 2 * fst c + end_x p) 0). f_equal. ring. }
  rewrite !stretch_diff. set (a := start_x p - 2 * fst c + end_x p). set (b := 2 * (fst c - start_x p)).
  destruct (Reqb_spec a 0) as [E|E].
  - rewrite scale_div. apply bezier_at_stretch.
  - replace ((k * b) ^ 2 - 4 * (k * a) * (k * (start_x p - x))) with (k² * (b ^ 2 - 4 * a * (start_x p - x))) by (unfold Rsqr; ring).
    rewrite sqrt_mult_alt by apply Rle_0_sqr. rewrite sqrt_Rsqr by lra.
    set (s := sqrt _). replace (2 * (k * a)) with (k * (2 * a)) by ring.
    replace (- (k * b) - k * s) with (k * (- b - s)) by ring. replace (- (k * b) + k * s) with (k * (- b + s)) by ring.
    rewrite !scale_div, !bezier_at_stretch. apply stretch_max.
Qed.

Lemma eval_stretch p c lut x : bezier_eval (st p) (sp c) lut (sx x) = sy (bezier_eval p c lut x).
Proof. destruct lut as [[|n]|]; cbn [bezier_eval]; [apply solve_stretch|apply lut_stretch; lia|apply solve_stretch]. Qed.

Lemma wave_stretch p c bez bez' x : (forall x, bez' (sx x) = sy (bez x)) ->
  wave_value (st p) (sp c) bez' (k * x) = let? y := wave_value p c bez x in Ok (sy y).
Proof.
  intros HB. unfold wave_value.
  assert (P : period_length (st p) = k * period_length p) by (unfold period_length, stretch_tct; cbn; ring).
  assert (B : bezier_length (st p) = k * bezier_length p) by (unfold bezier_length, stretch_tct; cbn; apply stretch_diff).
  assert (Rl : right_lin_length (st p) (sp c) = k * right_lin_length p c).
  { unfold right_lin_length, stretch_tct, stretch_point; cbn. rewrite stretch_diff. ring. }
  assert (Ll : left_lin_length (st p) (sp c) = k * left_lin_length p c).
  { unfold left_lin_length, stretch_tct, stretch_point; cbn. rewrite stretch_diff. ring. }
  assert (Oi : y_offset_inv (st p) (sp c) = stretch k (2 * snd d) (y_offset_inv p c)).
  { unfold y_offset_inv. rewrite Rl. unfold stretch_tct, stretch; cbn. ring. }
  assert (Op : y_offset_period (st p) (sp c) = k * y_offset_period p c).
  { unfold y_offset_period. rewrite Oi, Ll. unfold stretch_tct, stretch; cbn. ring. }
  rewrite P, B, Rl, Oi, Op.
  replace (Reqb (k * period_length p) 0) with (Reqb (period_length p) 0) by (rewrite <- (scale_eq (period_length p) 0); f_equal; ring).
  replace (Reqb (k * x) 0) with (Reqb x 0) by (rewrite <- (scale_eq x 0); f_equal; ring).
  destruct (Reqb (period_length p) 0); [reflexivity|]. rewrite scale_div. cbn [bind]. f_equal.
  set (z := IZR (Int_part (x / period_length p))). replace (k * x - k * period_length p * z) with (k * (x - period_length p * z)) by ring.
  set (xm := x - period_length p * z). set (bl := bezier_length p). set (rl := right_lin_length p c).
  replace (k * bl + k * rl) with (k * (bl + rl)) by ring. replace (k * bl * 2 + k * rl) with (k * (bl * 2 + rl)) by ring. rewrite !scale_lt.
  unfold stretch_tct. cbn [slope_left slope_right start_x start_y end_x end_y].
  destruct (Rltb xm bl).
  { replace (k * xm + sx (start_x p)) with (sx (xm + start_x p)) by (unfold stretch; ring). rewrite HB. unfold stretch. ring. }
  destruct (Rltb xm (bl + rl)). { unfold stretch. ring. }
  destruct (Rltb xm (bl * 2 + rl)).
  { replace (2 * (k * bl) + k * rl - k * xm + sx (start_x p)) with (sx (2 * bl + rl - xm + start_x p)) by (unfold stretch; ring). rewrite HB. unfold stretch. ring. }
  unfold stretch. ring.
Qed.

Lemma end_stretch p mp : wave_end (st p) mp = sx (wave_end p mp).
Proof. unfold wave_end, stretch_tct, stretch. cbn. ring. Qed.
Lemma in_wave_stretch p mp x : in_wave (st p) mp (sx x) = in_wave p mp x.
Proof. unfold in_wave. rewrite end_stretch. cbn [stretch_tct start_x]. rewrite !stretch_le. reflexivity. Qed.

Lemma outer_stretch p c mp x y y' : y' = sy y \/ in_wave p mp x = false -> outer_value (st p) (sp c) mp (sx x, y') = sy (outer_value p c mp (x, y)).
Proof.
  intros Y. unfold outer_value.
  assert (Op : y_offset_period (st p) (sp c) = k * y_offset_period p c).
  { unfold y_offset_period, y_offset_inv, right_lin_length, left_lin_length, stretch_tct, stretch_point, stretch; cbn. ring. }
  rewrite end_stretch. rewrite Op. cbn [stretch_tct start_x start_y end_y slope_left slope_right]. rewrite !stretch_le.
  destruct (Rleb_spec (wave_end p mp) x) as [E|E]; [unfold stretch; ring|].
  destruct (Rleb_spec x (start_x p)) as [B|B]; [unfold stretch; ring|].
  destruct Y as [->|N]; [reflexivity|]. exfalso. unfold in_wave in N. rewrite !Rleb_true in N by lra. discriminate.
Qed.

Lemma mapM_map {A B C} (f : B -> result C) (g : A -> B) l : mapM f (map g l) = mapM (fun a => f (g a)) l.
Proof. induction l as [|a t IH]; cbn; [reflexivity|]. rewrite IH. reflexivity. Qed.
Lemma mapM_ok {A B} (f : A -> result B) l : forall ys, mapM f l = Ok ys -> Forall2 (fun a y => f a = Ok y) l ys.
Proof.
  induction l as [|a t IH]; intros ys E; cbn in E.
  - injection E as <-. constructor.
  - destruct (f a) as [y|] eqn:F; [|discriminate]. destruct (mapM f t) as [z|]; [|discriminate]. injection E as <-. constructor; auto.
Qed.
Lemma mapM_err {A B} (f f' : A -> result B) (R : A -> B -> B -> Prop) l :
  (forall a, In a l -> match f a, f' a with Ok y, Ok y' => R a y y' | Err e, Err e' => e = e' | _, _ => False end) ->
  match mapM f l, mapM f' l with
  | Ok ys, Ok ys' => Forall2 (fun a yy => R a (fst yy) (snd yy)) l (combine ys ys') /\ length ys = length ys' /\ length ys = length l
  | Err e, Err e' => e = e'
  | _, _ => False
  end.
Proof.
  induction l as [|a t IH]; intros H; cbn.
  - split; [constructor|auto].
  - specialize (IH (fun b Hb => H b (or_intror Hb))). specialize (H a (or_introl eq_refl)).
    destruct (f a) as [y|], (f' a) as [y'|]; cbn [bind]; try tauto.
    destruct (mapM f t) as [ys|], (mapM f' t) as [ys'|]; cbn [bind]; try tauto. destruct IH as (F & L & L'). cbn. split; [constructor; auto|]. split; congruence.
Qed.

(** A TCT evaluated at stretched points. *)
Theorem tct_stretch p lut mp xs : tct_bezier (st p) lut (Some mp) (map sx xs) = let? ys := tct_bezier p lut (Some mp) xs in Ok (map sy ys).
Proof.
  unfold tct_bezier. rewrite center_stretch. destruct (bezier_center p) as [c|e]; [|reflexivity]. cbn [bind].
  replace (Rleb (start_x (st p)) (fst (sp c)) && Rleb (fst (sp c)) (end_x (st p)))%bool with (Rleb (start_x p) (fst c) && Rleb (fst c) (end_x p))%bool
    by (cbn [stretch_tct stretch_point start_x end_x fst]; rewrite !stretch_le; reflexivity).
  replace (Rleb (2 * (fst (sp c) - start_x (st p))) (len_left (st p)) && Rleb (2 * (end_x (st p) - fst (sp c))) (len_right (st p)))%bool
    with (Rleb (2 * (fst c - start_x p)) (len_left p) && Rleb (2 * (end_x p - fst c)) (len_right p))%bool.
  2: { cbn [stretch_tct stretch_point start_x end_x len_left len_right fst]. rewrite !stretch_diff.
       replace (2 * (k * (fst c - start_x p))) with (k * (2 * (fst c - start_x p))) by ring.
       replace (2 * (k * (end_x p - fst c))) with (k * (2 * (end_x p - fst c))) by ring. rewrite !scale_le. reflexivity. }
  destruct (Rleb (start_x p) (fst c) && Rleb (fst c) (end_x p))%bool; [|reflexivity].
  destruct (Rleb (2 * (fst c - start_x p)) (len_left p) && Rleb (2 * (end_x p - fst c)) (len_right p))%bool; [|reflexivity].
  cbn [negb raise_if]. rewrite mapM_map.
  assert (W : forall x, wave_value (st p) (sp c) (bezier_eval (st p) (sp c) lut) (sx x - start_x (st p)) =
    let? y := wave_value p c (bezier_eval p c lut) (x - start_x p) in Ok (sy y)).
  { intros x. cbn [stretch_tct start_x]. rewrite stretch_diff. apply wave_stretch. intros z. apply eval_stretch. }
  assert (F : forallb (in_wave (st p) mp) (map sx xs) = forallb (in_wave p mp) xs).
  { clear W. induction xs as [|x t IH]; [reflexivity|]. cbn [map forallb]. rewrite in_wave_stretch, IH. reflexivity. }
  rewrite F. 
  pose proof (mapM_err (fun x => if in_wave p mp x then wave_value p c (bezier_eval p c lut) (x - start_x p) else Ok 0)
    (fun x => if in_wave (st p) mp (sx x) then wave_value (st p) (sp c) (bezier_eval (st p) (sp c) lut) (sx x - start_x (st p)) else Ok 0)
    (fun x y y' => y' = sy y /\ in_wave p mp x = true \/ in_wave p mp x = false) xs) as M.
  match type of M with ?P -> _ => assert (Q : P) end.
  { intros x _. rewrite in_wave_stretch, W. destruct (in_wave p mp x) eqn:I; [|right; reflexivity].
    destruct (wave_value p c (bezier_eval p c lut) (x - start_x p)); cbn [bind]; auto. }
  specialize (M Q). clear Q. revert M.
  destruct (mapM (fun x => if in_wave p mp x then _ else _) xs) as [ys|e]; destruct (mapM _ xs) as [ys'|e']; cbn [bind]; try tauto; [|intros ->; reflexivity].
  intros (F2 & L1 & L2). destruct (forallb (in_wave p mp) xs) eqn:All.
  - cbn [bind]. f_equal. rewrite forallb_forall in All. clear F W. revert ys ys' F2 L1 L2. induction xs as [|x t IH]; intros [|y ys] [|y' ys'] F2 L1 L2; try discriminate; [reflexivity|].
    cbn [combine] in F2. inversion F2 as [|? ? ? ? H F3]; subst. cbn [map]. f_equal.
    + cbn [fst snd] in H. destruct H as [[H _]|H]; [exact H|]. rewrite (All x (or_introl eq_refl)) in H. discriminate.
    + apply IH; auto. intros z Hz. apply All. right; auto.
  - cbn [bind]. f_equal. clear F W All. revert ys ys' F2 L1 L2. induction xs as [|x t IH]; intros [|y ys] [|y' ys'] F2 L1 L2; try discriminate; [reflexivity|].
    cbn [combine] in F2. inversion F2 as [|? ? ? ? H F3]; subst. cbn [map combine]. f_equal.
    + apply outer_stretch. cbn [fst snd] in H. destruct H as [[H _]|H]; auto.
    + apply IH; auto.
Qed.

(** ** Anchors *)
Definition stretch_anchors (a : anchors) : anchors := let '(l, c, r) := a in (sp l, sp c, sp r).
Lemma first_stretch p : slope_left p <> slope_right p -> first_anchors (st p) = stretch_anchors (first_anchors p).
Proof.
  intros Sl. unfold first_anchors, stretch_anchors, stretch_point, stretch_tct, stretch. cbn [fst snd len_left len_right slope_left slope_right start_x start_y end_x end_y].
  assert (E : slope_right p - slope_left p <> 0) by lra. f_equal. f_equal. f_equal; field; auto.
Qed.
Lemma next_stretch p dl dr i a : next_anchors (st p) (k * dl) (k * dr) i (stretch_anchors a) = stretch_anchors (next_anchors p dl dr i a).
Proof.
  destruct a as [[l [cx cy]] r]. unfold next_anchors, stretch_anchors, stretch_point, stretch_tct, stretch.
  destruct (Nat.odd i); cbn [fst snd len_left len_right slope_left slope_right]; repeat match goal with |- (_, _) = (_, _) => apply f_equal2 end; ring.
Qed.
Lemma loop_stretch p dl dr n : forall i a, anchor_loop (st p) (k * dl) (k * dr) i n (stretch_anchors a) = map stretch_anchors (anchor_loop p dl dr i n a).
Proof. induction n as [|n IH]; intros i a; [reflexivity|]. cbn [anchor_loop map]. rewrite next_stretch, IH. reflexivity. Qed.
Lemma anchors_stretch p n : slope_left p <> slope_right p -> tct_anchors (st p) n = map stretch_anchors (tct_anchors p n).
Proof.
  intros Sl. unfold tct_anchors. rewrite first_stretch by exact Sl. rewrite <- loop_stretch. f_equal.
  - unfold stretch_anchors, first_anchors, stretch_point, stretch_tct. cbn [fst snd start_x]. apply stretch_diff.
  - unfold stretch_anchors, first_anchors, stretch_point, stretch_tct. cbn [fst snd end_x]. apply stretch_diff.
Qed.
End Similar.
