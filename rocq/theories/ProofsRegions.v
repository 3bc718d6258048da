(** Proofs about the region numbers (electron numbers) of 1D and 2D scans. *)
From Verif Require Import RPrelude Arr ModelSupport SpecSupport ProofsSupport ModelTct SpecTct ProofsTct
  ModelCsd SpecCsd ProofsCsd ProofsOcc.
Local Open Scope R_scope.

(** ** the TCT dictionary as a list of real functions *)
Lemma tct_real_function p lut k : admissible p -> good_mode p lut -> (1 <= k)%nat ->
  exists F, (forall xs, tct_bezier p lut (Some k) xs = Ok (map F xs)) /\
            (forall x, tct_bezier_number p lut (Some k) x = Ok (F x)).
Proof.
  intros A G K. open_admissible A. exists (Ftct p c lut (Some k)). split; intros.
  - apply tct_bezier_F; auto; discriminate.
  - apply tct_number_F; auto.
Qed.

(** F i is the real function of TCT number s + 1 + i *)
Definition tct_funs (lut : option nat) (s : nat) (params : list tct_params) (F : nat -> R -> R) : Prop :=
  forall i p, nth_error params i = Some p ->
    (forall xs, tct_bezier p lut (Some (1 + (s + i))%nat) xs = Ok (map (F (s + i)%nat) xs)) /\
    (forall x, tct_bezier_number p lut (Some (1 + (s + i))%nat) x = Ok (F (s + i)%nat x)).

Lemma tct_funs_exist lut params : proper_tcts params lut -> forall s, exists F, tct_funs lut s params F.
Proof.
  induction 1 as [|p t [A G] Ht IH]; intros s.
  - exists (fun _ _ => 0). intros i p H. destruct i; discriminate.
  - destruct (IH (S s)) as [F HF]. destruct (tct_real_function p lut (1 + s) A G ltac:(lia)) as [F0 HF0].
    exists (fun i => if (i =? s)%nat then F0 else F i). intros i q H. destruct i as [|i].
    + inversion H; subst q. rewrite Nat.add_0_r. rewrite Nat.eqb_refl. exact HF0.
    + replace (s + S i)%nat with (S s + i)%nat by lia. rewrite (proj2 (Nat.eqb_neq (S s + i) s)) by lia. apply (HF i q H).
Qed.

Lemma tct_funs_tail lut s p params F : tct_funs lut s (p :: params) F -> tct_funs lut (S s) params F.
Proof. intros H i q Hq. specialize (H (S i) q Hq). replace (S s + i)%nat with (s + S i)%nat by lia. exact H. Qed.

Section Funs.
Variables (params : list tct_params) (lut : option nat) (rot : R) (F : nat -> R -> R).
Hypothesis HF : tct_funs lut 0 params F.

Lemma above_F v k : (1 <= k <= length params)%nat ->
  (on_or_above params lut rot v k <-> F (k - 1)%nat (fst (tct_view rot v)) <= snd (tct_view rot v)).
Proof.
  intros Hk. destruct (nth_error params (k - 1)) as [p|] eqn:E; [|apply nth_error_None in E; lia].
  destruct (HF (k - 1)%nat p E) as [_ N]. simpl in N. replace (S (k - 1)) with k in N by lia. split.
  - intros (p' & y & _ & E' & Ey & L). rewrite E in E'. inversion E'; subst p'. rewrite N in Ey. inversion Ey; subst y. exact L.
  - intros L. exists p, (F (k - 1)%nat (fst (tct_view rot v))). repeat split; auto. lia.
Qed.
Lemma below_F v k : (1 <= k <= length params)%nat ->
  (strictly_below params lut rot v k <-> snd (tct_view rot v) < F (k - 1)%nat (fst (tct_view rot v))).
Proof.
  intros Hk. destruct (nth_error params (k - 1)) as [p|] eqn:E; [|apply nth_error_None in E; lia].
  destruct (HF (k - 1)%nat p E) as [_ N]. simpl in N. replace (S (k - 1)) with k in N by lia. split.
  - intros (p' & y & _ & E' & Ey & L). rewrite E in E'. inversion E'; subst p'. rewrite N in Ey. inversion Ey; subst y. exact L.
  - intros L. exists p, (F (k - 1)%nat (fst (tct_view rot v))). repeat split; auto. lia.
Qed.
End Funs.

Lemma on_or_above_range params lut rot v k : on_or_above params lut rot v k -> (1 <= k <= length params)%nat.
Proof. intros (p & y & H1 & H2 & _). split; auto. assert (k - 1 < length params)%nat by (apply nth_error_Some; congruence). lia. Qed.
Lemma strictly_below_range params lut rot v k : strictly_below params lut rot v k -> (1 <= k <= length params)%nat.
Proof. intros (p & y & H1 & H2 & _). split; auto. assert (k - 1 < length params)%nat by (apply nth_error_Some; congruence). lia. Qed.

Lemma above_below_excl params lut rot v k : on_or_above params lut rot v k -> strictly_below params lut rot v k -> False.
Proof.
  intros (p & y & _ & E & N & L) (p' & y' & _ & E' & N' & L').
  rewrite E in E'. inversion E'; subst p'. rewrite N in N'. inversion N'; subst y'. lra.
Qed.

Lemma above_or_below params lut rot v k : proper_tcts params lut -> (1 <= k <= length params)%nat ->
  on_or_above params lut rot v k \/ strictly_below params lut rot v k.
Proof.
  intros P Hk. destruct (tct_funs_exist lut params P 0) as [F HF].
  rewrite (above_F params lut rot F HF v k Hk), (below_F params lut rot F HF v k Hk).
  destruct (Rle_lt_dec (F (k - 1)%nat (fst (tct_view rot v))) (snd (tct_view rot v))); auto.
Qed.

Lemma electrons_unique params lut rot v n m : electrons params lut rot v n -> electrons params lut rot v m -> n = m.
Proof.
  intros [A1 B1] [A2 B2]. destruct (Nat.lt_trichotomy n m) as [H|[H|H]]; auto.
  - exfalso. apply (above_below_excl params lut rot v (S n)); auto. apply A2. lia.
  - exfalso. apply (above_below_excl params lut rot v (S m)); auto. apply A1. lia.
Qed.

Lemma electrons_not_above_all params lut rot v n : electrons params lut rot v n -> above_all params lut rot v -> False.
Proof.
  intros [_ B] A. apply (above_below_excl params lut rot v (S n)); auto. apply A.
  apply (strictly_below_range params lut rot v). auto.
Qed.

Lemma electrons_range params lut rot v n : electrons params lut rot v n -> (n < length params)%nat.
Proof. intros [_ B]. apply strictly_below_range in B. lia. Qed.

Lemma electrons_total params lut rot v : proper_tcts params lut ->
  (exists n, electrons params lut rot v n) \/ above_all params lut rot v.
Proof.
  intros P.
  assert (G : forall m, (m <= length params)%nat -> (exists n, electrons params lut rot v n) \/
     (forall k, (1 <= k <= m)%nat -> on_or_above params lut rot v k)).
  { induction m as [|m IH]; intros H; [right; intros; lia|].
    destruct (IH ltac:(lia)) as [E|A]; [left; auto|].
    destruct (above_or_below params lut rot v (S m) P ltac:(lia)) as [Q|Q].
    - right. intros k Hk. destruct (Nat.eq_dec k (S m)) as [->|]; auto. apply A. lia.
    - left. exists m. split; auto. }
  destruct (G (length params) (le_n _)); auto.
Qed.

(** ** the sorted dictionary *)
Definition tct_items (s : nat) (params : list tct_params) : tct_dict :=
  map (fun ip : nat * tct_params => ((1 + fst ip)%nat, fun lut xs => tct_bezier (snd ip) lut (Some (1 + fst ip)%nat) xs))
      (combine (seq s (length params)) params).

Lemma init_items params : initialize_tct_functions params 1 = tct_items 0 params.
Proof. reflexivity. Qed.

Lemma tct_items_cons s p params : tct_items s (p :: params) =
  ((1 + s)%nat, fun lut xs => tct_bezier p lut (Some (1 + s)%nat) xs) :: tct_items (S s) params.
Proof. reflexivity. Qed.

Lemma sorted_tct_items params : forall s, sorted_items (tct_items s params) = tct_items s params.
Proof.
  induction params as [|p t IH]; intros s; [reflexivity|]. rewrite tct_items_cons. unfold sorted_items in *. simpl. rewrite IH.
  destruct t as [|q t]; [reflexivity|]. rewrite tct_items_cons. simpl.
  destruct s; reflexivity || (rewrite (proj2 (Nat.leb_le _ _)); [reflexivity|lia]).
Qed.

(** ** 1D regions *)
Definition first_below (F : nat -> R -> R) (q : point) (s n : nat) : nat :=
  fold_right (fun i m => if Rltb (snd q) (F i (fst q)) then i else m) 0%nat (seq s n).

Lemma combine_map_l {A B} (f : A -> B) (l : list A) : combine l (map f l) = map (fun x => (x, f x)) l.
Proof. induction l; simpl; auto. rewrite IHl. reflexivity. Qed.
Lemma combine_maps {A B C} (f : A -> B) (g : A -> C) (l : list A) : combine (map f l) (map g l) = map (fun x => (f x, g x)) l.
Proof. induction l; simpl; auto. rewrite IHl. reflexivity. Qed.

Lemma regions_1d_F points params lut rot F : tct_funs lut 0 params F ->
  regions_1d points (initialize_tct_functions params 1) rot lut =
  Ok (map (fun v => first_below F (tct_view rot v) 0 (length params)) points).
Proof.
  intros HF. unfold regions_1d. rewrite init_items, sorted_tct_items.
  assert (G : forall params s, tct_funs lut s params F ->
    foldM (fun mask (tct : nat * tct_function) =>
           let? ys := snd tct lut (map fst (rotate_points (- rot) points)) in
           Ok (map (fun pym : (point * R) * nat =>
                      let '((q, y), m) := pym in
                      if Rltb (snd q) y then (fst tct - 1)%nat else m)
                   (combine (combine (rotate_points (- rot) points) ys) mask)))
        (rev (tct_items s params)) (repeat 0%nat (length points))
    = Ok (map (fun v => first_below F (tct_view rot v) s (length params)) points)).
  { clear HF params. induction params as [|p t IH]; intros s HF.
    - simpl. f_equal. unfold first_below; simpl. induction points; simpl; auto. f_equal. auto.
    - rewrite tct_items_cons. simpl rev. rewrite foldM_app. rewrite IH by (eapply tct_funs_tail; eauto).
      simpl. destruct (HF 0%nat p eq_refl) as [Fa _]. rewrite Nat.add_0_r in Fa. simpl in Fa. rewrite Fa. simpl.
      f_equal. unfold rotate_points. rewrite !map_map, !combine_maps, map_map. apply map_ext. intros v.
      unfold tct_view. rewrite Nat.sub_0_r. unfold first_below. simpl. reflexivity. }
  apply G. auto.
Qed.

Lemma first_below_spec params lut rot F v : tct_funs lut 0 params F -> forall n s, (s + n = length params)%nat ->
  (forall k, (1 <= k <= s)%nat -> on_or_above params lut rot v k) ->
  electrons params lut rot v (first_below F (tct_view rot v) s n) \/
  (above_all params lut rot v /\ first_below F (tct_view rot v) s n = 0%nat).
Proof.
  intros HF. induction n as [|n IH]; intros s Hs A.
  - right. split; [|reflexivity]. intros k Hk. apply A. lia.
  - unfold first_below. cbn [seq fold_right]. fold (first_below F (tct_view rot v) (S s) n).
    destruct (Rltb_spec (snd (tct_view rot v)) (F s (fst (tct_view rot v)))) as [L|L].
    + left. split; auto. apply (below_F params lut rot F HF v (S s)); [lia|]. replace (S s - 1)%nat with s by lia. auto.
    + apply IH; [lia|]. intros k Hk. destruct (Nat.eq_dec k (S s)) as [->|]; [|apply A; lia].
      apply (above_F params lut rot F HF v (S s)); [lia|]. replace (S s - 1)%nat with s by lia. lra.
Qed.

Lemma regions_1d_spec points params lut rot : proper_tcts params lut ->
  exists regs, regions_1d points (initialize_tct_functions params 1) rot lut = Ok regs /\ length regs = length points /\
  forall i v, nth_error points i = Some v -> exists n, nth_error regs i = Some n /\
    (electrons params lut rot v n \/ (above_all params lut rot v /\ n = 0%nat)).
Proof.
  intros P. destruct (tct_funs_exist lut params P 0) as [F HF]. rewrite (regions_1d_F points params lut rot F HF).
  eexists. split; [reflexivity|]. split; [apply map_length|]. intros i v Hv.
  eexists. split; [apply map_nth_error; eauto|].
  apply (first_below_spec params lut rot F v HF (length params) 0); [lia|]. intros; lia.
Qed.

(** ** passing TCTs one after the other *)
Lemma passed_items params lut rot F v q : tct_funs lut 0 params F -> q = tct_view rot v ->
  forall t s, skipn s params = t -> (s <= length params)%nat ->
  (forall k, (1 <= k <= s)%nat -> on_or_above params lut rot v k) ->
  exists n, passed (tct_items s t) lut q s = Ok n /\
    (electrons params lut rot v n \/ (above_all params lut rot v /\ n = length params)).
Proof.
  intros HF Hq. induction t as [|p t IH]; intros s Hs Hl A.
  - exists s. split; [reflexivity|]. right.
    assert (s = length params). { apply (f_equal (@length _)) in Hs. rewrite skipn_length in Hs. simpl in Hs. lia. }
    subst s. split; auto.
  - assert (Hp : nth_error params s = Some p).
    { clear - Hs. revert params Hs. induction s as [|s IHs]; intros params Hs; destruct params; simpl in *; try congruence; auto. }
    assert (Hlt : (s < length params)%nat) by (apply nth_error_Some; congruence).
    rewrite tct_items_cons. simpl. unfold call_number.
    destruct (HF s p Hp) as [Fa _]. simpl in Fa. rewrite Fa. simpl.
    destruct (Rleb_spec (F s (fst q)) (snd q)) as [L|L].
    + apply IH; [|lia|].
      * clear - Hs. revert params Hs. induction s as [|s IHs]; intros params Hs; destruct params; simpl in *; try congruence; auto.
      * intros k Hk. destruct (Nat.eq_dec k (S s)) as [->|]; [|apply A; lia].
        apply (above_F params lut rot F HF v (S s)); [lia|]. rewrite <- Hq. replace (S s - 1)%nat with s by lia. auto.
    + exists s. split; auto. left. split; auto.
      apply (below_F params lut rot F HF v (S s)); [lia|]. rewrite <- Hq. replace (S s - 1)%nat with s by lia. lra.
Qed.

Lemma passed_spec params lut rot v : proper_tcts params lut ->
  exists n, passed (sorted_items (initialize_tct_functions params 1)) lut (tct_view rot v) 0 = Ok n /\
    (electrons params lut rot v n \/ (above_all params lut rot v /\ n = length params)).
Proof.
  intros P. destruct (tct_funs_exist lut params P 0) as [F HF]. rewrite init_items, sorted_tct_items.
  apply (passed_items params lut rot F v _ HF eq_refl params 0); auto; [lia|]. intros; lia.
Qed.

(** ** 2D regions *)
Lemma in_pixels nr nc a : In a (pixels_of nr nc) <-> (fst a < nr /\ snd a < nc)%nat.
Proof.
  unfold pixels_of. rewrite in_flat_map. split.
  - intros (i & Hi & Ha). apply in_map_iff in Ha. destruct Ha as (j & <- & Hj). apply in_seq in Hi, Hj. simpl. lia.
  - intros [H1 H2]. exists (fst a). split; [apply in_seq; lia|]. apply in_map_iff. exists (snd a).
    split; [destruct a; auto|apply in_seq; lia].
Qed.

Section Regions2d.
Variables (mask labels : arr2 nat) (xv yv : nat -> R) (params : list tct_params) (rot : R) (lut : option nat).
Hypothesis P : proper_tcts params lut.
Let all := pixels_of (rows mask) (cols mask).
Let volt (a : nat * nat) : point := (xv (snd a), yv (fst a)).

(** electron number that the loop finds for a pixel *)
Definition found (a : nat * nat) (n : nat) : Prop :=
  electrons params lut rot (volt a) n \/ (above_all params lut rot (volt a) /\ n = length params).

Definition region_body (m : arr2 nat) (reg : nat) : result (arr2 nat) :=
  match filter (fun ij => (cell labels (fst ij) (snd ij) =? reg)%nat) all with
  | [] => Err IndexError
  | (i, j) :: _ =>
      let q := rotate_point (- rot) (xv j, yv i) in
      let? v := passed (sorted_items (initialize_tct_functions params 1)) lut q 0 in
      Ok (mk_arr2 (rows m) (cols m)
            (fun i' j' => if (cell labels i' j' =? reg)%nat then to_uint8 (Z.of_nat v) else cell m i' j'))
  end.

Lemma region_loop regs : forall m, (forall r, In r regs -> exists a, In a all /\ value_at labels a = r) ->
  exists m', foldM region_body regs m = Ok m' /\ rows m' = rows m /\ cols m' = cols m /\
  forall a, (~ In (value_at labels a) regs -> value_at m' a = value_at m a) /\
            (In (value_at labels a) regs -> exists b n, In b all /\ value_at labels b = value_at labels a /\
                found b n /\ value_at m' a = to_uint8 (Z.of_nat n)).
Proof.
  induction regs as [|reg regs IH]; intros m H; simpl.
  - exists m. repeat split; auto. intros [].
  - unfold region_body at 1.
    destruct (filter (fun ij => (cell labels (fst ij) (snd ij) =? reg)%nat) all) as [|[i j] rest] eqn:Ef.
    + exfalso. destruct (H reg (or_introl eq_refl)) as (a & Ha & Hr).
      assert (I : In a (filter (fun ij => (cell labels (fst ij) (snd ij) =? reg)%nat) all)).
      { apply filter_In. split; auto. apply Nat.eqb_eq. auto. }
      rewrite Ef in I. destruct I.
    + assert (I : In (i, j) (filter (fun ij => (cell labels (fst ij) (snd ij) =? reg)%nat) all)) by (rewrite Ef; left; auto).
      apply filter_In in I. destruct I as [I1 I2]. apply Nat.eqb_eq in I2. simpl in I2.
      destruct (passed_spec params lut rot (xv j, yv i) P) as (n & Ep & En).
      unfold tct_view in Ep. rewrite Ep. simpl.
      destruct (IH (mk_arr2 (rows m) (cols m)
            (fun i' j' => if (cell labels i' j' =? reg)%nat then to_uint8 (Z.of_nat n) else cell m i' j'))
            ltac:(intros r Hr; apply H; right; auto)) as (m' & E' & R' & C' & Q).
      exists m'. split; [exact E'|]. split; [exact R'|]. split; [exact C'|]. intros a. destruct (Q a) as [Q1 Q2]. split.
      * intros Hn. rewrite Q1 by (intros X; apply Hn; right; auto). unfold value_at at 1. simpl.
        destruct (Nat.eqb_spec (cell labels (fst a) (snd a)) reg) as [X|X]; auto. exfalso. apply Hn. left. auto.
      * intros [X|X]; [|apply Q2; auto].
        destruct (in_dec Nat.eq_dec (value_at labels a) regs) as [Y|Y]; [apply Q2; auto|].
        exists (i, j), n. split; auto. split; [unfold value_at at 1; simpl; congruence|]. split; [exact En|].
        rewrite Q1 by auto. unfold value_at at 1. simpl. unfold value_at in X. rewrite <- X, Nat.eqb_refl. reflexivity.
Qed.

Lemma regions_2d_spec : is_labelling mask labels ->
  exists regs, regions_2d mask labels xv yv (initialize_tct_functions params 1) rot lut = Ok regs /\
  rows regs = rows mask /\ cols regs = cols mask /\
  forall a, in_image mask a ->
    (value_at mask a <> 0%nat -> value_at regs a = value_at mask a) /\
    (value_at mask a = 0%nat -> exists b n, connected mask a b /\ found b n /\ value_at regs a = to_uint8 (Z.of_nat n)).
Proof.
  intros [L0 L1]. unfold regions_2d. fold all. fold region_body.
  set (regs := filter (fun r => negb (r =? 0)%nat) (unique (map (fun ij => cell labels (fst ij) (snd ij)) all))).
  assert (Hin : forall r, In r regs <-> r <> 0%nat /\ exists a, In a all /\ value_at labels a = r).
  { intros r. unfold regs. rewrite filter_In, in_unique, in_map_iff. split.
    - intros [(a & <- & Ha) H]. split; [destruct (Nat.eqb_spec (cell labels (fst a) (snd a)) 0); [discriminate|auto]|].
      exists a. split; auto.
    - intros [H (a & Ha & <-)]. split; [exists a; split; auto|]. destruct (Nat.eqb_spec (value_at labels a) 0); [congruence|reflexivity]. }
  destruct (region_loop regs mask) as (m' & E & Rm & Cm & Q).
  { intros r Hr. apply Hin in Hr. apply Hr. }
  exists m'. split; [exact E|]. split; auto. split; auto. intros a Ha.
  destruct (Q a) as [Q1 Q2]. split; intros Hv.
  - apply Q1. rewrite Hin. intros [X _]. apply X. apply L0; auto.
  - destruct Q2 as (b & n & Hb & Eb & Fb & V).
    { apply Hin. split; [intros X; apply L0 in X; auto|]. exists a. split; auto. apply in_pixels. exact Ha. }
    assert (Ib : in_image mask b) by (apply in_pixels; exact Hb).
    assert (Ub : unlabelled mask b).
    { split; auto. destruct (Nat.eq_dec (value_at mask b) 0) as [|N]; auto. exfalso.
      assert (Z : value_at labels b = 0%nat) by (apply L0; auto).
      assert (Z' : value_at labels a = 0%nat) by congruence. apply L0 in Z'; auto. }
    exists b, n. split; [|split; auto]. apply L1; auto. split; auto.
Qed.
End Regions2d.
