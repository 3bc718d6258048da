(** Proofs about special floating point values. *)
From Flocq Require Import Core IEEE754.BinarySingleNaN.
From Verif Require Import RPrelude ModelCsd ModelSimulation ModelSpecial SpecSpecial.
Local Open Scope R_scope.

Lemma lt64_finite x y : finite x -> finite y -> lt64 x y = Rltb (real_of x) (real_of y).
Proof.
  intros X Y. unfold lt64. rewrite (Bltb_correct 53 1024 x y X Y). unfold real_of. destruct (Rlt_bool_spec (B2R x) (B2R y)); symmetry; [apply Rltb_true|apply Rltb_false]; lra.
Qed.
Lemma eq64_finite x y : finite x -> finite y -> eq64 x y = Reqb (real_of x) (real_of y).
Proof.
  intros X Y. unfold eq64. rewrite (Beqb_correct 53 1024 x y X Y). unfold real_of.
  destruct (Req_bool_spec (B2R x) (B2R y)), (Reqb_spec (B2R x) (B2R y)); congruence.
Qed.
Lemma finite_number x : finite x -> number x.
Proof. destruct x; cbn; try discriminate; reflexivity. Qed.
Lemma min64_finite x y : finite x -> finite y -> finite (min64 x y) /\ real_of (min64 x y) = Rmin (real_of x) (real_of y).
Proof.
  intros X Y. unfold min64. rewrite (finite_number x X), (finite_number y Y), (lt64_finite y x Y X).
  destruct (Rltb_spec (real_of y) (real_of x)); split; try assumption; [rewrite Rmin_right|rewrite Rmin_left]; lra.
Qed.
Lemma max64_finite x y : finite x -> finite y -> finite (max64 x y) /\ real_of (max64 x y) = Rmax (real_of x) (real_of y).
Proof.
  intros X Y. unfold max64. rewrite (finite_number x X), (finite_number y Y), (lt64_finite x y X Y).
  destruct (Rltb_spec (real_of x) (real_of y)); split; try assumption; [rewrite Rmax_right|rewrite Rmax_left]; lra.
Qed.
Lemma range_finite l a b : limits_are finite l -> finite a -> finite b ->
  range_outside64 l (a, b) = range_outside (option_map real_pair l) (real_of a, real_of b).
Proof.
  intros L A B. destruct l as [[lo hi]|]; [|reflexivity]. destruct L as [Lo Hi]. unfold range_outside64, range_outside. cbn [option_map real_pair fst snd].
  destruct (min64_finite a b A B) as [M1 M2]. destruct (max64_finite a b A B) as [X1 X2].
  rewrite !lt64_finite by assumption. rewrite M2, X2. reflexivity.
Qed.
Lemma sensor_finite l v : limits_are finite l -> option_is finite v ->
  sensor_volt_outside64 l v = sensor_volt_outside (option_map real_pair l) (option_map real_of v).
Proof.
  intros L V. destruct l as [[lo hi]|]; [|reflexivity]. destruct L as [Lo Hi]. destruct v as [x|]; [|reflexivity].
  cbn. rewrite !lt64_finite by assumption. reflexivity.
Qed.
Lemma plunger_finite l v : limits_are finite l -> option_is finite v ->
  plunger_volt_outside64 l v = plunger_volt_outside (option_map real_pair l) (option_map real_of v).
Proof.
  intros L V. destruct l as [[lo hi]|]; [|reflexivity]. destruct L as [Lo Hi]. destruct v as [x|]; [|reflexivity].
  cbn. rewrite !lt64_finite by assumption. reflexivity.
Qed.
Lemma fixed_finite a b : finite a -> finite b -> fixed_range64 (a, b) = fixed_range (real_of a, real_of b).
Proof. intros A B. unfold fixed_range64, fixed_range. cbn [fst snd]. apply eq64_finite; assumption. Qed.
Lemma verdict_raise {A} b e (r : result A) : verdict (raise_if b e r) = raise_if b e (verdict r).
Proof. destruct b; reflexivity. Qed.
Lemma verdict_bind {A B} (m : result A) (k : A -> result B) : verdict (let? x := m in k x) = let? x := m in verdict (k x).
Proof. destruct m; reflexivity. Qed.
Lemma none_map {A B} (f : A -> B) v : is_none (option_map f v) = is_none v.
Proof. destruct v; reflexivity. Qed.

Section Checks.
Context {W L I K : Type}.
Lemma measure_exact (c : config W L I K) l s1 s2 v1 v2 res : same_limits c l ->
  limits_are finite (al_g1 l) -> limits_are finite (al_g2 l) -> limits_are finite (al_sensor_g1 l) -> limits_are finite (al_sensor_g2 l) ->
  all_finite s1 -> all_finite s2 -> option_is finite v1 -> option_is finite v2 ->
  check_measure64 (negb (is_none (ideal_csd_config c))) l s1 s2 v1 v2 res =
  verdict (check_measure c (map real_of s1) (map real_of s2) (option_map real_of v1) (option_map real_of v2) res).
Proof.
  intros (E1 & E2 & E3 & E4) L1 L2 L3 L4 S1 S2 V1 V2. unfold check_measure64, check_measure.
  destruct (ideal_csd_config c) as [gen|]; [|reflexivity]. cbn [is_none negb raise_if].
  destruct s1 as [|a1 [|b1 [|]]]; try reflexivity. destruct s2 as [|a2 [|b2 [|]]]; try reflexivity. cbn [map].
  apply Forall_cons_iff in S1. destruct S1 as [A1 S1]. apply Forall_cons_iff in S1. destruct S1 as [B1 _].
  apply Forall_cons_iff in S2. destruct S2 as [A2 S2]. apply Forall_cons_iff in S2. destruct S2 as [B2 _].
  rewrite !range_finite, !fixed_finite, !sensor_finite by assumption. rewrite E1, E2, E3, E4, !none_map.
  rewrite verdict_raise, verdict_bind. f_equal. destruct (sensor_volt_outside (option_map real_pair (al_sensor_g1 l)) (option_map real_of v1)) as [out1|]; [|reflexivity]. cbn [bind].
  rewrite verdict_bind. destruct (if out1 then _ else _) as [out|]; [|reflexivity]. cbn [bind]. rewrite !verdict_raise. reflexivity.
Qed.
Lemma scan_exact (c : config W L I K) l s1 s2 v1 v2 res : same_limits c l ->
  limits_are finite (al_g1 l) -> limits_are finite (al_g2 l) -> limits_are finite (al_sensor_g1 l) -> limits_are finite (al_sensor_g2 l) ->
  all_finite s1 -> all_finite s2 -> option_is finite v1 -> option_is finite v2 ->
  check_sensor_scan64 (so_scan (sensor c)) l s1 s2 v1 v2 res =
  verdict (check_sensor_scan c (map real_of s1) (map real_of s2) (option_map real_of v1) (option_map real_of v2) res).
Proof.
  intros (E1 & E2 & E3 & E4) L1 L2 L3 L4 S1 S2 V1 V2. unfold check_sensor_scan64, check_sensor_scan. rewrite verdict_raise. f_equal.
  destruct s1 as [|a1 [|b1 [|]]]; try reflexivity. destruct s2 as [|a2 [|b2 [|]]]; try reflexivity. cbn [map].
  apply Forall_cons_iff in S1. destruct S1 as [A1 S1]. apply Forall_cons_iff in S1. destruct S1 as [B1 _].
  apply Forall_cons_iff in S2. destruct S2 as [A2 S2]. apply Forall_cons_iff in S2. destruct S2 as [B2 _].
  rewrite !range_finite, !fixed_finite, !plunger_finite by assumption. rewrite E1, E2, E3, E4, !none_map.
  rewrite !verdict_raise. reflexivity.
Qed.
End Checks.

(** ** Order of all numbers *)
Lemma not_lt x y : number x -> number y -> lt64 x y = false -> Bleb y x = true.
Proof.
  intros X Y H. destruct (is_finite x) eqn:Fx, (is_finite y) eqn:Fy.
  - unfold lt64 in H. rewrite Bltb_correct in H by assumption. rewrite Bleb_correct by assumption.
    apply Rle_bool_true. destruct (Rlt_bool_spec (B2R x) (B2R y)); [discriminate|assumption].
  - destruct x as [| | |], y as [| | |]; try discriminate; repeat match goal with s : bool |- _ => destruct s end; try discriminate; try reflexivity.
  - destruct x as [| | |], y as [| | |]; try discriminate; repeat match goal with s : bool |- _ => destruct s end; try discriminate; try reflexivity.
  - destruct x as [| | |], y as [| | |]; try discriminate; repeat match goal with s : bool |- _ => destruct s end; try discriminate; try reflexivity.
Qed.
Lemma le_trans64 (x y z : float64) : Bleb x y = true -> Bleb y z = true -> Bleb x z = true.
Proof.
  intros H1 H2. destruct (is_finite x) eqn:Fx, (is_finite y) eqn:Fy, (is_finite z) eqn:Fz.
  { rewrite Bleb_correct in * by assumption. apply Rle_bool_true.
    destruct (Rle_bool_spec (B2R x) (B2R y)); [|discriminate]. destruct (Rle_bool_spec (B2R y) (B2R z)); [|discriminate]. lra. }
  all: destruct x, y, z; try discriminate; repeat match goal with s : bool |- _ => destruct s end; try discriminate; try reflexivity.
Qed.
Lemma lt_asym (x y : float64) : lt64 x y = true -> lt64 y x = true -> False.
Proof.
  unfold lt64. intros H1 H2. destruct (is_finite x) eqn:Fx, (is_finite y) eqn:Fy.
  { rewrite Bltb_correct in * by assumption.
    destruct (Rlt_bool_spec (B2R x) (B2R y)); [|discriminate]. destruct (Rlt_bool_spec (B2R y) (B2R x)); [lra|discriminate]. }
  all: destruct x, y; try discriminate; repeat match goal with s : bool |- _ => destruct s end; try discriminate.
Qed.
Lemma range_inside l a b : limits_are number l -> number a -> number b -> range_outside64 l (a, b) = false -> inside l a /\ inside l b.
Proof.
  destruct l as [[lo hi]|]; [|cbn; auto]. intros [Lo Hi] A B H. cbn [range_outside64 fst snd] in H. apply orb_false_iff in H. destruct H as [H H4].
  apply orb_false_iff in H. destruct H as [H H3]. apply orb_false_iff in H. destruct H as [H1 H2].
  unfold min64, max64 in *. rewrite A, B in *. cbn [inside].
  assert (Q : forall x, number x -> lt64 x lo = false -> lt64 hi x = false -> Bleb lo x = true /\ Bleb x hi = true) by (intros x X Q1 Q2; split; apply not_lt; assumption).
  destruct (lt64 b a) eqn:E1, (lt64 a b) eqn:E2; [exfalso; exact (lt_asym _ _ E1 E2)|split; apply Q; assumption|split; apply Q; assumption|].
  pose proof (not_lt _ _ B A E1) as O1. pose proof (not_lt _ _ A B E2) as O2. destruct (Q a A H1 H2) as [Q1 Q2].
  split; split; try assumption; [exact (le_trans64 _ _ _ Q1 O1)|exact (le_trans64 _ _ _ O2 Q2)].
Qed.
Lemma volt_inside l x : limits_are number l -> number x -> sensor_volt_outside64 l (Some x) = Ok false -> inside l x.
Proof.
  destruct l as [[lo hi]|]; [|cbn; auto]. intros [Lo Hi] X H. injection H as H. apply orb_false_iff in H. destruct H. cbn. split; apply not_lt; assumption.
Qed.
Lemma plunger_inside l x : limits_are number l -> number x -> plunger_volt_outside64 l (Some x) = false -> inside l x.
Proof.
  destruct l as [[lo hi]|]; [|cbn; auto]. intros [Lo Hi] X H. apply orb_false_iff in H. destruct H. cbn. split; apply not_lt; assumption.
Qed.
Lemma raise_ok {A} b e (r : result A) x : raise_if b e r = Ok x -> b = false /\ r = Ok x.
Proof. destruct b; [discriminate|auto]. Qed.
Lemma measure_inside conf l s1 s2 v1 v2 res : check_measure64 conf l s1 s2 v1 v2 res = Ok tt ->
  limits_are number (al_g1 l) -> limits_are number (al_g2 l) -> limits_are number (al_sensor_g1 l) -> limits_are number (al_sensor_g2 l) ->
  Forall number s1 -> Forall number s2 -> option_is number v1 -> option_is number v2 ->
  Forall (inside (al_g1 l)) s1 /\ Forall (inside (al_g2 l)) s2 /\ option_is (inside (al_sensor_g1 l)) v1 /\ option_is (inside (al_sensor_g2 l)) v2.
Proof.
  unfold check_measure64. intros H L1 L2 L3 L4 S1 S2 V1 V2. apply raise_ok in H. destruct H as [_ H].
  destruct s1 as [|a1 [|b1 [|]]]; try discriminate. destruct s2 as [|a2 [|b2 [|]]]; try discriminate.
  apply Forall_cons_iff in S1. destruct S1 as [A1 S1]. apply Forall_cons_iff in S1. destruct S1 as [B1 _].
  apply Forall_cons_iff in S2. destruct S2 as [A2 S2]. apply Forall_cons_iff in S2. destruct S2 as [B2 _].
  apply raise_ok in H. destruct H as [H0 H]. apply orb_false_iff in H0. destruct H0 as [R1 R2].
  destruct (range_inside _ _ _ L1 A1 B1 R1). destruct (range_inside _ _ _ L2 A2 B2 R2).
  destruct (sensor_volt_outside64 (al_sensor_g1 l) v1) as [out1|] eqn:O1; [|discriminate]. cbn [bind] in H. destruct out1; [discriminate|].
  destruct (sensor_volt_outside64 (al_sensor_g2 l) v2) as [out2|] eqn:O2; [|discriminate]. cbn [bind] in H. apply raise_ok in H. destruct H as [-> _].
  split; [auto|]. split; [auto|]. split; [destruct v1|destruct v2]; cbn; auto using volt_inside.
Qed.
Lemma scan_inside scans l s1 s2 v1 v2 res : check_sensor_scan64 scans l s1 s2 v1 v2 res = Ok tt ->
  limits_are number (al_g1 l) -> limits_are number (al_g2 l) -> limits_are number (al_sensor_g1 l) -> limits_are number (al_sensor_g2 l) ->
  Forall number s1 -> Forall number s2 -> option_is number v1 -> option_is number v2 ->
  Forall (inside (al_sensor_g1 l)) s1 /\ Forall (inside (al_sensor_g2 l)) s2 /\ option_is (inside (al_g1 l)) v1 /\ option_is (inside (al_g2 l)) v2.
Proof.
  unfold check_sensor_scan64. intros H L1 L2 L3 L4 S1 S2 V1 V2. apply raise_ok in H. destruct H as [_ H].
  destruct s1 as [|a1 [|b1 [|]]]; try discriminate. destruct s2 as [|a2 [|b2 [|]]]; try discriminate.
  apply Forall_cons_iff in S1. destruct S1 as [A1 S1]. apply Forall_cons_iff in S1. destruct S1 as [B1 _].
  apply Forall_cons_iff in S2. destruct S2 as [A2 S2]. apply Forall_cons_iff in S2. destruct S2 as [B2 _].
  apply raise_ok in H. destruct H as [H0 H]. apply orb_false_iff in H0. destruct H0 as [R1 R2].
  destruct (range_inside _ _ _ L3 A1 B1 R1). destruct (range_inside _ _ _ L4 A2 B2 R2).
  apply raise_ok in H. destruct H as [_ H]. apply raise_ok in H. destruct H as [HO _]. apply orb_false_iff in HO. destruct HO as [O1 O2].
  split; [auto|]. split; [auto|]. split; [destruct v1|destruct v2]; cbn; auto using plunger_inside.
Qed.
(** between finite numbers there are no infinities *)
Lemma inside_finite lo hi x : finite lo -> finite hi -> inside (Some (lo, hi)) x -> finite x.
Proof.
  intros Lo Hi [H1 H2]. destruct x as [| [|]| |]; try reflexivity; exfalso.
  - destruct lo as [| | |]; try discriminate.
  - destruct hi as [| | |]; try discriminate.
  - destruct lo as [| | |]; discriminate.
Qed.

(** ** Not-a-number *)
Lemma nan_lt x : lt64 nan64 x = false /\ lt64 x nan64 = false.
Proof. destruct x; split; reflexivity. Qed.
Lemma nan_range l x y : x = nan64 \/ y = nan64 -> range_outside64 l (x, y) = false.
Proof.
  intros N. destruct l as [[lo hi]|]; [|reflexivity]. unfold range_outside64. cbn [fst snd].
  assert (E : min64 x y = nan64 /\ max64 x y = nan64).
  { unfold min64, max64. destruct N as [-> | ->]; cbn; [auto|]. destruct x; cbn; auto. }
  destruct E as [-> ->]. destruct (nan_lt lo) as [-> _], (nan_lt hi) as [_ ->]. reflexivity.
Qed.
Lemma nan_volt l : sensor_volt_outside64 l (Some nan64) = Ok false.
Proof. destruct l as [[lo hi]|]; [|reflexivity]. cbn [sensor_volt_outside64]. destruct (nan_lt lo) as [-> _], (nan_lt hi) as [_ ->]. reflexivity. Qed.
Lemma nan_measure l s1 s2 v1 v2 res : In nan64 s1 -> In nan64 s2 -> length s1 = 2%nat -> length s2 = 2%nat -> v1 = nan64 -> v2 = nan64 ->
  too_long res = false -> too_small res = false -> check_measure64 true l s1 s2 (Some v1) (Some v2) res = Ok tt.
Proof.
  intros N1 N2 L1 L2 -> -> T1 T2. destruct s1 as [|a1 [|b1 [|]]]; try discriminate. destruct s2 as [|a2 [|b2 [|]]]; try discriminate.
  unfold check_measure64. cbn [negb raise_if]. rewrite !nan_range by (cbn in *; intuition congruence). rewrite !nan_volt. cbn [orb raise_if bind is_none xorb].
  rewrite T1, T2, andb_false_r. cbn [raise_if].
  assert (F : forall x y, In nan64 [x; y] -> fixed_range64 (x, y) = false).
  { intros x y [-> | [-> | []]]; unfold fixed_range64, eq64; cbn [fst snd]; [reflexivity|destruct x; reflexivity]. }
  rewrite !F by assumption. rewrite andb_false_r. reflexivity.
Qed.
Lemma nan_scan l s1 s2 v1 v2 res : In nan64 s1 -> In nan64 s2 -> length s1 = 2%nat -> length s2 = 2%nat -> v1 = nan64 -> v2 = nan64 ->
  too_long res = false -> too_small res = false -> check_sensor_scan64 true l s1 s2 (Some v1) (Some v2) res = Ok tt.
Proof.
  intros N1 N2 L1 L2 -> -> T1 T2. destruct s1 as [|a1 [|b1 [|]]]; try discriminate. destruct s2 as [|a2 [|b2 [|]]]; try discriminate.
  unfold check_sensor_scan64. cbn [negb raise_if]. rewrite !nan_range by (cbn in *; intuition congruence).
  assert (F : forall x y, In nan64 [x; y] -> fixed_range64 (x, y) = false).
  { intros x y [-> | [-> | []]]; unfold fixed_range64, eq64; cbn [fst snd]; [reflexivity|destruct x; reflexivity]. }
  rewrite !F by assumption. rewrite andb_false_r, T1, T2, andb_false_r. cbn [raise_if orb is_none xorb].
  assert (P : forall k, plunger_volt_outside64 k (Some nan64) = false).
  { intros [[lo hi]|]; [|reflexivity]. cbn [plunger_volt_outside64]. destruct (nan_lt lo) as [-> _], (nan_lt hi) as [_ ->]. reflexivity. }
  rewrite !P. reflexivity.
Qed.

(** ** Parameters *)
Lemma positive_spec x : set_positive64 x = Ok x <-> x = nan64 \/ lt64 (B754_zero false) x = true.
Proof.
  unfold set_positive64, raise_if, le64, lt64. destruct x as [[|]|[|]| |[|]]; cbn; try (split; intros H; [try discriminate; auto|destruct H; try discriminate; reflexivity]).
Qed.
Lemma quality_bools (a b : bool) (q : float64) : raise_if (negb (a && b)) ValueError (Ok q) = Ok q <-> a = true /\ b = true.
Proof. destruct a, b; cbn [andb negb raise_if]; split; intros H; try discriminate; try (destruct H; discriminate); auto. Qed.
Lemma one_value : real_of one64 = 1.
Proof. apply Bone_correct. Qed.
Lemma one_finite : finite one64.
Proof. apply is_finite_Bone. Qed.
Lemma quality_spec q : set_quality64 q = Ok q <-> finite q /\ 0 < real_of q <= 1.
Proof.
  unfold set_quality64. rewrite quality_bools. pose proof one_value as One. pose proof one_finite as F1. set (u := one64) in *. clearbody u.
  destruct (is_finite q) eqn:F.
  - unfold lt64, le64. rewrite Bleb_correct by assumption. rewrite Bltb_correct by (exact F || reflexivity). unfold real_of in *. rewrite One. change (B2R (B754_zero false)) with 0.
    split.
    + intros [H1 H2]. split; [exact F|]. split; [destruct (Rlt_bool_spec 0 (B2R q)); [assumption|discriminate]|destruct (Rle_bool_spec (B2R q) 1); [assumption|discriminate]].
    + intros [_ [H1 H2]]. split; [apply Rlt_bool_true|apply Rle_bool_true]; assumption.
  - split; [|intros [H _]; unfold finite in H; congruence]. intros [H1 H2]. destruct q as [| [|]| |]; try discriminate. destruct u; discriminate.
Qed.

(** limits of NaN switch the checks off *)
Lemma nan_limits s1 s2 v1 v2 res g1 g2 sg1 sg2 : g1 = Some (nan64, nan64) -> g2 = Some (nan64, nan64) -> sg1 = Some (nan64, nan64) -> sg2 = Some (nan64, nan64) ->
  check_measure64 true (mk_all_limits g1 g2 sg1 sg2) s1 s2 (Some v1) (Some v2) res =
  check_measure64 true (mk_all_limits None None None None) s1 s2 (Some v1) (Some v2) res.
Proof.
  intros -> -> -> ->. unfold check_measure64. cbn [al_g1 al_g2 al_sensor_g1 al_sensor_g2]. destruct s1 as [|a1 [|b1 [|]]]; try reflexivity. destruct s2 as [|a2 [|b2 [|]]]; try reflexivity.
  assert (P : forall s, range_outside64 (Some (nan64, nan64)) s = false).
  { intros s. unfold range_outside64. cbv zeta. destruct (nan_lt (min64 (fst s) (snd s))) as [-> ->], (nan_lt (max64 (fst s) (snd s))) as [-> ->]. reflexivity. }
  assert (Q : forall x, sensor_volt_outside64 (Some (nan64, nan64)) (Some x) = Ok false).
  { intros x. cbn [sensor_volt_outside64]. destruct (nan_lt x) as [-> ->]. reflexivity. }
  rewrite !P, !Q. reflexivity.
Qed.
Lemma inside_real lo hi x : finite lo -> finite hi -> inside (Some (lo, hi)) x -> finite x /\ real_of lo <= real_of x <= real_of hi.
Proof.
  intros Lo Hi I. pose proof (inside_finite lo hi x Lo Hi I) as F. split; [exact F|]. destruct I as [H1 H2].
  rewrite Bleb_correct in H1, H2 by assumption. unfold real_of.
  destruct (Rle_bool_spec (B2R lo) (B2R x)); [|discriminate]. destruct (Rle_bool_spec (B2R x) (B2R hi)); [|discriminate]. lra.
Qed.
Lemma nan_passes l s1 s2 res : In nan64 s1 -> In nan64 s2 -> length s1 = 2%nat -> length s2 = 2%nat -> too_long res = false -> too_small res = false ->
  check_measure64 true l s1 s2 (Some nan64) (Some nan64) res = Ok tt /\
  check_sensor_scan64 true l s1 s2 (Some nan64) (Some nan64) res = Ok tt /\
  ~ (forall a l' s1' s2' v1 v2 res', al_g1 l' = Some a -> limits_are finite (al_g1 l') -> check_measure64 true l' s1' s2' v1 v2 res' = Ok tt -> Forall (inside (al_g1 l')) s1').
Proof.
  intros N1 N2 L1 L2 T1 T2. split; [apply nan_measure; auto|]. split; [apply nan_scan; auto|]. intros H.
  pose (z := (B754_zero false, B754_zero false) : float64 * float64). pose (l' := mk_all_limits (Some z) None None None).
  specialize (H z l' s1 s2 (Some nan64) (Some nan64) res eq_refl (conj eq_refl eq_refl) (nan_measure l' s1 s2 nan64 nan64 res N1 N2 L1 L2 eq_refl eq_refl T1 T2)).
  rewrite Forall_forall in H. destruct (H _ N1) as [X _]. discriminate.
Qed.
Lemma setters_kind x e : set_positive64 x = Err e \/ set_quality64 x = Err e -> e = ValueError.
Proof. unfold set_positive64, set_quality64, raise_if. intros [H|H]; match type of H with (if ?b then _ else _) = _ => destruct b end; congruence. Qed.
