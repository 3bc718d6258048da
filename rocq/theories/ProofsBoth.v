(** Proofs about dot jumps along both plunger gates. *)
From Coq Require Import FunctionalExtensionality.
From Verif Require Import RPrelude Arr ModelSupport ModelTct ModelCsd ModelJumps ModelDistortions ModelSensor ModelSimulation ModelInstance
  ModelNoise SpecSupport SpecTct SpecCsd SpecSensor SpecDistortions SpecJumps SpecInstance SpecNoise SpecBoth ProofsTct ProofsJumps ProofsDistortions ProofsCsd ProofsNoise ProofsReplay.
Local Open Scope R_scope.

Section Long.
Local Open Scope nat_scope.
Context {A : Type}.
Variable isnan : A -> bool.
Variable gen1 : limits -> limits -> nat -> arr1 (A * A) * arr1 A.
Variable gen2 : limits -> limits -> nat * nat -> arr2 (A * A) * arr2 A.
Variable component1 : arr1 (A * A) * arr1 A -> arr1 A.
Variable component2 : arr2 (A * A) * arr2 A -> arr2 A.
Variable empty : nat -> nat -> arr2 A.
Hypothesis empty_shape : forall r c, rows (empty r c) = r /\ cols (empty r c) = c.
Notation run := (jump2d_component isnan gen1 gen2).

(** The noise may be longer than the image. *)
Lemma jump2d_long_1 lim1 lim2 noise img :
  cols img <= length noise ->
  let m := list_max noise in
  let strip := strip_axis_1 gen1 gen2 component1 component2 lim1 lim2 m img in
  (0 < m -> same_shape strip (mk_arr2 (rows img) m (cell img))) ->
  (forall r c, r < rows img -> c < cols img -> isnan (cell img r c) = false) ->
  (forall r c, r < rows img -> c < m -> isnan (cell strip r c) = false) ->
  exists out, run true 1 lim1 lim2 noise false component1 component2 empty img = Ok out /\
    same_shape out img /\
    forall r c, r < rows img -> c < cols img ->
      let s := nth c noise 0 in
      cell out r c = if s <=? c then cell img r (c - s) else cell strip r (m - (s - c)).
Proof.
  intros Hl m strip Hsh Hn1 Hn2.
  destruct (Nat.eq_dec m 0) as [Hz|Hz].
  { unfold jump2d_component. fold m. rewrite Hz. cbn [Nat.ltb Nat.leb andb orb negb Z.eqb Pos.eqb repeat app]. unfold dot_jumps_blockwise. cbn [Z.eqb Pos.eqb].
    destruct (jumps_axis_1_ok isnan img (empty (rows img) (cols img)) noise (empty_shape _ _) Hl) as (out & E & Sh & F).
    rewrite E. cbn [bind]. eexists; split; [reflexivity|]. split; [split; reflexivity|]. intros r c Hr Hc. set (s := nth c noise 0). cbn [cell]. rewrite Nat.add_0_r, F by auto.
    assert (H : s = 0). { assert (s <= m) by (apply list_max_ge, nth_In; lia). lia. }
    fold s. rewrite H. simpl. rewrite Nat.sub_0_r. unfold jumped. rewrite Nat.sub_0_r.
    destruct (isnan (cell img r c)); reflexivity. }
  unfold jump2d_component. fold m.
  assert ((true && (0 <? m))%bool = true) as -> by (simpl; apply Nat.ltb_lt; lia).
  cbn [Z.eqb Pos.eqb]. fold strip. destruct (Hsh ltac:(lia)) as [S1 S2]. simpl in S1, S2.
  set (st := hstack strip img).
  unfold dot_jumps_blockwise. cbn [Z.eqb Pos.eqb].
  destruct (jumps_axis_1_ok isnan st (empty (rows st) (cols st)) (repeat 0 m ++ noise)) as (out & E & Sh & F).
  { apply empty_shape. } { rewrite app_length, repeat_length; simpl; lia. }
  rewrite E. cbn [bind]. eexists; split; [reflexivity|]. split; [split; reflexivity|]. simpl. intros r c Hr Hc.
  rewrite F by (simpl; lia). rewrite nth_repeat_app. unfold jumped.
  set (s := nth c noise 0). assert (Hs : s <= m) by (apply list_max_ge, nth_In; lia).
  simpl. rewrite S2. destruct (Nat.leb_spec s c).
  - destruct (Nat.ltb_spec (c + m - s) m); [lia|].
    rewrite (Hn1 r (c + m - s - m)) by lia. f_equal. lia.
  - destruct (Nat.ltb_spec (c + m - s) m); [|lia].
    rewrite (Hn2 r (c + m - s)) by lia. f_equal. lia.
Qed.
Lemma jump2d_long_0 lim1 lim2 noise img :
  rows img <= length noise ->
  let m := list_max noise in
  let strip := strip_axis_0 gen1 gen2 component1 component2 lim1 lim2 m img in
  (0 < m -> same_shape strip (mk_arr2 m (cols img) (cell img))) ->
  (forall r c, r < rows img -> c < cols img -> isnan (cell img r c) = false) ->
  (forall r c, r < m -> c < cols img -> isnan (cell strip r c) = false) ->
  exists out, run true 0 lim1 lim2 noise false component1 component2 empty img = Ok out /\
    same_shape out img /\
    forall r c, r < rows img -> c < cols img ->
      let s := nth r noise 0 in
      cell out r c = if s <=? r then cell img (r - s) c else cell strip (m - (s - r)) c.
Proof.
  intros Hl m strip Hsh Hn1 Hn2.
  destruct (Nat.eq_dec m 0) as [Hz|Hz].
  { unfold jump2d_component. fold m. rewrite Hz. cbn [Nat.ltb Nat.leb andb orb negb Z.eqb Pos.eqb repeat app]. unfold dot_jumps_blockwise. cbn [Z.eqb Pos.eqb].
    destruct (jumps_axis_0_ok isnan img (empty (rows img) (cols img)) noise (empty_shape _ _) Hl) as (out & E & Sh & F).
    rewrite E. cbn [bind]. eexists; split; [reflexivity|]. split; [split; reflexivity|]. intros r c Hr Hc. set (s := nth r noise 0). cbn [cell]. rewrite Nat.add_0_r, F by auto.
    assert (H : s = 0). { assert (s <= m) by (apply list_max_ge, nth_In; lia). lia. }
    fold s. rewrite H. simpl. rewrite Nat.sub_0_r. unfold jumped. rewrite Nat.sub_0_r.
    destruct (isnan (cell img r c)); reflexivity. }
  unfold jump2d_component. fold m.
  assert ((true && (0 <? m))%bool = true) as -> by (simpl; apply Nat.ltb_lt; lia).
  cbn [Z.eqb Pos.eqb]. fold strip. destruct (Hsh ltac:(lia)) as [S1 S2]. simpl in S1, S2.
  set (st := vstack strip img).
  unfold dot_jumps_blockwise. cbn [Z.eqb Pos.eqb].
  destruct (jumps_axis_0_ok isnan st (empty (rows st) (cols st)) (repeat 0 m ++ noise)) as (out & E & Sh & F).
  { apply empty_shape. } { rewrite app_length, repeat_length; simpl; lia. }
  rewrite E. cbn [bind]. eexists; split; [reflexivity|]. split; [split; reflexivity|]. simpl. intros r c Hr Hc.
  rewrite F by (simpl; lia). rewrite nth_repeat_app. unfold jumped.
  set (s := nth r noise 0). assert (Hs : s <= m) by (apply list_max_ge, nth_In; lia).
  simpl. rewrite S1. destruct (Nat.leb_spec s r).
  - destruct (Nat.ltb_spec (r + m - s) m); [lia|].
    rewrite (Hn1 (r + m - s - m) c) by lia. f_equal. lia.
  - destruct (Nat.ltb_spec (r + m - s) m); [|lia].
    rewrite (Hn2 (r + m - s) c) by lia. f_equal. lia.
Qed.
End Long.

Section Both.
Context {G : Type}.
Variable src : sources G.
Notation world := (noise_world G).

(** ** One component of the data *)
Lemma component_1 gen1 gen2 junk (comp1 : arr1 (option R * option R) * arr1 (option R) -> arr1 (option R)) comp2 l1 l2 noise img (sv : nat -> nat -> option R) :
  let m := list_max noise in
  let step := (snd l1 - fst l1) / INR (cols img) in
  (cols img <= length noise)%nat -> (m = 1%nat -> nth 0 noise 0%nat = 0%nat /\ forall i, (i < rows img)%nat -> is_nan (cell1 (comp1 (gen1 (fst l1 - INR m * step, fst l1 - step) l2 (rows img))) i) = false) ->
  (forall r c, (r < rows img)%nat -> (c < cols img)%nat -> is_nan (cell img r c) = false) ->
  ((1 < m)%nat -> let d := comp2 (gen2 (fst l1 - INR m * step, fst l1 - step) l2 (m, rows img)) in
     rows d = rows img /\ cols d = m /\ forall r c, (r < rows img)%nat -> (c < m)%nat -> cell d r c = sv r c /\ is_nan (sv r c) = false) ->
  exists out, jump2d_component is_nan gen1 gen2 true 1 l1 l2 noise false comp1 comp2 (fun r c => mk_arr2 r c junk) img = Ok out /\
    same_shape out img /\ forall r c, (r < rows img)%nat -> (c < cols img)%nat ->
      let s := nth c noise 0%nat in cell out r c = if (s <=? c)%nat then cell img r (c - s) else sv r (m - (s - c))%nat.
Proof.
  intros m step Ln M1 Nv St. set (strip := strip_axis_1 gen1 gen2 comp1 comp2 l1 l2 m img).
  assert (Sp : (1 < m)%nat -> rows strip = rows img /\ cols strip = m /\ forall r c, (r < rows img)%nat -> (c < m)%nat -> cell strip r c = sv r c /\ is_nan (sv r c) = false).
  { intros L. specialize (St L). unfold strip, strip_axis_1. rewrite (proj2 (Nat.ltb_lt 1 m) L). exact St. }
  destruct (jump2d_long_1 is_nan gen1 gen2 comp1 comp2 (fun r c => mk_arr2 r c junk) ltac:(split; reflexivity) l1 l2 noise img Ln) as (out & E & Sh & V).
  { intros Hm. fold m in Hm |- *. fold strip. destruct (le_lt_dec m 1) as [L|L].
    - unfold strip, strip_axis_1. rewrite (proj2 (Nat.ltb_ge 1 m) L). split; reflexivity.
    - destruct (Sp L) as (A & B & _). split; [exact A|exact B]. }
  { exact Nv. }
  { intros r c Hr Hc. fold m in Hc |- *. fold strip. destruct (le_lt_dec m 1) as [L|L].
    - unfold strip, strip_axis_1. rewrite (proj2 (Nat.ltb_ge 1 m) L). cbn [cell]. apply M1; [lia|exact Hr].
    - destruct (Sp L) as (_ & _ & B). destruct (B r c Hr Hc) as [-> C]. exact C. }
  exists out. split; [exact E|]. split; [exact Sh|]. intros r c Hr Hc. rewrite V by auto. cbv zeta.
  destruct (Nat.leb_spec (nth c noise 0%nat) c) as [H|H]; [reflexivity|]. fold m strip.
  assert (nth c noise 0 <= m)%nat by (apply list_max_ge, nth_In; lia).
  assert (L : (1 < m)%nat). { destruct (le_lt_dec m 1) as [L|L]; [|exact L]. assert (m = 1%nat) as Q by lia. assert (c = 0%nat) by lia. subst c. destruct (M1 Q). lia. }
  destruct (Sp L) as (_ & _ & B). apply B; [exact Hr|lia].
Qed.
Lemma component_0 gen1 gen2 junk (comp1 : arr1 (option R * option R) * arr1 (option R) -> arr1 (option R)) comp2 l1 l2 noise img (sv : nat -> nat -> option R) :
  let m := list_max noise in
  let step := (snd l2 - fst l2) / INR (rows img) in
  (rows img <= length noise)%nat -> (m = 1%nat -> nth 0 noise 0%nat = 0%nat /\ forall i, (i < cols img)%nat -> is_nan (cell1 (comp1 (gen1 l1 (fst l2 - INR m * step, fst l2 - step) (cols img))) i) = false) ->
  (forall r c, (r < rows img)%nat -> (c < cols img)%nat -> is_nan (cell img r c) = false) ->
  ((1 < m)%nat -> let d := comp2 (gen2 l1 (fst l2 - INR m * step, fst l2 - step) (cols img, m)) in
     rows d = m /\ cols d = cols img /\ forall r c, (r < m)%nat -> (c < cols img)%nat -> cell d r c = sv r c /\ is_nan (sv r c) = false) ->
  exists out, jump2d_component is_nan gen1 gen2 true 0 l1 l2 noise false comp1 comp2 (fun r c => mk_arr2 r c junk) img = Ok out /\
    same_shape out img /\ forall r c, (r < rows img)%nat -> (c < cols img)%nat ->
      let s := nth r noise 0%nat in cell out r c = if (s <=? r)%nat then cell img (r - s) c else sv (m - (s - r))%nat c.
Proof.
  intros m step Ln M1 Nv St. set (strip := strip_axis_0 gen1 gen2 comp1 comp2 l1 l2 m img).
  assert (Sp : (1 < m)%nat -> rows strip = m /\ cols strip = cols img /\ forall r c, (r < m)%nat -> (c < cols img)%nat -> cell strip r c = sv r c /\ is_nan (sv r c) = false).
  { intros L. specialize (St L). unfold strip, strip_axis_0. rewrite (proj2 (Nat.ltb_lt 1 m) L). exact St. }
  destruct (jump2d_long_0 is_nan gen1 gen2 comp1 comp2 (fun r c => mk_arr2 r c junk) ltac:(split; reflexivity) l1 l2 noise img Ln) as (out & E & Sh & V).
  { intros Hm. fold m in Hm |- *. fold strip. destruct (le_lt_dec m 1) as [L|L].
    - unfold strip, strip_axis_0. rewrite (proj2 (Nat.ltb_ge 1 m) L). split; reflexivity.
    - destruct (Sp L) as (A & B & _). split; [exact A|exact B]. }
  { exact Nv. }
  { intros r c Hr Hc. fold m in Hr |- *. fold strip. destruct (le_lt_dec m 1) as [L|L].
    - unfold strip, strip_axis_0. rewrite (proj2 (Nat.ltb_ge 1 m) L). cbn [cell]. apply M1; [lia|exact Hc].
    - destruct (Sp L) as (_ & _ & B). destruct (B r c Hr Hc) as [-> C]. exact C. }
  exists out. split; [exact E|]. split; [exact Sh|]. intros r c Hr Hc. rewrite V by auto. cbv zeta.
  destruct (Nat.leb_spec (nth r noise 0%nat) r) as [H|H]; [reflexivity|]. fold m strip.
  assert (nth r noise 0 <= m)%nat by (apply list_max_ge, nth_In; lia).
  assert (L : (1 < m)%nat). { destruct (le_lt_dec m 1) as [L|L]; [|exact L]. assert (m = 1%nat) as Q by lia. assert (r = 0%nat) by lia. subst r. destruct (M1 Q). lia. }
  destruct (Sp L) as (_ & _ & B). apply B; [lia|exact Hc].
Qed.

(** ** Frozen jumps *)
Lemma frozen_1 k ratio scale lam (gen : generator world lead_mask) w o t l1 l2 noise so st :
  w_jump w k = mk_jump_state (Some true) (Some noise) -> (cols o <= length noise)%nat -> same_shape t o -> fst l1 < snd l1 -> fst l2 < snd l2 -> nth 0 noise 0%nat = 0%nat ->
  let m := list_max noise in let step := (snd l1 - fst l1) / INR (cols o) in
  ((1 < m)%nat -> gen (fst l1 - INR m * step, fst l1 - step) l2 (ResArray [Z.of_nat m; Z.of_nat (rows o)]) w = (Ok (Occ2 so, Lead2 st), w) /\
     rows so = rows o /\ cols so = m /\ same_shape st so) ->
  (m = 1%nat -> exists a l, gen (fst l1 - INR m * step, fst l1 - step) l2 (ResInt (Z.of_nat (rows o))) w = (Ok (Occ1 a, Lead1 l), w)) ->
  exists o' t', od_noise (occ_object src (Jumps k 1 ratio scale lam)) (Occ2 o) (Lead2 t) l1 l2 gen true w = (Ok ((Occ2 o', Lead2 t'), (Occ2 o', Lead2 t')), w) /\
    rows o' = rows o /\ cols o' = cols o /\ same_shape t' o' /\
    forall r c, (r < rows o)%nat -> (c < cols o)%nat -> let s := nth c noise 0%nat in
      cell o' r c = if (s <=? c)%nat then cell o r (c - s) else cell so r (m - (s - c)).
Proof.
  intros Hk Ln [Rt Ct] H1 H2 Z0 m step St Li. cbn [occ_object jumps_object od_noise jump_scan].
  unfold jump_draw. rewrite Hk. cbn [js_activated js_noise negb andb]. rewrite <- Hk, set_same, world_eta. cbn [scan_shape].
  change (rows (amap2 lift_occ o)) with (rows o). change (cols (amap2 lift_occ o)) with (cols o).
  assert (Rc : run_calls gen (jump_calls 1 noise (Shape2 (rows o) (cols o)) l1 l2) w = (Ok tt, w)).
  { unfold jump_calls. rewrite !sort_id by lra. cbn [Z.eqb Pos.eqb]. fold m step. destruct (Nat.ltb_spec 0 m) as [Hm|Hm]; [|reflexivity].
    destruct (le_lt_dec m 1) as [L|L].
    - rewrite (proj2 (Nat.ltb_ge 1 m) L). cbn [run_calls]. unfold mbind. destruct (Li ltac:(lia)) as (a & l & ->). reflexivity.
    - rewrite (proj2 (Nat.ltb_lt 1 m) L). cbn [run_calls]. unfold mbind. destruct (St L) as [-> _]. reflexivity. }
  unfold mbind. rewrite Rc. unfold jump_apply. rewrite !sort_id by lra. rewrite !descending_false by lra. cbv iota beta.
  assert (G2 : (1 < m)%nat -> generated2 gen w (fst l1 - INR m * step, fst l1 - step) l2 (m, rows o) = (amap2 lift_occ so, amap2 (fun n => Some (INR n)) st)).
  { intros L. unfold generated2. cbn [fst snd]. destruct (St L) as [-> _]. reflexivity. }
  assert (G1 : m = 1%nat -> exists a l, generated1 gen w (fst l1 - INR m * step, fst l1 - step) l2 (rows o) = (amap1 lift_occ a, amap1 (fun n => Some (INR n)) (of_list1 0%nat l))).
  { intros L. unfold generated1. destruct (Li L) as (a & l & ->). now exists a, l. }
  destruct (component_1 (generated1 gen w) (generated2 gen w) (src_empty src) (fun d => amap1 fst (fst d)) (fun d => amap2 fst (fst d)) l1 l2 noise (amap2 fst (amap2 lift_occ o))
     (fun r c => Some (fst (cell so r c))) Ln) as (o1 & E1 & [S1 S1'] & V1).
  { fold m. cbn [amap2 rows cols]. intros L. split; [exact Z0|]. fold step. destruct (G1 L) as (a & l & ->). reflexivity. }
  { reflexivity. }
  { fold m. cbn [amap2 rows cols]. intros L. fold step. rewrite (G2 L). destruct (St L) as (_ & A & B & _). cbn. auto. }
  destruct (component_1 (generated1 gen w) (generated2 gen w) (src_empty src) (fun d => amap1 snd (fst d)) (fun d => amap2 snd (fst d)) l1 l2 noise (amap2 snd (amap2 lift_occ o))
     (fun r c => Some (snd (cell so r c))) Ln) as (o2 & E2 & [S2 S2'] & V2).
  { fold m. cbn [amap2 rows cols]. intros L. split; [exact Z0|]. fold step. destruct (G1 L) as (a & l & ->). reflexivity. }
  { reflexivity. }
  { fold m. cbn [amap2 rows cols]. intros L. fold step. rewrite (G2 L). destruct (St L) as (_ & A & B & _). cbn. auto. }
  destruct (component_1 (generated1 gen w) (generated2 gen w) (src_empty src) snd snd l1 l2 noise (amap2 (fun n => Some (INR n)) t)
     (fun r c => Some (INR (cell st r c)))) as (o3 & E3 & [S3 S3'] & V3).
  { cbn. rewrite Ct. exact Ln. } { fold m. cbn [amap2 rows cols]. intros L. split; [exact Z0|]. rewrite Rt, Ct. fold step. destruct (G1 L) as (a & l & ->). reflexivity. } { reflexivity. }
  { fold m. cbn [amap2 rows cols]. intros L. rewrite Rt, Ct. fold step. rewrite (G2 L). destruct (St L) as (_ & A & B & C & D). cbn. split; [congruence|]. split; [congruence|auto]. }
  rewrite E1, E2. cbn [bind option_mapM]. rewrite E3. cbn [bind option_map scan_jump].
  do 2 eexists. split; [reflexivity|]. cbn in S1, S1', S2, S2', S3, S3'. cbn [amap2 zip2 rows cols cell].
  split; [congruence|]. split; [congruence|]. split; [split; cbn; congruence|].
  intros r c Hr Hc. cbn in V1, V2. rewrite V1, V2 by assumption. fold m. unfold drop_occ. cbn [fst snd].
  destruct (_ <=? _)%nat; cbn [number]; [destruct (cell o r _)|destruct (cell so r _)]; reflexivity.
Qed.
Lemma frozen_0 k ratio scale lam (gen : generator world lead_mask) w o t l1 l2 noise so st :
  w_jump w k = mk_jump_state (Some true) (Some noise) -> (rows o <= length noise)%nat -> same_shape t o -> fst l1 < snd l1 -> fst l2 < snd l2 -> nth 0 noise 0%nat = 0%nat ->
  let m := list_max noise in let step := (snd l2 - fst l2) / INR (rows o) in
  ((1 < m)%nat -> gen l1 (fst l2 - INR m * step, fst l2 - step) (ResArray [Z.of_nat (cols o); Z.of_nat m]) w = (Ok (Occ2 so, Lead2 st), w) /\
     rows so = m /\ cols so = cols o /\ same_shape st so) ->
  (m = 1%nat -> exists a l, gen l1 (fst l2 - INR m * step, fst l2 - step) (ResInt (Z.of_nat (cols o))) w = (Ok (Occ1 a, Lead1 l), w)) ->
  exists o' t', od_noise (occ_object src (Jumps k 0 ratio scale lam)) (Occ2 o) (Lead2 t) l1 l2 gen true w = (Ok ((Occ2 o', Lead2 t'), (Occ2 o', Lead2 t')), w) /\
    rows o' = rows o /\ cols o' = cols o /\ same_shape t' o' /\
    forall r c, (r < rows o)%nat -> (c < cols o)%nat -> let s := nth r noise 0%nat in
      cell o' r c = if (s <=? r)%nat then cell o (r - s) c else cell so (m - (s - r)) c.
Proof.
  intros Hk Ln [Rt Ct] H1 H2 Z0 m step St Li. cbn [occ_object jumps_object od_noise jump_scan].
  unfold jump_draw. rewrite Hk. cbn [js_activated js_noise negb andb]. rewrite <- Hk, set_same, world_eta. cbn [scan_shape].
  change (rows (amap2 lift_occ o)) with (rows o). change (cols (amap2 lift_occ o)) with (cols o).
  assert (Rc : run_calls gen (jump_calls 0 noise (Shape2 (rows o) (cols o)) l1 l2) w = (Ok tt, w)).
  { unfold jump_calls. rewrite !sort_id by lra. cbn [Z.eqb Pos.eqb]. fold m step. destruct (Nat.ltb_spec 0 m) as [Hm|Hm]; [|reflexivity].
    destruct (le_lt_dec m 1) as [L|L].
    - rewrite (proj2 (Nat.ltb_ge 1 m) L). cbn [run_calls]. unfold mbind. destruct (Li ltac:(lia)) as (a & l & ->). reflexivity.
    - rewrite (proj2 (Nat.ltb_lt 1 m) L). cbn [run_calls]. unfold mbind. destruct (St L) as [-> _]. reflexivity. }
  unfold mbind. rewrite Rc. unfold jump_apply. rewrite !sort_id by lra. rewrite !descending_false by lra. cbv iota beta.
  assert (G2 : (1 < m)%nat -> generated2 gen w l1 (fst l2 - INR m * step, fst l2 - step) (cols o, m) = (amap2 lift_occ so, amap2 (fun n => Some (INR n)) st)).
  { intros L. unfold generated2. cbn [fst snd]. destruct (St L) as [-> _]. reflexivity. }
  assert (G1 : m = 1%nat -> exists a l, generated1 gen w l1 (fst l2 - INR m * step, fst l2 - step) (cols o) = (amap1 lift_occ a, amap1 (fun n => Some (INR n)) (of_list1 0%nat l))).
  { intros L. unfold generated1. destruct (Li L) as (a & l & ->). now exists a, l. }
  destruct (component_0 (generated1 gen w) (generated2 gen w) (src_empty src) (fun d => amap1 fst (fst d)) (fun d => amap2 fst (fst d)) l1 l2 noise (amap2 fst (amap2 lift_occ o))
     (fun r c => Some (fst (cell so r c))) Ln) as (o1 & E1 & [S1 S1'] & V1).
  { fold m. cbn [amap2 rows cols]. intros L. split; [exact Z0|]. fold step. destruct (G1 L) as (a & l & ->). reflexivity. }
  { reflexivity. }
  { fold m. cbn [amap2 rows cols]. intros L. fold step. rewrite (G2 L). destruct (St L) as (_ & A & B & _). cbn. auto. }
  destruct (component_0 (generated1 gen w) (generated2 gen w) (src_empty src) (fun d => amap1 snd (fst d)) (fun d => amap2 snd (fst d)) l1 l2 noise (amap2 snd (amap2 lift_occ o))
     (fun r c => Some (snd (cell so r c))) Ln) as (o2 & E2 & [S2 S2'] & V2).
  { fold m. cbn [amap2 rows cols]. intros L. split; [exact Z0|]. fold step. destruct (G1 L) as (a & l & ->). reflexivity. }
  { reflexivity. }
  { fold m. cbn [amap2 rows cols]. intros L. fold step. rewrite (G2 L). destruct (St L) as (_ & A & B & _). cbn. auto. }
  destruct (component_0 (generated1 gen w) (generated2 gen w) (src_empty src) snd snd l1 l2 noise (amap2 (fun n => Some (INR n)) t)
     (fun r c => Some (INR (cell st r c)))) as (o3 & E3 & [S3 S3'] & V3).
  { cbn. rewrite Rt. exact Ln. } { fold m. cbn [amap2 rows cols]. intros L. split; [exact Z0|]. rewrite Rt, Ct. fold step. destruct (G1 L) as (a & l & ->). reflexivity. } { reflexivity. }
  { fold m. cbn [amap2 rows cols]. intros L. rewrite Rt, Ct. fold step. rewrite (G2 L). destruct (St L) as (_ & A & B & C & D). cbn. split; [congruence|]. split; [congruence|auto]. }
  rewrite E1, E2. cbn [bind option_mapM]. rewrite E3. cbn [bind option_map scan_jump].
  do 2 eexists. split; [reflexivity|]. cbn in S1, S1', S2, S2', S3, S3'. cbn [amap2 zip2 rows cols cell].
  split; [congruence|]. split; [congruence|]. split; [split; cbn; congruence|].
  intros r c Hr Hc. cbn in V1, V2. rewrite V1, V2 by assumption. fold m. unfold drop_occ. cbn [fst snd].
  destruct (_ <=? _)%nat; cbn [number]; [destruct (cell o _ c)|destruct (cell so _ c)]; reflexivity.
Qed.
Lemma frozen_off k axis ratio scale lam (gen : generator world lead_mask) w o t l1 l2 : js_activated (w_jump w k) <> Some true ->
  od_noise (occ_object src (Jumps k axis ratio scale lam)) (Occ2 o) (Lead2 t) l1 l2 gen true w = (Ok ((Occ2 o, Lead2 t), (Occ2 o, Lead2 t)), w).
Proof.
  intros H. cbn [occ_object jumps_object od_noise jump_scan]. unfold jump_draw.
  destruct (js_activated (w_jump w k)) as [[|]|]; [now contradiction H| |]; cbn [negb andb]; now rewrite set_same, world_eta.
Qed.

Definition good (st : jump_state) (n : nat) : Prop :=
  js_activated st <> Some true \/ exists noise, st = mk_jump_state (Some true) (Some noise) /\ length noise = n /\ nth 0 noise 0%nat = 0%nat.
(** a noise at least as long as the scan *)
Definition fits (st : jump_state) (n : nat) : Prop :=
  js_activated st <> Some true \/ exists noise, st = mk_jump_state (Some true) (Some noise) /\ (n <= length noise)%nat /\ nth 0 noise 0%nat = 0%nat.
Lemma good_fits st n : good st n -> fits st n.
Proof. intros [H|(noise & E & L & Z)]; [now left|]. right. exists noise. split; [exact E|]. split; [lia|exact Z]. Qed.
Definition lines (gen : generator world lead_mask) (w : world) (n : nat) : Prop :=
  forall l1 l2, fst l1 <= snd l1 -> fst l2 <= snd l2 ->
  exists a l, gen l1 l2 (ResInt (Z.of_nat n)) w = (Ok (Occ1 a, Lead1 l), w) /\ len1 a = n /\ length l = n.
Lemma shifted_weak l s step : fst l <= snd l -> fst (shifted_limits l s step) <= snd (shifted_limits l s step).
Proof. unfold shifted_limits. cbn [fst snd]. lra. Qed.
Lemma frozen_line k axis ratio scale lam (gen : generator world lead_mask) w n : (axis = 0 \/ axis = 1)%Z -> good (w_jump w k) n -> lines gen w n ->
  lines (with_noise gen (occ_object src (Jumps k axis ratio scale lam))) w n.
Proof.
  intros Ax Gd Li l1 l2 H1 H2. destruct (Li l1 l2 H1 H2) as (a & l & E & La & Ll). unfold with_noise, mbind. rewrite E. cbn [fst snd].
  cbn [occ_object jumps_object od_noise jump_scan]. unfold jump_draw. destruct Gd as [Off|(noise & Hk & Ln & _)].
  - exists a, l. destruct (js_activated (w_jump w k)) as [[|]|]; [now contradiction Off| |]; cbn [negb andb]; rewrite set_same, world_eta; auto.
  - rewrite Hk. cbn [js_activated js_noise negb andb]. rewrite <- Hk, set_same, world_eta. cbn [scan_shape].
    change (len1 (amap1 lift_occ a)) with (len1 a). rewrite La.
    assert (Rc : run_calls gen (jump_calls axis noise (Shape1 n) l1 l2) w = (Ok tt, w)).
    { unfold jump_calls. rewrite !sort_id by lra. destruct (_ <? _)%nat; [|reflexivity].
      destruct Ax as [-> | ->]; cbn [Z.eqb Pos.eqb]; (induction (seq 0 (list_max noise)) as [|q qs IH]; [reflexivity|]; cbn [map run_calls]; unfold mbind;
        edestruct (Li _ _ (shifted_weak _ _ _ H1) H2) as (a1 & l1' & E1 & _) || idtac).
      - destruct (Li l1 (shifted_limits l2 (q + 1) ((snd l1 - fst l1) / INR n)) H1 (shifted_weak _ _ _ H2)) as (a2 & t2 & -> & _). exact IH.
      - destruct (Li (shifted_limits l1 (q + 1) ((snd l1 - fst l1) / INR n)) l2 (shifted_weak _ _ _ H1) H2) as (a2 & t2 & -> & _). exact IH. }
    unfold mbind. rewrite Rc. cbv iota beta.
    destruct (jump_apply_1d is_nan None eq_refl (src_empty src) (generated1 gen w) (generated2 gen w) axis noise (amap1 lift_occ a)
      (amap1 (fun n => Some (INR n)) (of_list1 0%nat l)) l1 l2 Ax H1 H2) as (o' & t' & Ea & Lo & Lt & _).
    { cbn. congruence. } { cbn. congruence. }
    { intros s _. cbn [amap1 len1]. rewrite La.
      assert (Q : forall x y, fst x <= snd x -> fst y <= snd y -> exists a' l', generated1 gen w x y n = (amap1 lift_occ a', amap1 (fun n => Some (INR n)) (of_list1 0%nat l'))).
      { intros x y Hx Hy. unfold generated1. destruct (Li x y Hx Hy) as (a' & l' & -> & _). now exists a', l'. }
      destruct (axis =? 1)%Z.
      - destruct (Q (shifted_limits l1 s ((snd l1 - fst l1) / INR n)) l2 (shifted_weak _ _ _ H1) H2) as (a' & l' & ->). split; [split|]; reflexivity.
      - destruct (Q l1 (shifted_limits l2 s ((snd l1 - fst l1) / INR n)) H1 (shifted_weak _ _ _ H2)) as (a' & l' & ->). split; [split|]; reflexivity. }
    rewrite Ea. cbn [bind scan_jump]. do 2 eexists. split; [reflexivity|]. cbn [fst]. cbn [amap1 len1] in Lo, Lt |- *. split; [congruence|].
    unfold to_list1. rewrite map_length, seq_length. cbn [amap1 len1]. congruence.
Qed.

(** ** What is shown *)
Lemma strip_voltage a m step i : (i < m)%nat -> (1 < m)%nat -> pixel_voltage (a - INR m * step, a - step) m i = a - INR (m - i) * step.
Proof.
  intros Hi Hm. replace i with (m - (m - i))%nat at 1 by lia. rewrite <- (strip_position a m step (m - i)) by lia.
  unfold pixel_voltage, grid_point. reflexivity.
Qed.
Lemma height_off st i : js_activated st <> Some true -> height_of st i = 0%nat.
Proof. unfold height_of. destruct (js_activated st) as [[|]|]; congruence. Qed.
Lemma displaced_0 l n i : displaced l n 0 i = pixel_voltage l n i.
Proof. unfold displaced. cbn [Nat.leb]. now rewrite Nat.sub_0_r. Qed.
Lemma step_1 k ratio scale lam (gen : generator world lead_mask) w l1 l2 c r f y : fst l1 < snd l1 -> fst l2 < snd l2 -> (1 < c)%nat ->
  fits (w_jump w k) c -> lines gen w r ->
  (forall l1' c', fst l1' < snd l1' -> (1 < c')%nat -> exists ol, gen l1' l2 (ResArray [Z.of_nat c'; Z.of_nat r]) w = (Ok ol, w) /\ shows f (pixel_voltage l1' c') y r c' ol) ->
  exists ol, with_noise gen (occ_object src (Jumps k 1 ratio scale lam)) l1 l2 (ResArray [Z.of_nat c; Z.of_nat r]) w = (Ok ol, w) /\
    shows f (fun j => displaced l1 c (height_of (w_jump w k) j) j) y r c ol.
Proof.
  intros H1 H2 Hc Gd Li Sg. destruct (Sg l1 c H1 Hc) as (ol & Eg & o & t & -> & Ro & Co & Sh & V).
  unfold with_noise, mbind. rewrite Eg. cbn [fst snd].
  destruct Gd as [Off|(noise & Hk & Ln & Z0)].
  - rewrite frozen_off by exact Off. unfold ret. eexists. split; [reflexivity|]. exists o, t. repeat split; auto; try apply Sh.
    intros i j Hi Hj. rewrite height_off, displaced_0 by exact Off. now apply V.
  - set (m := list_max noise). set (step := (snd l1 - fst l1) / INR (cols o)).
    assert (Ps : 0 < step). { unfold step. apply Rdiv_lt_0_compat; [lra|]. rewrite Co. apply lt_0_INR. lia. }
    assert (Sr : (1 < m)%nat -> exists ol', gen (fst l1 - INR m * step, fst l1 - step) l2 (ResArray [Z.of_nat m; Z.of_nat r]) w = (Ok ol', w) /\
       shows f (pixel_voltage (fst l1 - INR m * step, fst l1 - step) m) y r m ol').
    { intros L. apply Sg; [|exact L]. cbn [fst snd]. apply lt_INR in L. change (INR 1) with 1 in L. nra. }
    assert (Pk : exists so st, (1 < m)%nat -> gen (fst l1 - INR m * step, fst l1 - step) l2 (ResArray [Z.of_nat m; Z.of_nat (rows o)]) w = (Ok (Occ2 so, Lead2 st), w) /\
       rows so = rows o /\ cols so = m /\ same_shape st so /\ forall i j, (i < r)%nat -> (j < m)%nat -> cell so i j = f (fst l1 - INR (m - j) * step) (y i)).
    { destruct (le_lt_dec m 1) as [L|L]; [exists o, t; lia|]. destruct (Sr L) as (ol' & Es & so & st & -> & Rs & Cs & Ss & Vs).
      exists so, st. intros _. rewrite Ro. repeat split; auto; try apply Ss. intros i j Hi Hj. rewrite Vs by assumption. now rewrite strip_voltage. }
    destruct Pk as (so & st & Pk).
    destruct (frozen_1 k ratio scale lam gen w o t l1 l2 noise so st Hk ltac:(lia) Sh H1 H2 Z0) as (o' & t' & E & R' & C' & S' & V').
    { fold m step. intros L. destruct (Pk L) as (A & B & C & D & _). auto. }
    { fold m step. intros L. rewrite L, Ro. change (INR 1) with 1. destruct (Li (fst l1 - 1 * step, fst l1 - step) l2) as (a' & b' & Eb & _); [cbn [fst snd]; lra|cbn [fst snd]; lra|]. now exists a', b'. }
    rewrite E. unfold ret. eexists. split; [reflexivity|]. cbn [fst]. exists o', t'. split; [reflexivity|]. split; [congruence|]. split; [congruence|]. split; [exact S'|].
    intros i j Hi Hj. rewrite V' by congruence. fold m. unfold height_of. rewrite Hk. cbn [js_activated js_noise]. unfold displaced.
    destruct (Nat.leb_spec (nth j noise 0%nat) j) as [L|L].
    + apply V; [exact Hi|lia].
    + assert (nth j noise 0 <= m)%nat by (apply list_max_ge, nth_In; lia).
      assert (Lm : (1 < m)%nat). { destruct (Nat.eq_dec j 0) as [Q|Q]; [subst j; lia|lia]. }
      destruct (Pk Lm) as (_ & _ & _ & _ & Vs). rewrite Vs by (try exact Hi; lia).
      replace (m - (m - (nth j noise 0 - j)))%nat with (nth j noise 0 - j)%nat by lia. unfold step. now rewrite Co.
Qed.
Lemma step_0 k ratio scale lam (gen : generator world lead_mask) w l1 l2 c r f x : fst l1 < snd l1 -> fst l2 < snd l2 -> (1 < r)%nat ->
  fits (w_jump w k) r -> lines gen w c ->
  (forall l2' r', fst l2' < snd l2' -> (1 < r')%nat -> exists ol, gen l1 l2' (ResArray [Z.of_nat c; Z.of_nat r']) w = (Ok ol, w) /\ shows f x (pixel_voltage l2' r') r' c ol) ->
  exists ol, with_noise gen (occ_object src (Jumps k 0 ratio scale lam)) l1 l2 (ResArray [Z.of_nat c; Z.of_nat r]) w = (Ok ol, w) /\
    shows f x (fun i => displaced l2 r (height_of (w_jump w k) i) i) r c ol.
Proof.
  intros H1 H2 Hr Gd Li Sg. destruct (Sg l2 r H2 Hr) as (ol & Eg & o & t & -> & Ro & Co & Sh & V).
  unfold with_noise, mbind. rewrite Eg. cbn [fst snd].
  destruct Gd as [Off|(noise & Hk & Ln & Z0)].
  - rewrite frozen_off by exact Off. unfold ret. eexists. split; [reflexivity|]. exists o, t. repeat split; auto; try apply Sh.
    intros i j Hi Hj. rewrite height_off, displaced_0 by exact Off. now apply V.
  - set (m := list_max noise). set (step := (snd l2 - fst l2) / INR (rows o)).
    assert (Ps : 0 < step). { unfold step. apply Rdiv_lt_0_compat; [lra|]. rewrite Ro. apply lt_0_INR. lia. }
    assert (Sr : (1 < m)%nat -> exists ol', gen l1 (fst l2 - INR m * step, fst l2 - step) (ResArray [Z.of_nat c; Z.of_nat m]) w = (Ok ol', w) /\
       shows f x (pixel_voltage (fst l2 - INR m * step, fst l2 - step) m) m c ol').
    { intros L. apply Sg; [|exact L]. cbn [fst snd]. apply lt_INR in L. change (INR 1) with 1 in L. nra. }
    assert (Pk : exists so st, (1 < m)%nat -> gen l1 (fst l2 - INR m * step, fst l2 - step) (ResArray [Z.of_nat (cols o); Z.of_nat m]) w = (Ok (Occ2 so, Lead2 st), w) /\
       rows so = m /\ cols so = cols o /\ same_shape st so /\ forall i j, (i < m)%nat -> (j < c)%nat -> cell so i j = f (x j) (fst l2 - INR (m - i) * step)).
    { destruct (le_lt_dec m 1) as [L|L]; [exists o, t; lia|]. destruct (Sr L) as (ol' & Es & so & st & -> & Rs & Cs & Ss & Vs).
      exists so, st. intros _. rewrite Co. repeat split; auto; try apply Ss. intros i j Hi Hj. rewrite Vs by assumption. now rewrite strip_voltage. }
    destruct Pk as (so & st & Pk).
    destruct (frozen_0 k ratio scale lam gen w o t l1 l2 noise so st Hk ltac:(lia) Sh H1 H2 Z0) as (o' & t' & E & R' & C' & S' & V').
    { fold m step. intros L. destruct (Pk L) as (A & B & C & D & _). auto. }
    { fold m step. intros L. rewrite L, Co. change (INR 1) with 1. destruct (Li l1 (fst l2 - 1 * step, fst l2 - step)) as (a' & b' & Eb & _); [cbn [fst snd]; lra|cbn [fst snd]; lra|]. now exists a', b'. }
    rewrite E. unfold ret. eexists. split; [reflexivity|]. cbn [fst]. exists o', t'. split; [reflexivity|]. split; [congruence|]. split; [congruence|]. split; [exact S'|].
    intros i j Hi Hj. rewrite V' by congruence. fold m. unfold height_of. rewrite Hk. cbn [js_activated js_noise]. unfold displaced.
    destruct (Nat.leb_spec (nth i noise 0%nat) i) as [L|L].
    + apply V; [lia|exact Hj].
    + assert (nth i noise 0 <= m)%nat by (apply list_max_ge, nth_In; lia).
      assert (Lm : (1 < m)%nat). { destruct (Nat.eq_dec i 0) as [Q|Q]; [subst i; lia|lia]. }
      destruct (Pk Lm) as (_ & _ & _ & _ & Vs). rewrite Vs by (try exact Hj; lia).
      replace (m - (m - (nth i noise 0 - i)))%nat with (nth i noise 0 - i)%nat by lia. unfold step. now rewrite Ro.
Qed.

(** ** Both objects *)
Lemma pattern_first size noise : quiet_jump_pattern 0%nat size noise -> nth 0 noise 0%nat = 0%nat.
Proof.
  intros (_ & blocks & A & ->). destruct size as [|size]; [reflexivity|]. destruct blocks as [|[wd h] rest]; [reflexivity|].
  destruct A as (Hw & Hz & _). rewrite (Hz eq_refl). destruct wd as [|wd]; [lia|]. reflexivity.
Qed.
Lemma drawn k axis ratio scale lam (gen : generator world lead_mask) o t l1 l2 w : sources_ok src -> (axis = 0 \/ axis = 1)%Z -> fst l1 < snd l1 -> fst l2 < snd l2 ->
  exists w1, good (w_jump w1 k) (if (axis =? 1)%Z then cols o else rows o) /\ (forall k', k' <> k -> w_jump w1 k' = w_jump w k') /\ w_sigma w1 = w_sigma w /\
    od_noise (occ_object src (Jumps k axis ratio scale lam)) (Occ2 o) (Lead2 t) l1 l2 gen false w =
    od_noise (occ_object src (Jumps k axis ratio scale lam)) (Occ2 o) (Lead2 t) l1 l2 gen true w1.
Proof.
  intros (Sgeo & _) Ax H1 H2. cbn [occ_object jumps_object od_noise jump_scan scan_shape]. unfold jump_draw at 1. cbn [andb].
  destruct (src_binomial src ratio (w_rng w)) as [[|] g1]; cbn [negb].
  2: { exists (mk_noise_world (w_sigma w) (set_key (w_jump w) k (mk_jump_state (Some false) (js_noise (w_jump w k)))) g1). cbn [w_jump w_rng w_sigma]. rewrite set_own.
    split; [left; cbn; discriminate|]. split; [intros k' H; unfold set_key; destruct (Nat.eqb_spec k' k); congruence|]. split; [reflexivity|].
    unfold jump_draw. cbn [js_activated andb negb]. f_equal. f_equal. symmetry. etransitivity; [|apply set_same with (k := k)]. now rewrite set_own. }
  destruct (scale g1) as [sv g2]. destruct (lam g2) as [lv g3].
  assert (Px : exists kk, jump_px_per_volt axis (Shape2 (rows (amap2 lift_occ o)) (cols (amap2 lift_occ o))) l1 l2 = Ok kk).
  { destruct Ax as [-> | ->]; cbn; unfold div_range, volt_range.
    - rewrite Reqb_false by (rewrite Rmax_right, Rmin_left by lra; lra). eauto.
    - rewrite Reqb_false by (rewrite Rmax_right, Rmin_left by lra; lra). eauto. }
  destruct Px as [kk ->]. cbn [bind].
  assert (Sz : jump_size axis (Shape2 (rows (amap2 lift_occ o)) (cols (amap2 lift_occ o))) = Ok (if (axis =? 1)%Z then cols o else rows o)).
  { destruct Ax as [-> | ->]; reflexivity. }
  rewrite Sz. cbn [bind]. set (size := if (axis =? 1)%Z then cols o else rows o).
  match goal with |- context [generate_dot_jumps_blockwise ?p false ?ws size g3] =>
    pose proof (generate_jumps_pattern p ws size g3) as P; destruct (Sgeo (1 / (if Rltb (sv * kk) 1 then 1 else sv * kk)) size g3) as [L Pos];
    destruct (generate_dot_jumps_blockwise p false ws size g3) as [noise g4] end.
  destruct (P Pos L) as [Qp _]. cbn [fst] in Qp. pose proof (pattern_first _ _ Qp) as Q0. destruct Qp as [Q _].
  exists (mk_noise_world (w_sigma w) (set_key (w_jump w) k (mk_jump_state (Some true) (Some noise))) g4). cbn [w_jump w_rng w_sigma]. rewrite set_own.
  split; [right; exists noise; auto|]. split; [intros k' H; unfold set_key; destruct (Nat.eqb_spec k' k); congruence|]. split; [reflexivity|].
  unfold jump_draw. cbn [js_activated js_noise andb negb].
  assert (Es : set_key (set_key (w_jump w) k (mk_jump_state (Some true) (Some noise))) k (mk_jump_state (Some true) (Some noise)) = set_key (w_jump w) k (mk_jump_state (Some true) (Some noise))).
  { etransitivity; [|apply set_same with (k := k)]. now rewrite set_own. }
  rewrite Es. reflexivity.
Qed.

Lemma loop_1_0 k1 k0 ratio1 scale1 lam1 ratio0 scale0 lam0 f (gen : generator world lead_mask) w l1 l2 c r : sources_ok src -> undistorted gen -> samples_2d f gen -> answers_lines gen ->
  k1 <> k0 -> fst l1 < snd l1 -> fst l2 < snd l2 -> (1 < c)%nat -> (1 < r)%nat ->
  exists ol ol' w', gen l1 l2 (ResArray [Z.of_nat c; Z.of_nat r]) w = (Ok ol, w) /\
    occupation_loop (map (occ_object src) [Jumps k1 1 ratio1 scale1 lam1; Jumps k0 0 ratio0 scale0 lam0]) gen l1 l2 ol w = (Ok ol', w') /\
    shows f (fun j => displaced l1 c (height_of (w_jump w' k1) j) j) (fun i => displaced l2 r (height_of (w_jump w' k0) i) i) r c ol'.
Proof.
  intros Sok Ud Sg Al Nk H1 H2 Hc Hr. destruct (Sg l1 l2 c r w H1 H2 Hc Hr) as (a & t & E0 & Ra & Ca & Sa & Va).
  pose proof (undistorted_reads gen Ud) as Rd.
  destruct (drawn k1 1 ratio1 scale1 lam1 gen a t l1 l2 w Sok (or_intror eq_refl) H1 H2) as (w1 & G1 & _ & _ & D1). cbn [Z.eqb Pos.eqb] in G1. rewrite Ca in G1.
  assert (In1 : forall w1, good (w_jump w1 k1) c -> forall l2' r', fst l2' < snd l2' -> (1 < r')%nat ->
    exists ol, with_noise gen (occ_object src (Jumps k1 1 ratio1 scale1 lam1)) l1 l2' (ResArray [Z.of_nat c; Z.of_nat r']) w1 = (Ok ol, w1) /\
      shows f (fun j => displaced l1 c (height_of (w_jump w1 k1) j) j) (pixel_voltage l2' r') r' c ol).
  { clear w1 G1 D1. intros w1 G1 l2' r' H2' Hr'. apply step_1; auto using good_fits. { intros ? ? ? ?. now apply Al. }
    intros l1' c' H1' Hc'. destruct (Sg l1' l2' c' r' w1 H1' H2' Hc' Hr') as (a' & t' & E' & Ra' & Ca' & Sa' & Va'). eexists. split; [exact E'|]. exists a', t'. auto. }
  destruct (In1 w1 G1 l2 r H2 Hr) as (x & Ex & Shx). unfold with_noise at 1, mbind in Ex.
  assert (Ew : gen l1 l2 (ResArray [Z.of_nat c; Z.of_nat r]) w1 = (Ok (Occ2 a, Lead2 t), w1)).
  { apply (reads_ok [] gen l1 l2 _ w w1 _ Rd); [intros k []|exact E0]. }
  rewrite Ew in Ex. cbn [fst snd] in Ex. rewrite <- D1 in Ex.
  destruct (od_noise (occ_object src (Jumps k1 1 ratio1 scale1 lam1)) (Occ2 a) (Lead2 t) l1 l2 gen false w) as [[ab|] w1'] eqn:E1; [|discriminate Ex].
  unfold ret in Ex. injection Ex as Ex <-. destruct Shx as (o1 & t1 & -> & Ro & Co & So & _).
  set (gen1 := with_noise gen (occ_object src (Jumps k1 1 ratio1 scale1 lam1))) in *.
  destruct (drawn k0 0 ratio0 scale0 lam0 gen1 o1 t1 l1 l2 w1' Sok (or_introl eq_refl) H1 H2) as (w2 & G0 & Fr & Fs & D0). cbn [Z.eqb Pos.eqb] in G0. rewrite Ro in G0.
  assert (G1' : good (w_jump w2 k1) c) by (rewrite Fr by exact Nk; exact G1).
  assert (E1' : gen1 l1 l2 (ResArray [Z.of_nat c; Z.of_nat r]) w1' = (Ok (Occ2 o1, Lead2 t1), w1')).
  { unfold gen1, with_noise, mbind. rewrite Ew. cbn [fst snd]. rewrite <- D1. unfold ret. now rewrite Ex. }
  assert (Rd1 : reads [k1] gen1) by (apply (with_noise_reads src (Jumps k1 1 ratio1 scale1 lam1) [] gen Rd)).
  assert (E2' : gen1 l1 l2 (ResArray [Z.of_nat c; Z.of_nat r]) w2 = (Ok (Occ2 o1, Lead2 t1), w2)).
  { apply (reads_ok [k1] gen1 l1 l2 _ w1' w2 _ Rd1); [|exact E1']. intros k [<-|[]]. now rewrite Fs, (Fr k1 Nk). }
  destruct (step_0 k0 ratio0 scale0 lam0 gen1 w2 l1 l2 c r f (fun j => displaced l1 c (height_of (w_jump w2 k1) j) j) H1 H2 Hr (good_fits _ _ G0)) as (y & Ey & Shy).
  { apply frozen_line; auto. intros ? ? ? ?. now apply Al. }
  { intros l2' r' H2' Hr'. apply (In1 w2 G1' l2' r' H2' Hr'). }
  unfold with_noise, mbind in Ey. rewrite E2' in Ey. cbn [fst snd] in Ey. rewrite <- D0 in Ey.
  destruct (od_noise (occ_object src (Jumps k0 0 ratio0 scale0 lam0)) (Occ2 o1) (Lead2 t1) l1 l2 gen1 false w1') as [[cd|] w2'] eqn:E2; [|discriminate Ey].
  unfold ret in Ey. injection Ey as Ey <-.
  exists (Occ2 a, Lead2 t), y, w2'. split; [exact E0|]. split; [|exact Shy].
  cbn [map occupation_loop]. unfold mbind. cbn [fst snd]. rewrite E1, Ex. cbn [fst snd]. fold gen1. rewrite E2. cbn [occupation_loop]. unfold ret. now rewrite Ey.
Qed.
Lemma loop_0_1 k1 k0 ratio1 scale1 lam1 ratio0 scale0 lam0 f (gen : generator world lead_mask) w l1 l2 c r : sources_ok src -> undistorted gen -> samples_2d f gen -> answers_lines gen ->
  k1 <> k0 -> fst l1 < snd l1 -> fst l2 < snd l2 -> (1 < c)%nat -> (1 < r)%nat ->
  exists ol ol' w', gen l1 l2 (ResArray [Z.of_nat c; Z.of_nat r]) w = (Ok ol, w) /\
    occupation_loop (map (occ_object src) [Jumps k0 0 ratio0 scale0 lam0; Jumps k1 1 ratio1 scale1 lam1]) gen l1 l2 ol w = (Ok ol', w') /\
    shows f (fun j => displaced l1 c (height_of (w_jump w' k1) j) j) (fun i => displaced l2 r (height_of (w_jump w' k0) i) i) r c ol'.
Proof.
  intros Sok Ud Sg Al Nk H1 H2 Hc Hr. destruct (Sg l1 l2 c r w H1 H2 Hc Hr) as (a & t & E0 & Ra & Ca & Sa & Va).
  pose proof (undistorted_reads gen Ud) as Rd.
  destruct (drawn k0 0 ratio0 scale0 lam0 gen a t l1 l2 w Sok (or_introl eq_refl) H1 H2) as (w1 & G1 & _ & _ & D1). cbn [Z.eqb Pos.eqb] in G1. rewrite Ra in G1.
  assert (In1 : forall w1, good (w_jump w1 k0) r -> forall l1' c', fst l1' < snd l1' -> (1 < c')%nat ->
    exists ol, with_noise gen (occ_object src (Jumps k0 0 ratio0 scale0 lam0)) l1' l2 (ResArray [Z.of_nat c'; Z.of_nat r]) w1 = (Ok ol, w1) /\
      shows f (pixel_voltage l1' c') (fun i => displaced l2 r (height_of (w_jump w1 k0) i) i) r c' ol).
  { clear w1 G1 D1. intros w1 G1 l1' c' H1' Hc'. apply step_0; auto using good_fits. { intros ? ? ? ?. now apply Al. }
    intros l2' r' H2' Hr'. destruct (Sg l1' l2' c' r' w1 H1' H2' Hc' Hr') as (a' & t' & E' & Ra' & Ca' & Sa' & Va'). eexists. split; [exact E'|]. exists a', t'. auto. }
  destruct (In1 w1 G1 l1 c H1 Hc) as (x & Ex & Shx). unfold with_noise at 1, mbind in Ex.
  assert (Ew : gen l1 l2 (ResArray [Z.of_nat c; Z.of_nat r]) w1 = (Ok (Occ2 a, Lead2 t), w1)).
  { apply (reads_ok [] gen l1 l2 _ w w1 _ Rd); [intros k []|exact E0]. }
  rewrite Ew in Ex. cbn [fst snd] in Ex. rewrite <- D1 in Ex.
  destruct (od_noise (occ_object src (Jumps k0 0 ratio0 scale0 lam0)) (Occ2 a) (Lead2 t) l1 l2 gen false w) as [[ab|] w1'] eqn:E1; [|discriminate Ex].
  unfold ret in Ex. injection Ex as Ex <-. destruct Shx as (o1 & t1 & -> & Ro & Co & So & _).
  set (gen1 := with_noise gen (occ_object src (Jumps k0 0 ratio0 scale0 lam0))) in *.
  destruct (drawn k1 1 ratio1 scale1 lam1 gen1 o1 t1 l1 l2 w1' Sok (or_intror eq_refl) H1 H2) as (w2 & G0 & Fr & Fs & D0). cbn [Z.eqb Pos.eqb] in G0. rewrite Co in G0.
  assert (G1' : good (w_jump w2 k0) r) by (rewrite Fr by exact (not_eq_sym Nk); exact G1).
  assert (E1' : gen1 l1 l2 (ResArray [Z.of_nat c; Z.of_nat r]) w1' = (Ok (Occ2 o1, Lead2 t1), w1')).
  { unfold gen1, with_noise, mbind. rewrite Ew. cbn [fst snd]. rewrite <- D1. unfold ret. now rewrite Ex. }
  assert (Rd1 : reads [k0] gen1) by (apply (with_noise_reads src (Jumps k0 0 ratio0 scale0 lam0) [] gen Rd)).
  assert (E2' : gen1 l1 l2 (ResArray [Z.of_nat c; Z.of_nat r]) w2 = (Ok (Occ2 o1, Lead2 t1), w2)).
  { apply (reads_ok [k0] gen1 l1 l2 _ w1' w2 _ Rd1); [|exact E1']. intros k [<-|[]]. now rewrite Fs, (Fr k0 (not_eq_sym Nk)). }
  destruct (step_1 k1 ratio1 scale1 lam1 gen1 w2 l1 l2 c r f (fun i => displaced l2 r (height_of (w_jump w2 k0) i) i) H1 H2 Hc (good_fits _ _ G0)) as (y & Ey & Shy).
  { apply frozen_line; auto. intros ? ? ? ?. now apply Al. }
  { intros l1' c' H1' Hc'. apply (In1 w2 G1' l1' c' H1' Hc'). }
  unfold with_noise, mbind in Ey. rewrite E2' in Ey. cbn [fst snd] in Ey. rewrite <- D0 in Ey.
  destruct (od_noise (occ_object src (Jumps k1 1 ratio1 scale1 lam1)) (Occ2 o1) (Lead2 t1) l1 l2 gen1 false w1') as [[cd|] w2'] eqn:E2; [|discriminate Ey].
  unfold ret in Ey. injection Ey as Ey <-.
  exists (Occ2 a, Lead2 t), y, w2'. split; [exact E0|]. split; [|exact Shy].
  cbn [map occupation_loop]. unfold mbind. cbn [fst snd]. rewrite E1, Ex. cbn [fst snd]. fold gen1. rewrite E2. cbn [occupation_loop]. unfold ret. now rewrite Ey.
Qed.
End Both.
