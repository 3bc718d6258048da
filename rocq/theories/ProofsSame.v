(** Proofs about two dot jump objects along the same plunger gate. *)
From Coq Require Import FunctionalExtensionality.
From Verif Require Import RPrelude Arr ModelSupport ModelTct ModelCsd ModelJumps ModelDistortions ModelSensor ModelSimulation ModelInstance
  ModelNoise SpecSupport SpecTct SpecCsd SpecSensor SpecDistortions SpecJumps SpecInstance SpecNoise SpecBoth ProofsTct ProofsJumps ProofsDistortions ProofsCsd ProofsNoise ProofsReplay ProofsBoth.
Local Open Scope R_scope.

Section Short.
Context {A : Type}.
Variable isnan : A -> bool.

Lemma short_row_1 (o : arr2 A) noise i : (i < rows o)%nat -> forall n j s, (j <= length noise)%nat -> (length noise < j + n)%nat -> (j + n <= cols o)%nat -> same_shape s o ->
  foldM (jump_j_1 isnan o noise i) (seq j n) s = Err IndexError.
Proof.
  intros Hi. induction n as [|n IH]; intros j s Hj Hn Hc Hs; [lia|]. cbn [seq foldM].
  destruct (Nat.eq_dec j (length noise)) as [Q|Q].
  - unfold jump_j_1 at 1, get_item. rewrite (proj2 (nth_error_None noise j)) by lia. reflexivity.
  - destruct (nth_error noise j) as [nj|] eqn:En; [|apply nth_error_None in En; lia].
    destruct (jump_j_1_ok isnan o noise i j s nj Hi ltac:(lia) Hs En) as (s' & E & Sh & _). rewrite E. cbn [bind]. apply IH; auto; lia.
Qed.
Lemma short_1 (o empty : arr2 A) noise : (0 < rows o)%nat -> (length noise < cols o)%nat -> same_shape empty o -> jumps_axis_1 isnan o empty noise = Err IndexError.
Proof.
  intros Hr Hc Hs. unfold jumps_axis_1. destruct (rows o) as [|r] eqn:Er; [lia|]. cbn [seq foldM].
  rewrite short_row_1 by (try exact Hs; lia). reflexivity.
Qed.
Lemma short_row_0 (o : arr2 A) noise i : (i < cols o)%nat -> forall n j s, (j <= length noise)%nat -> (length noise < j + n)%nat -> (j + n <= rows o)%nat -> same_shape s o ->
  foldM (jump_j_0 isnan o noise i) (seq j n) s = Err IndexError.
Proof.
  intros Hi. induction n as [|n IH]; intros j s Hj Hn Hc Hs; [lia|]. cbn [seq foldM].
  destruct (Nat.eq_dec j (length noise)) as [Q|Q].
  - unfold jump_j_0 at 1, get_item. rewrite (proj2 (nth_error_None noise j)) by lia. reflexivity.
  - destruct (nth_error noise j) as [nj|] eqn:En; [|apply nth_error_None in En; lia].
    destruct (jump_j_0_ok isnan o noise i j s nj Hi ltac:(lia) Hs En) as (s' & E & Sh & _). rewrite E. cbn [bind]. apply IH; auto; lia.
Qed.
Lemma short_0 (o empty : arr2 A) noise : (0 < cols o)%nat -> (length noise < rows o)%nat -> same_shape empty o -> jumps_axis_0 isnan o empty noise = Err IndexError.
Proof.
  intros Hr Hc Hs. unfold jumps_axis_0. destruct (cols o) as [|r] eqn:Er; [lia|]. cbn [seq foldM].
  rewrite short_row_0 by (try exact Hs; lia). reflexivity.
Qed.

Variable gen1 : limits -> limits -> nat -> arr1 (A * A) * arr1 A.
Variable gen2 : limits -> limits -> nat * nat -> arr2 (A * A) * arr2 A.
Lemma short_component_1 comp1 comp2 junk l1 l2 noise img :
  let m := list_max noise in let step := (snd l1 - fst l1) / INR (cols img) in
  (0 < rows img)%nat -> (length noise < cols img)%nat -> ((1 < m)%nat -> cols (comp2 (gen2 (fst l1 - INR m * step, fst l1 - step) l2 (m, rows img))) = m) ->
  jump2d_component isnan gen1 gen2 true 1 l1 l2 noise false comp1 comp2 (fun r c => mk_arr2 r c junk) img = Err IndexError.
Proof.
  intros m step Hr Hc Hm. unfold jump2d_component. cbn [andb orb negb Z.eqb Pos.eqb]. fold m. destruct (Nat.ltb_spec 0 m) as [P|P]; cbv iota.
  - set (strip := strip_axis_1 _ _ _ _ _ _ _ _).
    assert (Cs : cols strip = m). { unfold strip, strip_axis_1. destruct (Nat.ltb_spec 1 m) as [L|L]; [apply Hm; exact L|reflexivity]. }
    unfold dot_jumps_blockwise. cbn [Z.eqb Pos.eqb]. rewrite short_1; [reflexivity| | |split; reflexivity]; cbn [hstack rows cols]; [exact Hr|]. rewrite app_length, repeat_length, Cs. lia.
  - unfold dot_jumps_blockwise. cbn [Z.eqb Pos.eqb repeat app]. rewrite short_1; [reflexivity|exact Hr|exact Hc|split; reflexivity].
Qed.
Lemma short_component_0 comp1 comp2 junk l1 l2 noise img :
  let m := list_max noise in let step := (snd l2 - fst l2) / INR (rows img) in
  (0 < cols img)%nat -> (length noise < rows img)%nat -> ((1 < m)%nat -> rows (comp2 (gen2 l1 (fst l2 - INR m * step, fst l2 - step) (cols img, m))) = m) ->
  jump2d_component isnan gen1 gen2 true 0 l1 l2 noise false comp1 comp2 (fun r c => mk_arr2 r c junk) img = Err IndexError.
Proof.
  intros m step Hr Hc Hm. unfold jump2d_component. cbn [andb orb negb Z.eqb Pos.eqb]. fold m. destruct (Nat.ltb_spec 0 m) as [P|P]; cbv iota.
  - set (strip := strip_axis_0 _ _ _ _ _ _ _ _).
    assert (Cs : rows strip = m). { unfold strip, strip_axis_0. destruct (Nat.ltb_spec 1 m) as [L|L]; [apply Hm; exact L|reflexivity]. }
    unfold dot_jumps_blockwise. cbn [Z.eqb Pos.eqb]. rewrite short_0; [reflexivity| | |split; reflexivity]; cbn [vstack rows cols]; [exact Hr|]. rewrite app_length, repeat_length, Cs. lia.
  - unfold dot_jumps_blockwise. cbn [Z.eqb Pos.eqb repeat app]. rewrite short_0; [reflexivity|exact Hr|exact Hc|split; reflexivity].
Qed.

(** ** 1D strips *)
Variable nan : A.
Lemma line_component axis comp junk l1 l2 noise data : (axis = 0 \/ axis = 1)%Z -> (0 < len1 data)%nat ->
  if (length noise <? len1 data)%nat
  then jump1d_component isnan nan gen1 true axis l1 l2 noise false comp (fun r c => mk_arr2 r c junk) data = Err IndexError
  else exists out, jump1d_component isnan nan gen1 true axis l1 l2 noise false comp (fun r c => mk_arr2 r c junk) data = Ok out.
Proof.
  intros Ax Hn. unfold jump1d_component. cbn [andb].
  set (m := list_max noise). set (added := if (0 <? m)%nat then m else 0%nat).
  set (img := if (0 <? m)%nat then _ else _).
  destruct Ax as [-> | ->]; cbn [Z.eqb Pos.eqb] in *.
  - assert (Sh : cols img = len1 data /\ rows img = (len1 data + added)%nat).
    { unfold img, added. destruct (0 <? m)%nat; [|cbn; split; [reflexivity|lia]].
      pose proof (push_rows_spec nan data (fun i => comp (gen1 l1 (shifted_limits l2 (i + 1) ((snd l1 - fst l1) / INR (len1 data))) (len1 data))) m) as P. cbv zeta in P. split; apply P. }
    destruct Sh as [Sc Sr]. unfold dot_jumps_blockwise. cbn [Z.eqb Pos.eqb]. destruct (Nat.ltb_spec (length noise) (len1 data)) as [L|L].
    + rewrite short_0; [reflexivity|lia| |split; reflexivity]. rewrite app_length, repeat_length. lia.
    + destruct (jumps_axis_0_ok isnan img (mk_arr2 (rows img) (cols img) junk) (repeat 0%nat added ++ noise)) as (out & E & _); [split; reflexivity|rewrite app_length, repeat_length; lia|].
      rewrite E. cbn [bind]. eauto.
  - assert (Sh : rows img = len1 data /\ cols img = (len1 data + added)%nat).
    { unfold img, added. destruct (0 <? m)%nat; [|cbn; split; [reflexivity|lia]].
      pose proof (push_cols_spec nan data (fun i => comp (gen1 (shifted_limits l1 (i + 1) ((snd l1 - fst l1) / INR (len1 data))) l2 (len1 data))) m) as P. cbv zeta in P. split; apply P. }
    destruct Sh as [Sr Sc]. unfold dot_jumps_blockwise. cbn [Z.eqb Pos.eqb]. destruct (Nat.ltb_spec (length noise) (len1 data)) as [L|L].
    + rewrite short_1; [reflexivity|lia| |split; reflexivity]. rewrite app_length, repeat_length. lia.
    + destruct (jumps_axis_1_ok isnan img (mk_arr2 (rows img) (cols img) junk) (repeat 0%nat added ++ noise)) as (out & E & _); [split; reflexivity|rewrite app_length, repeat_length; lia|].
      rewrite E. cbn [bind]. eauto.
Qed.
End Short.

Section Same.
Context {G : Type}.
Variable src : sources G.
Notation world := (noise_world G).

(** A kept noise is too short for a strip that is wider than the scan. *)
Lemma too_wide_1 k ratio scale lam f (gen : generator world lead_mask) w l1 l2 m r noise : samples_2d f gen -> answers_lines gen ->
  w_jump w k = mk_jump_state (Some true) (Some noise) -> fst l1 < snd l1 -> fst l2 < snd l2 -> (1 < m)%nat -> (1 < r)%nat -> (length noise < m)%nat ->
  with_noise gen (occ_object src (Jumps k 1 ratio scale lam)) l1 l2 (ResArray [Z.of_nat m; Z.of_nat r]) w = (Err IndexError, w).
Proof.
  intros Sg Al Hk H1 H2 Hm Hr Sh. destruct (Sg l1 l2 m r w H1 H2 Hm Hr) as (o & t & E & Ro & Co & St & _). unfold with_noise, mbind. rewrite E. cbn [fst snd].
  cbn [occ_object jumps_object od_noise jump_scan]. unfold jump_draw. rewrite Hk. cbn [js_activated js_noise negb andb]. rewrite <- Hk, set_same, world_eta. cbn [scan_shape].
  change (rows (amap2 lift_occ o)) with (rows o). change (cols (amap2 lift_occ o)) with (cols o).
  set (q := list_max noise). set (step := (snd l1 - fst l1) / INR (cols o)).
  assert (Ps : 0 < step). { unfold step. apply Rdiv_lt_0_compat; [lra|]. rewrite Co. apply lt_0_INR. lia. }
  assert (S2 : (1 < q)%nat -> exists a b, gen (fst l1 - INR q * step, fst l1 - step) l2 (ResArray [Z.of_nat q; Z.of_nat (rows o)]) w = (Ok (Occ2 a, Lead2 b), w) /\ cols a = q).
  { intros L. rewrite Ro. destruct (Sg (fst l1 - INR q * step, fst l1 - step) l2 q r w) as (a & b & Eg & _ & Ca & _); auto.
    - cbn [fst snd]. apply lt_INR in L. change (INR 1) with 1 in L. nra.
    - exists a, b. auto. }
  assert (Rc : run_calls gen (jump_calls 1 noise (Shape2 (rows o) (cols o)) l1 l2) w = (Ok tt, w)).
  { unfold jump_calls. rewrite !sort_id by lra. cbn [Z.eqb Pos.eqb]. fold q step. destruct (Nat.ltb_spec 0 q) as [Hq|Hq]; [|reflexivity].
    destruct (Nat.ltb_spec 1 q) as [L|L]; cbn [run_calls]; unfold mbind.
    - destruct (S2 L) as (a & b & -> & _). reflexivity.
    - replace q with 1%nat by lia. destruct (Al (fst l1 - INR 1 * step, fst l1 - step) l2 (rows o) w) as (a & b & -> & _); [change (INR 1) with 1; cbn [fst snd]; lra|lra|lia|reflexivity]. }
  unfold mbind. rewrite Rc. unfold jump_apply. rewrite !sort_id by lra. rewrite !descending_false by lra. cbv iota beta.
  rewrite short_component_1; [reflexivity|cbn; lia|cbn; lia|]. fold q. cbn [amap2 rows cols]. intros L. fold step. unfold generated2. cbn [fst snd].
  destruct (S2 L) as (a & b & -> & Ca). exact Ca.
Qed.
Lemma too_wide_0 k ratio scale lam f (gen : generator world lead_mask) w l1 l2 c m noise : samples_2d f gen -> answers_lines gen ->
  w_jump w k = mk_jump_state (Some true) (Some noise) -> fst l1 < snd l1 -> fst l2 < snd l2 -> (1 < c)%nat -> (1 < m)%nat -> (length noise < m)%nat ->
  with_noise gen (occ_object src (Jumps k 0 ratio scale lam)) l1 l2 (ResArray [Z.of_nat c; Z.of_nat m]) w = (Err IndexError, w).
Proof.
  intros Sg Al Hk H1 H2 Hr Hm Sh. destruct (Sg l1 l2 c m w H1 H2 Hr Hm) as (o & t & E & Ro & Co & St & _). unfold with_noise, mbind. rewrite E. cbn [fst snd].
  cbn [occ_object jumps_object od_noise jump_scan]. unfold jump_draw. rewrite Hk. cbn [js_activated js_noise negb andb]. rewrite <- Hk, set_same, world_eta. cbn [scan_shape].
  change (rows (amap2 lift_occ o)) with (rows o). change (cols (amap2 lift_occ o)) with (cols o).
  set (q := list_max noise). set (step := (snd l2 - fst l2) / INR (rows o)).
  assert (Ps : 0 < step). { unfold step. apply Rdiv_lt_0_compat; [lra|]. rewrite Ro. apply lt_0_INR. lia. }
  assert (S2 : (1 < q)%nat -> exists a b, gen l1 (fst l2 - INR q * step, fst l2 - step) (ResArray [Z.of_nat (cols o); Z.of_nat q]) w = (Ok (Occ2 a, Lead2 b), w) /\ rows a = q).
  { intros L. rewrite Co. destruct (Sg l1 (fst l2 - INR q * step, fst l2 - step) c q w) as (a & b & Eg & Ra & _); auto.
    - cbn [fst snd]. apply lt_INR in L. change (INR 1) with 1 in L. nra.
    - exists a, b. auto. }
  assert (Rc : run_calls gen (jump_calls 0 noise (Shape2 (rows o) (cols o)) l1 l2) w = (Ok tt, w)).
  { unfold jump_calls. rewrite !sort_id by lra. cbn [Z.eqb Pos.eqb]. fold q step. destruct (Nat.ltb_spec 0 q) as [Hq|Hq]; [|reflexivity].
    destruct (Nat.ltb_spec 1 q) as [L|L]; cbn [run_calls]; unfold mbind.
    - destruct (S2 L) as (a & b & -> & _). reflexivity.
    - replace q with 1%nat by lia. destruct (Al l1 (fst l2 - INR 1 * step, fst l2 - step) (cols o) w) as (a & b & -> & _); [lra|change (INR 1) with 1; cbn [fst snd]; lra|lia|reflexivity]. }
  unfold mbind. rewrite Rc. unfold jump_apply. rewrite !sort_id by lra. rewrite !descending_false by lra. cbv iota beta.
  rewrite short_component_0; [reflexivity|cbn; lia|cbn; lia|]. fold q. cbn [amap2 rows cols]. intros L. fold step. unfold generated2. cbn [fst snd].
  destruct (S2 L) as (a & b & -> & Ca). exact Ca.
Qed.

(** ** Frozen calls change nothing *)
Definition keeps (gen : generator world lead_mask) : Prop := forall l1 l2 res w, snd (gen l1 l2 res w) = w.
Lemma run_calls_keeps gen calls w : keeps gen -> snd (run_calls gen calls w) = w.
Proof.
  intros K. induction calls as [|[[l1 l2] res] t IH]; [reflexivity|]. cbn [run_calls]. unfold mbind. specialize (K l1 l2 res w).
  destruct (gen l1 l2 res w) as [[x|e] w1]; cbn [snd] in K; subst w1; [exact IH|reflexivity].
Qed.
Lemma frozen_keeps k axis ratio scale lam (gen : generator world lead_mask) occ lead l1 l2 w : keeps gen ->
  snd (od_noise (occ_object src (Jumps k axis ratio scale lam)) occ lead l1 l2 gen true w) = w.
Proof.
  intros K. cbn [occ_object jumps_object od_noise]. destruct (jump_scan occ lead) as [s|]; [|reflexivity]. unfold jump_draw.
  destruct (js_activated (w_jump w k)) as [[|]|]; cbn [negb andb]; try (cbn [snd]; now rewrite set_same, world_eta).
  destruct (js_noise (w_jump w k)) as [noise|]; [|reflexivity]. rewrite set_same, world_eta. unfold mbind.
  pose proof (run_calls_keeps gen (jump_calls axis noise (scan_shape s) l1 l2) w K) as Q. destruct (run_calls gen _ w) as [[u|e] w1]; cbn [snd] in Q; subst w1; reflexivity.
Qed.
Lemma with_noise_keeps k axis ratio scale lam (gen : generator world lead_mask) : keeps gen -> keeps (with_noise gen (occ_object src (Jumps k axis ratio scale lam))).
Proof.
  intros K l1 l2 res w. unfold with_noise, mbind. pose proof (K l1 l2 res w) as Q. destruct (gen l1 l2 res w) as [[ol|e] w1]; cbn [snd] in Q; subst w1; [|reflexivity].
  pose proof (frozen_keeps k axis ratio scale lam gen (fst ol) (snd ol) l1 l2 w K) as Q. destruct (od_noise _ _ _ _ _ _ _ _) as [[r|e] w1]; cbn [snd] in Q; subst w1; reflexivity.
Qed.


(** ** 1D requests with a kept noise *)
Lemma kept_line k axis ratio scale lam (gen : generator world lead_mask) w l1 l2 n noise : (axis = 0 \/ axis = 1)%Z -> lines gen w n ->
  w_jump w k = mk_jump_state (Some true) (Some noise) -> fst l1 <= snd l1 -> fst l2 <= snd l2 -> (0 < n)%nat ->
  if (length noise <? n)%nat
  then with_noise gen (occ_object src (Jumps k axis ratio scale lam)) l1 l2 (ResInt (Z.of_nat n)) w = (Err IndexError, w)
  else exists a l, with_noise gen (occ_object src (Jumps k axis ratio scale lam)) l1 l2 (ResInt (Z.of_nat n)) w = (Ok (Occ1 a, Lead1 l), w).
Proof.
  intros Ax Li Hk H1 H2 Hn. destruct (Li l1 l2 H1 H2) as (a & l & E & La & Ll). unfold with_noise, mbind. rewrite E. cbn [fst snd].
  cbn [occ_object jumps_object od_noise jump_scan]. unfold jump_draw. rewrite Hk. cbn [js_activated js_noise negb andb]. rewrite <- Hk, set_same, world_eta. cbn [scan_shape].
  change (len1 (amap1 lift_occ a)) with (len1 a). rewrite La.
  assert (Rc : run_calls gen (jump_calls axis noise (Shape1 n) l1 l2) w = (Ok tt, w)).
  { unfold jump_calls. rewrite !sort_id by lra. destruct (_ <? _)%nat; [|reflexivity].
    destruct Ax as [-> | ->]; cbn [Z.eqb Pos.eqb]; (induction (seq 0 (list_max noise)) as [|q qs IH]; [reflexivity|]; cbn [map run_calls]; unfold mbind).
    - destruct (Li l1 (shifted_limits l2 (q + 1) ((snd l1 - fst l1) / INR n)) H1 (shifted_weak _ _ _ H2)) as (a2 & t2 & -> & _). exact IH.
    - destruct (Li (shifted_limits l1 (q + 1) ((snd l1 - fst l1) / INR n)) l2 (shifted_weak _ _ _ H1) H2) as (a2 & t2 & -> & _). exact IH. }
  unfold mbind. rewrite Rc. cbv iota beta. unfold jump_apply. rewrite !sort_id by lra. rewrite !descending_false by lra. cbn [orb].
  pose proof (line_component is_nan (generated1 gen w) None axis (fun d => amap1 fst (fst d)) (src_empty src) l1 l2 noise (amap1 fst (amap1 lift_occ a)) Ax) as C1.
  pose proof (line_component is_nan (generated1 gen w) None axis (fun d => amap1 snd (fst d)) (src_empty src) l1 l2 noise (amap1 snd (amap1 lift_occ a)) Ax) as C2.
  pose proof (line_component is_nan (generated1 gen w) None axis snd (src_empty src) l1 l2 noise (amap1 (fun n => Some (INR n)) (of_list1 0%nat l)) Ax) as C3.
  cbn [amap1 len1 of_list1] in C1, C2, C3. rewrite La in C1, C2. rewrite Ll in C3.
  specialize (C1 Hn). specialize (C2 Hn). specialize (C3 Hn).
  destruct (length noise <? n)%nat.
  - cbn [amap1 len1 of_list1]. rewrite C1. reflexivity.
  - destruct C1 as [o1 C1], C2 as [o2 C2], C3 as [o3 C3]. cbn [amap1 len1 of_list1]. rewrite C1, C2. cbn [bind option_mapM]. rewrite C3. cbn [bind option_map scan_jump]. do 2 eexists. reflexivity.
Qed.

Lemma highest_off st n : js_activated st <> Some true -> highest (height_of st) n = 0%nat.
Proof.
  intros Off. unfold highest. induction (seq 0 n) as [|i l IH]; [reflexivity|]. cbn [map fold_right]. rewrite IH, height_off by exact Off. reflexivity.
Qed.
Lemma highest_max noise n : length noise = n -> highest (height_of (mk_jump_state (Some true) (Some noise))) n = list_max noise.
Proof.
  intros <-. unfold highest, height_of, list_max. cbn [js_activated js_noise]. f_equal. induction noise as [|x l IH]; [reflexivity|].
  cbn [length seq map nth]. f_equal. rewrite <- seq_shift, map_map. exact IH.
Qed.

Lemma same_1 ka kb ratio1 scale1 lam1 ratio2 scale2 lam2 f (gen : generator world lead_mask) w l1 l2 c r : sources_ok src -> undistorted gen -> samples_2d f gen -> answers_lines gen ->
  ka <> kb -> fst l1 < snd l1 -> fst l2 < snd l2 -> (1 < c)%nat -> (1 < r)%nat ->
  exists ol res w', gen l1 l2 (ResArray [Z.of_nat c; Z.of_nat r]) w = (Ok ol, w) /\
    occupation_loop (map (occ_object src) [Jumps ka 1 ratio1 scale1 lam1; Jumps kb 1 ratio2 scale2 lam2]) gen l1 l2 ol w = (res, w') /\
    (too_short (w_jump w' ka) (w_jump w' kb) c r -> res = Err IndexError) /\
    (~ too_short (w_jump w' ka) (w_jump w' kb) c r ->
     exists ol', res = Ok ol' /\ shows f (twice_displaced l1 c (height_of (w_jump w' ka)) (height_of (w_jump w' kb))) (pixel_voltage l2 r) r c ol').
Proof.
  intros Sok Ud Sg Al Nk H1 H2 Hc Hr. destruct (Sg l1 l2 c r w H1 H2 Hc Hr) as (a & t & E0 & Ra & Ca & Sa & Va).
  pose proof (undistorted_reads gen Ud) as Rd.
  destruct (drawn src ka 1 ratio1 scale1 lam1 gen a t l1 l2 w Sok (or_intror eq_refl) H1 H2) as (w1 & G1 & _ & _ & D1). cbn [Z.eqb Pos.eqb] in G1. rewrite Ca in G1.
  set (gen1 := with_noise gen (occ_object src (Jumps ka 1 ratio1 scale1 lam1))).
  assert (In1 : forall w1 l1' c', fits (w_jump w1 ka) c' -> fst l1' < snd l1' -> (1 < c')%nat ->
    exists ol, gen1 l1' l2 (ResArray [Z.of_nat c'; Z.of_nat r]) w1 = (Ok ol, w1) /\ shows f (fun j => displaced l1' c' (height_of (w_jump w1 ka) j) j) (pixel_voltage l2 r) r c' ol).
  { clear w1 G1 D1. intros w1 l1' c' Ft H1' Hc'. apply step_1; auto. { intros ? ? ? ?. now apply Al. }
    intros l1x cx H1x Hcx. destruct (Sg l1x l2 cx r w1 H1x H2 Hcx Hr) as (a' & t' & E' & Ra' & Ca' & Sa' & Va'). eexists. split; [exact E'|]. exists a', t'. auto. }
  destruct (In1 w1 l1 c (good_fits _ _ G1) H1 Hc) as (x & Ex & Shx). unfold gen1, with_noise, mbind in Ex.
  assert (Ew : gen l1 l2 (ResArray [Z.of_nat c; Z.of_nat r]) w1 = (Ok (Occ2 a, Lead2 t), w1)).
  { apply (reads_ok [] gen l1 l2 _ w w1 _ Rd); [intros k []|exact E0]. }
  rewrite Ew in Ex. cbn [fst snd] in Ex. rewrite <- D1 in Ex.
  destruct (od_noise (occ_object src (Jumps ka 1 ratio1 scale1 lam1)) (Occ2 a) (Lead2 t) l1 l2 gen false w) as [[ab|] w1'] eqn:E1; [|discriminate Ex].
  unfold ret in Ex. injection Ex as Ex <-. destruct Shx as (o1 & t1 & -> & Ro & Co & So & V1).
  destruct (drawn src kb 1 ratio2 scale2 lam2 gen1 o1 t1 l1 l2 w1' Sok (or_intror eq_refl) H1 H2) as (w2 & G2 & Fr & Fs & D2). cbn [Z.eqb Pos.eqb] in G2. rewrite Co in G2.
  assert (Kp : keeps gen1). { apply with_noise_keeps. intros x1 x2 res wx. apply Ud. }
  pose proof (frozen_keeps kb 1 ratio2 scale2 lam2 gen1 (Occ2 o1) (Lead2 t1) l1 l2 w2 Kp) as Kf. rewrite <- D2 in Kf.
  exists (Occ2 a, Lead2 t), (match fst (od_noise (occ_object src (Jumps kb 1 ratio2 scale2 lam2)) (Occ2 o1) (Lead2 t1) l1 l2 gen1 false w1') with Ok r => Ok (fst r) | Err e => Err e end), w2.
  split; [exact E0|]. split.
  { cbn [map occupation_loop]. unfold mbind. cbn [fst snd]. rewrite E1, Ex. cbn [fst snd]. fold gen1.
    destruct (od_noise (occ_object src (Jumps kb 1 ratio2 scale2 lam2)) (Occ2 o1) (Lead2 t1) l1 l2 gen1 false w1') as [[r2|e] w2']; cbn [fst snd] in Kf |- *; subst w2'; reflexivity. }
  rewrite D2. rewrite <- (Fr ka Nk) in G1, V1. clear D1 D2 Kf Ex E1 Ew Fr Fs.
  set (m := highest (height_of (w_jump w2 kb)) c).
  destruct G2 as [Off|(noise & Hk & Ln & Z0)].
  { assert (Hm : m = 0%nat) by (apply highest_off; exact Off). unfold too_short. cbv zeta. fold m. split; [intros [_ [?|?]]; lia|]. intros _. rewrite frozen_off by exact Off. cbn [fst].
    eexists. split; [reflexivity|]. exists o1, t1. repeat split; auto; try apply So. intros i j Hi Hj. rewrite V1 by assumption. unfold twice_displaced. rewrite (height_off _ j Off). cbn [Nat.leb]. now rewrite Nat.sub_0_r. }
  assert (Hm : m = list_max noise) by (unfold m; rewrite Hk; apply highest_max; exact Ln).
  set (step := (snd l1 - fst l1) / INR c).
  assert (Ps : 0 < step). { unfold step. apply Rdiv_lt_0_compat; [lra|]. apply lt_0_INR. lia. }
  assert (As : (1 < m)%nat -> fst l1 - INR m * step < fst l1 - step). { intros L. apply lt_INR in L. change (INR 1) with 1 in L. nra. }
  split.
  - intros [Act Q]. cbv zeta in Q. fold m in Q.
    assert (Ha : exists n1, w_jump w2 ka = mk_jump_state (Some true) (Some n1) /\ length n1 = c).
    { destruct G1 as [Off|(n1 & E & L & _)]; [contradiction|]. now exists n1. }
    destruct Ha as (n1 & Ha & La).
    cbn [occ_object jumps_object od_noise jump_scan scan_shape]. unfold jump_draw. rewrite Hk. cbn [js_activated js_noise negb andb]. rewrite <- Hk, set_same, world_eta.
    change (rows (amap2 lift_occ o1)) with (rows o1). change (cols (amap2 lift_occ o1)) with (cols o1). unfold jump_calls. rewrite !sort_id by lra. cbn [Z.eqb Pos.eqb]. rewrite <- Hm, Co, Ro. fold step.
    rewrite (proj2 (Nat.ltb_lt 0 m)) by lia. destruct (Nat.ltb_spec 1 m) as [L|L]; cbn [run_calls]; unfold mbind, gen1.
    + rewrite (too_wide_1 ka ratio1 scale1 lam1 f gen w2 _ l2 m r n1 Sg Al Ha); [reflexivity|exact (As L)|exact H2|lia|exact Hr|lia].
    + assert (M1 : m = 1%nat) by lia. rewrite M1. change (INR 1) with 1.
      pose proof (kept_line ka 1 ratio1 scale1 lam1 gen w2 (fst l1 - 1 * step, fst l1 - step) l2 r n1 (or_intror eq_refl)) as Kl.
      rewrite (proj2 (Nat.ltb_lt (length n1) r)) in Kl by lia. rewrite Kl; [reflexivity| |exact Ha|cbn [fst snd]; lra|lra|lia]. intros ? ? ? ?. now apply Al.
  - intros Nt.
    assert (Fit : forall n, js_activated (w_jump w2 ka) = Some true /\ (c < n)%nat \/ fits (w_jump w2 ka) n).
    { intros n. destruct G1 as [Off|(n1 & E & L & Z)]; [right; now left|]. destruct (le_lt_dec n c) as [Q|Q]; [right; right; exists n1; split; [exact E|]; split; [lia|exact Z]|].
      left. rewrite E. split; [reflexivity|exact Q]. }
    assert (Pk : exists so st, (1 < m)%nat -> gen1 (fst l1 - INR m * step, fst l1 - step) l2 (ResArray [Z.of_nat m; Z.of_nat (rows o1)]) w2 = (Ok (Occ2 so, Lead2 st), w2) /\
       rows so = rows o1 /\ cols so = m /\ same_shape st so /\
       forall i j, (i < r)%nat -> (j < m)%nat -> cell so i j = f (displaced (fst l1 - INR m * step, fst l1 - step) m (height_of (w_jump w2 ka) j) j) (pixel_voltage l2 r i)).
    { destruct (le_lt_dec m 1) as [L|L]; [exists o1, t1; lia|]. destruct (Fit m) as [[Act Q]|Ft]; [exfalso; apply Nt; split; [exact Act|]; cbv zeta; fold m; left; lia|].
      destruct (In1 w2 (fst l1 - INR m * step, fst l1 - step) m Ft (As L) L) as (ol & Eo & so & st & -> & Rs & Cs & Ss & Vs). exists so, st. intros _. rewrite Ro. auto. }
    destruct Pk as (so & st & Pk).
    destruct (frozen_1 src kb ratio2 scale2 lam2 gen1 w2 o1 t1 l1 l2 noise so st Hk ltac:(lia) So H1 H2 Z0) as (o' & t' & E & R' & C' & S' & V').
    { rewrite <- Hm, Co. fold step. intros L. destruct (Pk L) as (A & B & C & D & _). auto. }
    { rewrite <- Hm, Co, Ro. fold step. intros L. rewrite L. change (INR 1) with 1.
      destruct (Fit r) as [[Act Q]|[Off|(n1 & Ha & La & _)]]; [exfalso; apply Nt; split; [exact Act|]; cbv zeta; fold m; right; lia| |].
      - destruct (frozen_line src ka 1 ratio1 scale1 lam1 gen w2 r (or_intror eq_refl) (or_introl Off) (fun x y Hx Hy => Al x y r w2 Hx Hy Hr) (fst l1 - 1 * step, fst l1 - step) l2) as (a' & b' & Eg & _ & _); [cbn [fst snd]; lra|lra|]. now exists a', b'.
      - pose proof (kept_line ka 1 ratio1 scale1 lam1 gen w2 (fst l1 - 1 * step, fst l1 - step) l2 r n1 (or_intror eq_refl)) as Kl.
        rewrite (proj2 (Nat.ltb_ge (length n1) r)) in Kl by lia. apply Kl; [|exact Ha|cbn [fst snd]; lra|lra|lia]. intros ? ? ? ?. now apply Al. }
    rewrite E. cbn [fst]. eexists. split; [reflexivity|]. exists o', t'. split; [reflexivity|]. split; [congruence|]. split; [congruence|]. split; [exact S'|].
    intros i j Hi Hj. rewrite V' by congruence. rewrite <- Hm. unfold twice_displaced. fold m. fold step.
    assert (Hh : height_of (w_jump w2 kb) j = nth j noise 0%nat) by (rewrite Hk; reflexivity). rewrite Hh.
    destruct (Nat.leb_spec (nth j noise 0%nat) j) as [L|L].
    + apply V1; [exact Hi|lia].
    + assert (nth j noise 0 <= m)%nat by (rewrite Hm; apply list_max_ge, nth_In; lia).
      assert (Lm : (1 < m)%nat). { destruct (Nat.eq_dec j 0) as [Q|Q]; [subst j; lia|lia]. }
      destruct (Pk Lm) as (_ & _ & _ & _ & Vs). now rewrite Vs by (try exact Hi; lia).
Qed.

Lemma same_0 ka kb ratio1 scale1 lam1 ratio2 scale2 lam2 f (gen : generator world lead_mask) w l1 l2 c r : sources_ok src -> undistorted gen -> samples_2d f gen -> answers_lines gen ->
  ka <> kb -> fst l1 < snd l1 -> fst l2 < snd l2 -> (1 < c)%nat -> (1 < r)%nat ->
  exists ol res w', gen l1 l2 (ResArray [Z.of_nat c; Z.of_nat r]) w = (Ok ol, w) /\
    occupation_loop (map (occ_object src) [Jumps ka 0 ratio1 scale1 lam1; Jumps kb 0 ratio2 scale2 lam2]) gen l1 l2 ol w = (res, w') /\
    (too_short (w_jump w' ka) (w_jump w' kb) r c -> res = Err IndexError) /\
    (~ too_short (w_jump w' ka) (w_jump w' kb) r c ->
     exists ol', res = Ok ol' /\ shows f (pixel_voltage l1 c) (twice_displaced l2 r (height_of (w_jump w' ka)) (height_of (w_jump w' kb))) r c ol').
Proof.
  intros Sok Ud Sg Al Nk H1 H2 Hc Hr. destruct (Sg l1 l2 c r w H1 H2 Hc Hr) as (a & t & E0 & Ra & Ca & Sa & Va).
  pose proof (undistorted_reads gen Ud) as Rd.
  destruct (drawn src ka 0 ratio1 scale1 lam1 gen a t l1 l2 w Sok (or_introl eq_refl) H1 H2) as (w1 & G1 & _ & _ & D1). cbn [Z.eqb Pos.eqb] in G1. rewrite Ra in G1.
  set (gen1 := with_noise gen (occ_object src (Jumps ka 0 ratio1 scale1 lam1))).
  assert (In1 : forall w1 l2' r', fits (w_jump w1 ka) r' -> fst l2' < snd l2' -> (1 < r')%nat ->
    exists ol, gen1 l1 l2' (ResArray [Z.of_nat c; Z.of_nat r']) w1 = (Ok ol, w1) /\ shows f (pixel_voltage l1 c) (fun i => displaced l2' r' (height_of (w_jump w1 ka) i) i) r' c ol).
  { clear w1 G1 D1. intros w1 l2' r' Ft H2' Hr'. apply step_0; auto. { intros ? ? ? ?. now apply Al. }
    intros l2x rx H2x Hrx. destruct (Sg l1 l2x c rx w1 H1 H2x Hc Hrx) as (a' & t' & E' & Ra' & Ca' & Sa' & Va'). eexists. split; [exact E'|]. exists a', t'. auto. }
  destruct (In1 w1 l2 r (good_fits _ _ G1) H2 Hr) as (x & Ex & Shx). unfold gen1, with_noise, mbind in Ex.
  assert (Ew : gen l1 l2 (ResArray [Z.of_nat c; Z.of_nat r]) w1 = (Ok (Occ2 a, Lead2 t), w1)).
  { apply (reads_ok [] gen l1 l2 _ w w1 _ Rd); [intros k []|exact E0]. }
  rewrite Ew in Ex. cbn [fst snd] in Ex. rewrite <- D1 in Ex.
  destruct (od_noise (occ_object src (Jumps ka 0 ratio1 scale1 lam1)) (Occ2 a) (Lead2 t) l1 l2 gen false w) as [[ab|] w1'] eqn:E1; [|discriminate Ex].
  unfold ret in Ex. injection Ex as Ex <-. destruct Shx as (o1 & t1 & -> & Ro & Co & So & V1).
  destruct (drawn src kb 0 ratio2 scale2 lam2 gen1 o1 t1 l1 l2 w1' Sok (or_introl eq_refl) H1 H2) as (w2 & G2 & Fr & Fs & D2). cbn [Z.eqb Pos.eqb] in G2. rewrite Ro in G2.
  assert (Kp : keeps gen1). { apply with_noise_keeps. intros x1 x2 res wx. apply Ud. }
  pose proof (frozen_keeps kb 0 ratio2 scale2 lam2 gen1 (Occ2 o1) (Lead2 t1) l1 l2 w2 Kp) as Kf. rewrite <- D2 in Kf.
  exists (Occ2 a, Lead2 t), (match fst (od_noise (occ_object src (Jumps kb 0 ratio2 scale2 lam2)) (Occ2 o1) (Lead2 t1) l1 l2 gen1 false w1') with Ok r => Ok (fst r) | Err e => Err e end), w2.
  split; [exact E0|]. split.
  { cbn [map occupation_loop]. unfold mbind. cbn [fst snd]. rewrite E1, Ex. cbn [fst snd]. fold gen1.
    destruct (od_noise (occ_object src (Jumps kb 0 ratio2 scale2 lam2)) (Occ2 o1) (Lead2 t1) l1 l2 gen1 false w1') as [[r2|e] w2']; cbn [fst snd] in Kf |- *; subst w2'; reflexivity. }
  rewrite D2. rewrite <- (Fr ka Nk) in G1, V1. clear D1 D2 Kf Ex E1 Ew Fr Fs.
  set (m := highest (height_of (w_jump w2 kb)) r).
  destruct G2 as [Off|(noise & Hk & Ln & Z0)].
  { assert (Hm : m = 0%nat) by (apply highest_off; exact Off). unfold too_short. cbv zeta. fold m. split; [intros [_ [?|?]]; lia|]. intros _. rewrite frozen_off by exact Off. cbn [fst].
    eexists. split; [reflexivity|]. exists o1, t1. repeat split; auto; try apply So. intros i j Hi Hj. rewrite V1 by assumption. unfold twice_displaced. rewrite (height_off _ i Off). cbn [Nat.leb]. now rewrite Nat.sub_0_r. }
  assert (Hm : m = list_max noise) by (unfold m; rewrite Hk; apply highest_max; exact Ln).
  set (step := (snd l2 - fst l2) / INR r).
  assert (Ps : 0 < step). { unfold step. apply Rdiv_lt_0_compat; [lra|]. apply lt_0_INR. lia. }
  assert (As : (1 < m)%nat -> fst l2 - INR m * step < fst l2 - step). { intros L. apply lt_INR in L. change (INR 1) with 1 in L. nra. }
  split.
  - intros [Act Q]. cbv zeta in Q. fold m in Q.
    assert (Ha : exists n1, w_jump w2 ka = mk_jump_state (Some true) (Some n1) /\ length n1 = r).
    { destruct G1 as [Off|(n1 & E & L & _)]; [contradiction|]. now exists n1. }
    destruct Ha as (n1 & Ha & La).
    cbn [occ_object jumps_object od_noise jump_scan scan_shape]. unfold jump_draw. rewrite Hk. cbn [js_activated js_noise negb andb]. rewrite <- Hk, set_same, world_eta.
    change (rows (amap2 lift_occ o1)) with (rows o1). change (cols (amap2 lift_occ o1)) with (cols o1). unfold jump_calls. rewrite !sort_id by lra. cbn [Z.eqb Pos.eqb]. rewrite <- Hm, Co, Ro. fold step.
    rewrite (proj2 (Nat.ltb_lt 0 m)) by lia. destruct (Nat.ltb_spec 1 m) as [L|L]; cbn [run_calls]; unfold mbind, gen1.
    + rewrite (too_wide_0 ka ratio1 scale1 lam1 f gen w2 l1 _ c m n1 Sg Al Ha); [reflexivity|exact H1|exact (As L)|exact Hc|lia|lia].
    + assert (M1 : m = 1%nat) by lia. rewrite M1. change (INR 1) with 1.
      pose proof (kept_line ka 0 ratio1 scale1 lam1 gen w2 l1 (fst l2 - 1 * step, fst l2 - step) c n1 (or_introl eq_refl)) as Kl.
      rewrite (proj2 (Nat.ltb_lt (length n1) c)) in Kl by lia. rewrite Kl; [reflexivity| |exact Ha|lra|cbn [fst snd]; lra|lia]. intros ? ? ? ?. now apply Al.
  - intros Nt.
    assert (Fit : forall n, js_activated (w_jump w2 ka) = Some true /\ (r < n)%nat \/ fits (w_jump w2 ka) n).
    { intros n. destruct G1 as [Off|(n1 & E & L & Z)]; [right; now left|]. destruct (le_lt_dec n r) as [Q|Q]; [right; right; exists n1; split; [exact E|]; split; [lia|exact Z]|].
      left. rewrite E. split; [reflexivity|exact Q]. }
    assert (Pk : exists so st, (1 < m)%nat -> gen1 l1 (fst l2 - INR m * step, fst l2 - step) (ResArray [Z.of_nat (cols o1); Z.of_nat m]) w2 = (Ok (Occ2 so, Lead2 st), w2) /\
       rows so = m /\ cols so = cols o1 /\ same_shape st so /\
       forall i j, (i < m)%nat -> (j < c)%nat -> cell so i j = f (pixel_voltage l1 c j) (displaced (fst l2 - INR m * step, fst l2 - step) m (height_of (w_jump w2 ka) i) i)).
    { destruct (le_lt_dec m 1) as [L|L]; [exists o1, t1; lia|]. destruct (Fit m) as [[Act Q]|Ft]; [exfalso; apply Nt; split; [exact Act|]; cbv zeta; fold m; left; lia|].
      destruct (In1 w2 (fst l2 - INR m * step, fst l2 - step) m Ft (As L) L) as (ol & Eo & so & st & -> & Rs & Cs & Ss & Vs). exists so, st. intros _. rewrite Co. auto. }
    destruct Pk as (so & st & Pk).
    destruct (frozen_0 src kb ratio2 scale2 lam2 gen1 w2 o1 t1 l1 l2 noise so st Hk ltac:(lia) So H1 H2 Z0) as (o' & t' & E & R' & C' & S' & V').
    { rewrite <- Hm, Ro. fold step. intros L. destruct (Pk L) as (A & B & C & D & _). auto. }
    { rewrite <- Hm, Co, Ro. fold step. intros L. rewrite L. change (INR 1) with 1.
      destruct (Fit c) as [[Act Q]|[Off|(n1 & Ha & La & _)]]; [exfalso; apply Nt; split; [exact Act|]; cbv zeta; fold m; right; lia| |].
      - destruct (frozen_line src ka 0 ratio1 scale1 lam1 gen w2 c (or_introl eq_refl) (or_introl Off) (fun x y Hx Hy => Al x y c w2 Hx Hy Hc) l1 (fst l2 - 1 * step, fst l2 - step)) as (a' & b' & Eg & _ & _); [lra|cbn [fst snd]; lra|]. now exists a', b'.
      - pose proof (kept_line ka 0 ratio1 scale1 lam1 gen w2 l1 (fst l2 - 1 * step, fst l2 - step) c n1 (or_introl eq_refl)) as Kl.
        rewrite (proj2 (Nat.ltb_ge (length n1) c)) in Kl by lia. apply Kl; [|exact Ha|lra|cbn [fst snd]; lra|lia]. intros ? ? ? ?. now apply Al. }
    rewrite E. cbn [fst]. eexists. split; [reflexivity|]. exists o', t'. split; [reflexivity|]. split; [congruence|]. split; [congruence|]. split; [exact S'|].
    intros i j Hi Hj. rewrite V' by congruence. rewrite <- Hm. unfold twice_displaced. fold m. fold step.
    assert (Hh : height_of (w_jump w2 kb) i = nth i noise 0%nat) by (rewrite Hk; reflexivity). rewrite Hh.
    destruct (Nat.leb_spec (nth i noise 0%nat) i) as [L|L].
    + apply V1; [lia|exact Hj].
    + assert (nth i noise 0 <= m)%nat by (rewrite Hm; apply list_max_ge, nth_In; lia).
      assert (Lm : (1 < m)%nat). { destruct (Nat.eq_dec i 0) as [Q|Q]; [subst i; lia|lia]. }
      destruct (Pk Lm) as (_ & _ & _ & _ & Vs). now rewrite Vs by (try exact Hj; lia).
Qed.
End Same.
