(** Concrete sensors for the examples and counterexamples. *)
From Coq Require Import Permutation Sorted.
From Verif Require Import RPrelude Arr ModelSupport ModelTct ModelCsd ModelDistortions ModelSensor
  SpecSupport SpecSensor ProofsSupport ProofsTct ProofsSensor ProofsScanSensor ProofsLabelScan ProofsSensorMore.
Local Open Scope R_scope.

(** A peak whose response does not matter. *)
Definition at_mu (m : R) : peak := mk_peak m (fun _ _ => 0).
(** Sensor dot on sensor gate 1, barriers on one sensor gate each, 10 above pinch-off; plunger gate 2
    acts on the sensor dot with lever-arm g. Four pixels, sensor potentials 0, 1, 2, 3 + g * v2. *)
Definition demo (g : R) (ps : list peak) (deform : list (nat * (R -> R -> R))) : scan_sensor :=
  mk_scan_sensor (mk_barrier 0 20 (fun _ => 1)) (mk_barrier 0 20 (fun _ => 1)) (Some ps)
    (mk_rows3 (1, 0) (1, 0) (0, 1)) (mk_rows3 (0, g) (0, 0) (0, 0)) (mk_rows3 (0, 0) (0, 0) (0, 0))
    (mk_three 0 10 10) None deform.
Definition occ4 : occupation := Occ1 (mk_arr1 4 (fun _ => (0, 0))).
Definition demo_pots (g v2 : R) : potentials :=
  Pot1 (mk_arr1 4 (fun i => pixel_potential (demo g [] []) (0, 0) (volts1 (0, 0) (v2, v2) 4 i) (volts1 (0, 3) (0, 0) 4 i))).
Definition demo_hidden (v2 : R) : hidden := mk_hidden (0, 0) (v2, v2) (0, 3) (0, 0) occ4.
Lemma demo_potential g ps deform v2 :
  scan_potential (demo g ps deform) occ4 (VFix 0) (VFix v2) (VSweep 0 3) (VSweep 0 0) = Ok (demo_pots g v2, demo_hidden v2).
Proof. reflexivity. Qed.
Lemma volt_03 i : (i < 4)%nat -> volt_at (0, 3) 4 i = INR i.
Proof. intros H. unfold volt_at. cbn [Nat.eqb fst snd]. replace (INR (4 - 1)) with 3 by (simpl; lra). field. Qed.
Lemma demo_cell g v2 i : (i < 4)%nat ->
  at_sensor (pcell (demo_pots g v2) 0 i) = INR i + g * v2 /\ 
  at_barrier1 (pcell (demo_pots g v2) 0 i) = 10 + INR i /\ at_barrier2 (pcell (demo_pots g v2) 0 i) = 10.
Proof.
  intros H. cbn [demo_pots pcell cell1]. unfold pixel_potential, dot2, volts1. rewrite !grid_volt_at by auto. rewrite volt_03 by auto.
  rewrite !volt_at_const. cbn [demo ss_dot ss_gate ss_sensor ss_offset row0 row1 row2 at_sensor at_barrier1 at_barrier2 fst snd].
  repeat split; ring.
Qed.
Lemma demo_sensor_at g v2 i : (i < 4)%nat -> sensor_at (demo_pots g v2) 0 i = INR i + g * v2.
Proof. intros H. apply demo_cell, H. Qed.
Lemma demo_point g ps deform v2 : calc_point (demo g ps deform) (demo_hidden v2) 20 20 true = Ok (10, 10).
Proof.
  unfold calc_point. cbn [demo_hidden h_occ occ4 first_occ]. unfold get1. cbn [len1 Nat.ltb Nat.leb cell1 bind].
  cbn [demo ss_dot ss_gate ss_sensor ss_offset row0 row1 row2 at_sensor at_barrier1 at_barrier2 fst snd h_g1 h_g2].
  rewrite Rabs_R0. rewrite Rltb_true by lra. unfold dot2. cbn [fst snd]. f_equal. f_equal; field.
Qed.
Lemma demo_nonempty g v2 : pot_nonempty (demo_pots g v2).
Proof. simpl. lia. Qed.
Lemma demo_labels g ps deform v2 : exists L h', 
  get_sensor_scan_labels (demo g ps deform) (demo_hidden v2) (VFix 0) (VFix v2) (VSweep 0 3) (VSweep 0 0) (demo_pots g v2) = Ok (L, h').
Proof.
  apply (labels_total _ _ _ _ _ _ _ ps (0, 0)); try (do 2 eexists; reflexivity); try reflexivity.
  - simpl. lia.
  - intros (a & b & E). discriminate.
  - intros (a & b & E). discriminate.
Qed.
Lemma demo_area g ps deform v2 L h' i : (i < 4)%nat ->
  get_sensor_scan_labels (demo g ps deform) (demo_hidden v2) (VFix 0) (VFix v2) (VSweep 0 3) (VSweep 0 0) (demo_pots g v2) = Ok (L, h') ->
  at_ 0%nat (conductive L) 0 i = if Rltb 10 (INR i + g * v2) then 2%nat else 1%nat.
Proof.
  intros Hi H. destruct (labels_areas _ _ _ _ _ _ _ _ _ (demo_nonempty g v2) H) as (o & pt & q & Ho & Hpt & Hq & A).
  cbn [demo ss_barrier1 ss_barrier2 fully_conductive] in Hpt. fold (demo g ps deform) in Hpt. rewrite demo_point in Hpt. injection Hpt as <-.
  cbn in Ho. injection Ho as <-. destruct (A 0%nat i ltac:(simpl; lia) Hi) as (_ & A1 & A2).
  destruct Hq as (Q & _). unfold affine_scan, affine in Q. cbn [demo ss_dot ss_gate ss_sensor ss_offset row0 at_sensor fst snd limits_of] in Q.
  destruct (demo_cell g v2 i Hi) as (C0 & C1 & C2).
  assert (O : is_open (demo g ps deform) (pcell (demo_pots g v2) 0 i)).
  { split; rewrite ?C1, ?C2; cbn [demo ss_barrier1 ss_barrier2 pinch_off]; pose proof (pos_INR i); lra. }
  destruct (Rltb_spec 10 (INR i + g * v2)) as [L1|L1]; [apply A2|apply A1]; auto; rewrite C0, Q; lra.
Qed.

(** nearest pixel in the row 0, 1, 2, 3 *)
Lemma demo_row g v2 : sensor_row (demo_pots g v2) 0 = [INR 0 + g * v2; INR 1 + g * v2; INR 2 + g * v2; INR 3 + g * v2].
Proof. unfold sensor_row. cbn [ncols demo_pots len1 seq map]. fold (demo_pots g v2). rewrite !demo_sensor_at by lia. reflexivity. Qed.
Lemma nearest_row4 j : (j < 4)%nat -> nearest [0; 1; 2; 3] (INR j) j.
Proof.
  intros H. split; [exact H|].
  assert (N : forall k, (k < 4)%nat -> nth k [0; 1; 2; 3] 0 = INR k).
  { intros [|[|[|[|k]]]] Hk; simpl; try lra; lia. }
  split; intros k Hk; rewrite (N j) by lia.
  - rewrite Rminus_diag_eq, Rabs_R0 by reflexivity. apply Rabs_pos.
  - rewrite (N k) by lia. rewrite Rminus_diag_eq, Rabs_R0 by reflexivity. apply Rabs_pos_lt.
    apply lt_INR in Hk. lra.
Qed.
Lemma demo_row0 : sensor_row (demo_pots 0 0) 0 = [0; 1; 2; 3].
Proof. rewrite demo_row. simpl. repeat f_equal; lra. Qed.
Lemma demo_marks j k : (j < 4)%nat -> (j = 1 \/ j = 2)%nat -> (marks (mean_step (demo_pots 0 0)) (sensor_row (demo_pots 0 0) 0) (INR j) k <-> k = j).
Proof.
  intros Hj H. rewrite demo_row0. split.
  - intros [N _]. eapply nearest_unique; [exact N|]. apply nearest_row4, Hj.
  - intros ->. split; [apply nearest_row4, Hj|]. left. simpl. lia.
Qed.

(** Peaks at 2 and 1, in this order: the peak at the larger potential has the smaller label. *)
Lemma unsorted_labels : exists L h',
  get_sensor_scan_labels (demo 0 [at_mu 2; at_mu 1] []) (demo_hidden 0) (VFix 0) (VFix 0) (VSweep 0 3) (VSweep 0 0) (demo_pots 0 0) = Ok (L, h') /\
  labelled L 0 1 1 /\ labelled L 0 2 0.
Proof.
  destruct (demo_labels 0 [at_mu 2; at_mu 1] [] 0) as (L & h' & H). exists L, h'. split; [exact H|].
  assert (G : forall j, (j = 1 \/ j = 2)%nat -> exists k, labelled L 0 j k /\ exists pk, nth_error [at_mu 2; at_mu 1] k = Some pk /\
     marks (mean_step (demo_pots 0 0)) (sensor_row (demo_pots 0 0) 0) (mu0 pk) j).
  { intros j Hj. destruct (labels_plain (demo 0 [at_mu 2; at_mu 1] []) (demo_hidden 0) (VFix 0) (VFix 0) (VSweep 0 3) (VSweep 0 0) (demo_pots 0 0) L h' [at_mu 2; at_mu 1] (demo_nonempty 0 0) eq_refl eq_refl H 0 j ltac:(simpl; lia) ltac:(simpl; lia)) as [A B].
    assert (Hj4 : (j < 4)%nat) by lia.
    assert (C : at_ 0%nat (conductive L) 0 j = 1%nat).
    { rewrite (demo_area _ _ _ _ _ _ j Hj4 H). rewrite Rltb_false; [reflexivity|]. destruct Hj as [->| ->]; simpl; lra. }
    destruct (B C (2 - j)%nat (at_mu (INR j))) as (k & Hk).
    - destruct Hj as [->| ->]; reflexivity.
    - apply demo_marks; auto.
    - exists k. split; [exact Hk|]. destruct (A k Hk) as (pk & E & M & _). eauto. }
  assert (U : forall pk m j, pk = at_mu m -> (m = 1 \/ m = 2) -> marks (mean_step (demo_pots 0 0)) (sensor_row (demo_pots 0 0) 0) (mu0 pk) j -> INR j = m).
  { intros pk m j -> [->| ->] M; simpl mu0 in M.
    - change 1 with (INR 1) in M. apply demo_marks in M; [|lia|lia]. subst j. reflexivity.
    - replace 2 with (INR 2) in M by (simpl; lra). apply demo_marks in M; [|lia|lia]. subst j. simpl. lra. }
  split.
  - destruct (G 1%nat) as (k & Hk & pk & E & M); [auto|]. destruct k as [|[|[|k]]]; simpl in E; try discriminate; [|exact Hk].
    exfalso. injection E as <-. apply (U (at_mu 2) 2) in M; auto. simpl in M. lra.
  - destruct (G 2%nat) as (k & Hk & pk & E & M); [auto|]. destruct k as [|[|[|k]]]; simpl in E; try discriminate; [exact Hk|].
    exfalso. injection E as <-. apply (U (at_mu 1) 1) in M; auto. simpl in M. lra.
Qed.

(** Plunger gate 2 at 9: the fourth pixel has sensor potential 12, the fully conductive point 19. *)
Lemma threshold_wrong : exists L h' q,
  let s := demo 1 [at_mu 2] [] in
  scan_potential s occ4 (VFix 0) (VFix 9) (VSweep 0 3) (VSweep 0 0) = Ok (demo_pots 1 9, demo_hidden 9) /\
  get_sensor_scan_labels s (demo_hidden 9) (VFix 0) (VFix 9) (VSweep 0 3) (VSweep 0 0) (demo_pots 1 9) = Ok (L, h') /\
  calc_point s (demo_hidden 9) (fully_conductive (ss_barrier1 s)) (fully_conductive (ss_barrier2 s)) true = Ok (10, 10) /\
  pot_spec s (0, 0) (0, 9) (10, 10) q /\ at_barrier1 q = fully_conductive (ss_barrier1 s) /\ at_barrier2 q = fully_conductive (ss_barrier2 s) /\
  at_sensor (pcell (demo_pots 1 9) 0 3) < at_sensor q /\ at_ 0%nat (conductive L) 0 3 = 2%nat.
Proof.
  destruct (demo_labels 1 [at_mu 2] [] 9) as (L & h' & H). exists L, h', (pixel_potential (demo 1 [at_mu 2] []) (0, 0) (0, 9) (10, 10)).
  cbv zeta. split; [apply demo_potential|]. split; [exact H|]. split; [apply demo_point|]. split; [apply pixel_potential_spec|].
  split; [|split; [|split]].
  - unfold pixel_potential, dot2. cbn. lra.
  - unfold pixel_potential, dot2. cbn. lra.
  - destruct (demo_cell 1 9 3 ltac:(lia)) as (C & _). rewrite C. unfold pixel_potential, dot2. cbn. lra.
  - rewrite (demo_area _ _ _ _ _ _ 3 ltac:(lia) H). rewrite Rltb_true; [reflexivity|]. simpl. lra.
Qed.

(** An identity deformation of the first of two unsorted peaks: peak 1 is labelled at the position of
    peak 0. *)
Definition keep (_ m : R) : R := m.
Lemma unsorted_painters : painters [at_mu 2; at_mu 1] = [(0%nat, (at_mu 1, 1%nat)); (1%nat, (at_mu 2, 0%nat))].
Proof.
  unfold painters, sort_peaks. cbn [length seq combine fold_right insert_peak]. unfold at_mu. cbn [fst mu0].
  rewrite Rleb_false by lra. reflexivity.
Qed.
Lemma deformed_unsorted : exists L h',
  get_sensor_scan_labels (demo 0 [at_mu 2; at_mu 1] [(0%nat, keep)]) (demo_hidden 0) (VFix 0) (VFix 0) (VSweep 0 3) (VSweep 0 0) (demo_pots 0 0) = Ok (L, h') /\
  labelled L 0 2 1 /\ at_ 0%nat (conductive L) 0 1 = 1%nat /\ at_ 0%nat (coulomb L) 0 1 = 0%nat.
Proof.
  set (ps := [at_mu 2; at_mu 1]). set (s := demo 0 ps [(0%nat, keep)]).
  destruct (demo_labels 0 ps [(0%nat, keep)] 0) as (L & h' & H). exists L, h'. split; [exact H|]. fold s in H.
  destruct (labels_full _ _ _ _ _ _ _ _ _ (demo_nonempty 0 0) H) as (l1 & l2 & occ & qs & pt & W1 & W2 & Ho & Hps & Hpt & E1 & S1 & S2 & Q).
  injection Hps as <-. set (hl := label_hidden occ (fst (limits_of (VFix 0))) pt) in *.
  assert (C : forall j, (j < 4)%nat -> at_ 0%nat (conductive L) 0 j = 1%nat).
  { intros j Hj. unfold s in H. rewrite (demo_area _ _ _ _ _ _ j Hj H). rewrite Rltb_false; [reflexivity|].
    apply lt_INR in Hj. simpl in Hj. lra. }
  (* both peaks search for 2 *)
  assert (R0 : forall x, In x (painters ps) -> (marks (mean_step (demo_pots 0 0)) (search_row s ps hl (demo_pots 0 0) l1 l2 x 0) (mu0 (fst (snd x))) 2) /\
     forall j, marks (mean_step (demo_pots 0 0)) (search_row s ps hl (demo_pots 0 0) l1 l2 x 0) (mu0 (fst (snd x))) j -> j = 2%nat).
  { assert (G : forall x, In x (painters ps) -> forall c, search_pos s ps hl (demo_pots 0 0) l1 l2 x 0 c = 2).
    { intros x Hx c. unfold ps in Hx. rewrite unsorted_painters in Hx. unfold search_pos, shift_of, s, ps.
      destruct Hx as [<-|[<-|[]]]; cbn [fst snd demo ss_deform]; unfold deform_of, keep; simpl; lra. }
    intros x Hx. rewrite search_marks.
    assert (EQ : forall j, marks_at (demo_pots 0 0) (search_pos s ps hl (demo_pots 0 0) l1 l2 x 0) 0 j <->
       marks (mean_step (demo_pots 0 0)) (sensor_row (demo_pots 0 0) 0) (INR 2) j).
    { intros j. rewrite (marks_shift _ (sensor_row _ _)). unfold marks_at, sensor_row. rewrite map_map.
      replace (map (fun c => sensor_at (demo_pots 0 0) 0 c - search_pos s ps hl (demo_pots 0 0) l1 l2 x 0 c) (seq 0 (ncols (demo_pots 0 0))))
        with (map (fun x0 => sensor_at (demo_pots 0 0) 0 x0 - INR 2) (seq 0 (ncols (demo_pots 0 0)))); [reflexivity|].
      apply map_ext. intros c. rewrite G by exact Hx. simpl. lra. }
    split; [apply EQ, demo_marks; auto|]. intros j Mj. apply search_marks, EQ, demo_marks in Mj; auto. }
  destruct (Q 0%nat 2%nat ltac:(simpl; lia) ltac:(simpl; lia)) as (Q1 & _ & Q3).
  destruct (Q 0%nat 1%nat ltac:(simpl; lia) ltac:(simpl; lia)) as (P1 & _ & P3).
  rewrite (C 2%nat) in Q1 by lia. rewrite (C 1%nat) in P1 by lia.
  destruct (Q3 (eq_sym Q1)) as [Q4 _]. destruct (P3 (eq_sym P1)) as [_ P5].
  split; [|split; [apply C; lia|]].
  - unfold labelled. rewrite (Q4 (0%nat, (at_mu 1, 1%nat))); [reflexivity|].
    exists [], [(1%nat, (at_mu 2, 0%nat))]. split; [apply unsorted_painters|]. split; [|intros y []].
    apply (R0 (0%nat, (at_mu 1, 1%nat))). unfold ps. rewrite unsorted_painters. left. reflexivity.
  - apply P5. intros x Hx M. destruct (R0 x Hx) as [_ U]. apply U in M. discriminate.
Qed.

(** Repeated response of a charge stability diagram with final rise. *)
Definition rising : scan_sensor :=
  mk_scan_sensor (mk_barrier 0 0 (fun _ => 1)) (mk_barrier 0 0 (fun _ => 1)) (Some [])
    (mk_rows3 (1, 1) (1, 0) (0, 1)) (mk_rows3 (0, 0) (1, 0) (0, 1)) (mk_rows3 (0, 0) (0, 0) (0, 0))
    (mk_three 10 0 0) (Some (fun _ off => off)) [].
Lemma rising_twice : exists p h im h1 im2 h2,
  scan_potential rising (Occ1 (mk_arr1 2 (fun _ => (0, 0)))) (VSweep 1 2) (VSweep 1 2) (VFix 0) (VFix 0) = Ok (p, h) /\
  scan_response rising h p = Ok (im, Some [], h1) /\ scan_response rising h1 p = Ok (im2, Some [], h2) /\
  img_pix im 0 0 (10 / 21) /\ img_pix im2 0 0 (8 / 17).
Proof.
  set (s := rising). set (occ := Occ1 (mk_arr1 2 (fun _ : nat => (0, 0)))).
  set (p := Pot1 (mk_arr1 2 (fun i => pixel_potential s (0, 0) (volts1 (1, 2) (1, 2) 2 i) (volts1 (0, 0) (0, 0) 2 i)))).
  set (h := mk_hidden (1, 2) (1, 2) (0, 0) (0, 0) occ). set (pt1 := (0, 0) : point). set (pt2 := (-1, -1) : point).
  set (h1 := hidden_after h (0, 0) pt1). set (h2 := hidden_after h1 (0, 0) pt2).
  assert (X1 : calc_point s h 0 0 (sensor_is_swept h) = Ok pt1).
  { unfold sensor_is_swept, equal_ends. cbn [h h_g1 h_g2 fst snd]. rewrite Reqb_false by lra. cbn [orb].
    unfold calc_point. cbn [h h_occ occ first_occ]. unfold get1. cbn [len1 Nat.ltb Nat.leb cell1 bind].
    cbn [s rising ss_dot ss_gate ss_sensor ss_offset row0 row1 row2 at_sensor at_barrier1 at_barrier2 fst snd h_s1 h_s2].
    rewrite Rabs_R0. rewrite Rltb_true by lra. unfold dot2, pt1. cbn [fst snd h h_s1 h_s2]. f_equal. f_equal; field. }
  assert (X2 : calc_point s h1 0 0 (sensor_is_swept h1) = Ok pt2).
  { unfold sensor_is_swept, equal_ends. cbn [h1 hidden_after h h_g1 h_g2 fst snd]. rewrite Reqb_true by reflexivity. cbn [orb].
    unfold calc_point. cbn [h1 hidden_after h_occ first_occ]. unfold get1. cbn [len1 Nat.ltb Nat.leb cell1 bind].
    cbn [s rising ss_dot ss_gate ss_sensor ss_offset row0 row1 row2 at_sensor at_barrier1 at_barrier2 fst snd h_s1 h_s2 h h_g1 h_g2].
    rewrite Rabs_R0. rewrite Rltb_true by lra. unfold dot2, pt2. cbn [fst snd h h1 hidden_after h_g1 h_g2]. f_equal. f_equal; field. }
  destruct (scan_response_rise s h p (fun _ off => off) (0, 0) pt1) as (im & E & Eim); auto.
  { left. reflexivity. } { simpl. lia. }
  destruct (scan_response_rise s h1 p (fun _ off => off) (0, 0) pt2) as (im2 & E2 & Eim2); auto.
  { left. reflexivity. } { simpl. lia. }
  exists p, h, im, h1, im2, h2. split; [reflexivity|]. split; [exact E|]. split; [exact E2|].
  assert (B : forall x, base_dot s x = 0) by (intros x; reflexivity).
  split.
  - rewrite Eim. apply reshape_pix. split; [simpl; lia|]. split; [simpl; lia|]. rewrite B.
    replace (rise_offset s h (0, 0) pt1) with 10 by (unfold rise_offset, pixel_potential, dot2; cbn; lra).
    rewrite Rmax_right by lra. cbn [s rising ss_barrier1 ss_barrier2 get_value]. unfold series. rewrite Reqb_false by lra. field.
  - rewrite Eim2. apply reshape_pix. split; [simpl; lia|]. split; [simpl; lia|]. rewrite B.
    replace (rise_offset s h1 (0, 0) pt2) with 8 by (unfold rise_offset, pixel_potential, dot2; cbn; lra).
    rewrite Rmax_right by lra. cbn [s rising ss_barrier1 ss_barrier2 get_value]. unfold series. rewrite Reqb_false by lra. field.
Qed.
Lemma demo_ascends : sensor_at (demo_pots 0 0) 0 1 < sensor_at (demo_pots 0 0) 0 2.
Proof. rewrite !demo_sensor_at by lia. simpl. lra. Qed.
Lemma rising_differs : exists s occ v w p h im h1 im2 h2 x y,
  scan_potential s occ v v w w = Ok (p, h) /\
  scan_response s h p = Ok (im, ss_peaks s, h1) /\ scan_response s h1 p = Ok (im2, ss_peaks s, h2) /\
  img_pix im 0 0 x /\ img_pix im2 0 0 y /\ y < x.
Proof.
  destruct rising_twice as (p & h & im & h1 & im2 & h2 & A & B & C & D & E).
  exists rising, (Occ1 (mk_arr1 2 (fun _ => (0, 0)))), (VSweep 1 2), (VFix 0), p, h, im, h1, im2, h2, (10 / 21), (8 / 17).
  split; [exact A|]. split; [exact B|]. split; [exact C|]. split; [exact D|]. split; [exact E|]. lra.
Qed.
Lemma threshold_witness : exists s p h L h' v2 o pt q,
  scan_potential s occ4 (VFix 0) (VFix v2) (VSweep 0 3) (VSweep 0 0) = Ok (p, h) /\
  get_sensor_scan_labels s h (VFix 0) (VFix v2) (VSweep 0 3) (VSweep 0 0) p = Ok (L, h') /\
  first_occ occ4 = Ok o /\ pot_spec s o (0, v2) pt q /\
  at_barrier1 q = fully_conductive (ss_barrier1 s) /\ at_barrier2 q = fully_conductive (ss_barrier2 s) /\
  at_sensor (pcell p 0 3) < at_sensor q /\ at_ 0%nat (conductive L) 0 3 = 2%nat.
Proof.
  destruct threshold_wrong as (L & h' & q & A & B & _ & D & E & F & G & I).
  exists (demo 1 [at_mu 2] []), (demo_pots 1 9), (demo_hidden 9), L, h', 9, (0, 0), (10, 10), q.
  split; [exact A|]. split; [exact B|]. split; [reflexivity|]. auto 10.
Qed.
Lemma unsorted_witness : exists s p h L h' ps pk, ss_peaks s = Some ps /\ nth_error ps 1 = Some pk /\
  get_sensor_scan_labels s h (VFix 0) (VFix 0) (VSweep 0 3) (VSweep 0 0) p = Ok (L, h') /\
  (forall mid c, shown_peak s mid (0, 3) (0, 0) p 0 c 1 pk = sensor_at p 0 1) /\
  at_ 0%nat (conductive L) 0 1 = 1%nat /\ at_ 0%nat (coulomb L) 0 1 = 0%nat /\
  labelled L 0 2 1 /\ sensor_at p 0 1 < sensor_at p 0 2.
Proof.
  destruct deformed_unsorted as (L & h' & A & B & C & D).
  exists (demo 0 [at_mu 2; at_mu 1] [(0%nat, keep)]), (demo_pots 0 0), (demo_hidden 0), L, h', [at_mu 2; at_mu 1], (at_mu 1).
  split; [reflexivity|]. split; [reflexivity|]. split; [exact A|]. split; [|auto using demo_ascends].
  intros mid c. rewrite demo_sensor_at by lia. unfold shown_peak, peak_position. simpl. lra.
Qed.
Definition logistic : glf_params :=
  {| asymptote_left := 0; asymptote_right := 1; growth_rate := 1; asymmetry := 1; shape_factor := 1;
     denominator_offset := 1; offset := 0 |}.
Lemma logistic_admissible : glf_admissible logistic.
Proof. unfold glf_admissible, logistic. simpl. repeat split; lra. Qed.
Lemma norm2_34 : norm2 (3, 4) = 5.
Proof. unfold norm2. cbn [fst snd]. replace (3 ^ 2 + 4 ^ 2) with (5 * 5) by ring. apply sqrt_square. lra. Qed.
Lemma unsorted_descends : exists s h p L h' j j' k k', ss_deform s = [] /\
  get_sensor_scan_labels s h (VFix 0) (VFix 0) (VSweep 0 3) (VSweep 0 0) p = Ok (L, h') /\
  labelled L 0 j k /\ labelled L 0 j' k' /\ sensor_at p 0 j < sensor_at p 0 j' /\ (k' < k)%nat.
Proof.
  destruct unsorted_labels as (L & h' & E & A & B).
  exists (demo 0 [at_mu 2; at_mu 1] []), (demo_hidden 0), (demo_pots 0 0), L, h', 1%nat, 2%nat, 1%nat, 0%nat.
  auto 10 using demo_ascends.
Qed.
