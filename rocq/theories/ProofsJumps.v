(** Proofs about dot jumps. *)
From Verif Require Import RPrelude Arr ModelJumps SpecJumps.
Local Open Scope nat_scope.

Section Blockwise.
Context {A : Type}.
Variable isnan : A -> bool.

(** *** axis 1 *)
Lemma jump_write_1_ok (o s : arr2 A) nj i j k :
  same_shape s o -> i < rows o -> j + k < cols o ->
  jump_write_1 isnan o s nj i j k =
  Ok (mk_arr2 (rows s) (cols s)
        (fun i' j' => if (i' =? i) && (j' =? j + k) then
                        (if isnan (cell o i (j + k - nj)) then cell o i (j + k) else cell o i (j + k - nj))
                      else cell s i' j')).
Proof.
  intros [H1 H2] Hi Hj. unfold jump_write_1.
  rewrite get2_ok by lia. cbn [bind]. destruct (isnan (cell o i (j + k - nj))).
  - rewrite get2_ok by lia. cbn [bind]. rewrite set2_ok by lia. reflexivity.
  - rewrite set2_ok by lia. reflexivity.
Qed.

(** the k loop only touches pixels of row i at or right of j + k *)
Lemma jump_k_1_frame (o : arr2 A) nj i j : i < rows o ->
  forall n k s, same_shape s o ->
  exists s', jump_k_1 isnan n o s nj i j k = Ok s' /\ same_shape s' o /\
    (forall i' j', (i' <> i \/ j' < j + k) -> cell s' i' j' = cell s i' j').
Proof.
  intros Hi n; induction n as [|n IH]; intros k s Hs; cbn [jump_k_1].
  - exists s; auto.
  - destruct (Nat.leb_spec (cols o) (j + k)) as [L|L]; [exists s; auto|].
    rewrite jump_write_1_ok by auto. cbn [bind].
    match goal with |- context [jump_k_1 _ _ _ ?s1 _ _ _ _] => destruct (IH (S k) s1) as (s' & E & Sh & F) end.
    { destruct Hs; split; simpl; auto. }
    exists s'; split; [exact E|]. split; [exact Sh|].
    intros i' j' H. rewrite F by lia. simpl.
    destruct (Nat.eqb_spec i' i); [|reflexivity].
    destruct (Nat.eqb_spec j' (j + k)); [lia|reflexivity].
Qed.

Lemma jump_j_1_ok (o : arr2 A) noise i j s nj :
  i < rows o -> j < cols o -> same_shape s o -> nth_error noise j = Some nj ->
  exists s', jump_j_1 isnan o noise i s j = Ok s' /\ same_shape s' o /\
    cell s' i j = jumped isnan (cell o i) nj j /\
    (forall i' j', (i' <> i \/ j' < j) -> cell s' i' j' = cell s i' j').
Proof.
  intros Hi Hj Hs Hn. unfold jump_j_1, get_item. rewrite Hn. cbn [bind].
  replace (nj + 1) with (S nj) by lia. cbn [jump_k_1].
  destruct (Nat.leb_spec (cols o) (j + 0)) as [L|L]; [lia|].
  rewrite jump_write_1_ok by (auto; lia). cbn [bind].
  match goal with |- context [jump_k_1 _ _ _ ?s1 _ _ _ _] =>
    destruct (jump_k_1_frame o nj i j Hi nj 1 s1) as (s' & E & Sh & F) end.
  { destruct Hs; split; simpl; auto. }
  exists s'. split; [exact E|]. split; [exact Sh|]. split.
  - rewrite F by lia. simpl. rewrite Nat.eqb_refl. replace (j + 0) with j by lia.
    rewrite Nat.eqb_refl. reflexivity.
  - intros i' j' H. rewrite F by lia. simpl.
    destruct (Nat.eqb_spec i' i); [|reflexivity].
    destruct (Nat.eqb_spec j' (j + 0)); [lia|reflexivity].
Qed.

Lemma jump_row_1 (o : arr2 A) noise i : i < rows o -> cols o <= length noise ->
  forall m s, m <= cols o -> same_shape s o ->
  exists s', foldM (jump_j_1 isnan o noise i) (seq 0 m) s = Ok s' /\ same_shape s' o /\
    (forall j, j < m -> cell s' i j = jumped isnan (cell o i) (nth j noise 0) j) /\
    (forall i' j, i' <> i -> cell s' i' j = cell s i' j).
Proof.
  intros Hi Hn m; induction m as [|m IH]; intros s Hm Hs.
  - exists s; split; [reflexivity|]. repeat split; try apply Hs; auto. lia.
  - destruct (IH s ltac:(lia) Hs) as (s1 & E & Sh & F1 & F2).
    rewrite seq_S, foldM_app, E. cbn [foldM Nat.add].
    destruct (jump_j_1_ok o noise i m s1 (nth m noise 0)) as (s' & E' & Sh' & C & F'); auto; try lia.
    { apply nth_error_nth'; lia. }
    rewrite E'. exists s'. split; [reflexivity|]. split; [exact Sh'|]. split.
    + intros j Hj. destruct (Nat.eq_dec j m) as [->|Hne]; [exact C|].
      rewrite F' by lia. apply F1; lia.
    + intros i' j H. rewrite F' by auto. apply F2; auto.
Qed.

Lemma jumps_axis_1_ok (o empty : arr2 A) noise :
  same_shape empty o -> cols o <= length noise ->
  exists s', jumps_axis_1 isnan o empty noise = Ok s' /\ same_shape s' o /\
    forall i j, i < rows o -> j < cols o ->
      cell s' i j = jumped isnan (cell o i) (nth j noise 0) j.
Proof.
  intros He Hn. unfold jumps_axis_1.
  assert (forall m s, m <= rows o -> same_shape s o ->
    exists s', foldM (fun s i => foldM (jump_j_1 isnan o noise i) (seq 0 (cols o)) s) (seq 0 m) s = Ok s' /\
      same_shape s' o /\
      (forall i j, i < m -> j < cols o -> cell s' i j = jumped isnan (cell o i) (nth j noise 0) j)) as K.
  { intros m; induction m as [|m IH]; intros s Hm Hs.
    - exists s; split; [reflexivity|]. split; auto. intros; lia.
    - destruct (IH s ltac:(lia) Hs) as (s1 & E & Sh & F1).
      rewrite seq_S, foldM_app, E. cbn [foldM Nat.add].
      destruct (jump_row_1 o noise m ltac:(lia) Hn (cols o) s1 ltac:(lia) Sh) as (s' & E' & Sh' & C & F').
      rewrite E'. exists s'. split; [reflexivity|]. split; [exact Sh'|].
      intros i j Hi Hj. destruct (Nat.eq_dec i m) as [->|Hne]; [apply C; auto|].
      rewrite F' by auto. apply F1; lia. }
  destruct (K (rows o) empty (Nat.le_refl _) He) as (s' & E & Sh & F).
  exists s'; auto.
Qed.

(** *** axis 0 *)
Lemma jump_write_0_ok (o s : arr2 A) nj i j k :
  same_shape s o -> i < cols o -> j + k < rows o ->
  jump_write_0 isnan o s nj i j k =
  Ok (mk_arr2 (rows s) (cols s)
        (fun i' j' => if (i' =? j + k) && (j' =? i) then
                        (if isnan (cell o (j + k - nj) i) then cell o (j + k) i else cell o (j + k - nj) i)
                      else cell s i' j')).
Proof.
  intros [H1 H2] Hi Hj. unfold jump_write_0.
  rewrite get2_ok by lia. cbn [bind]. destruct (isnan (cell o (j + k - nj) i)).
  - rewrite get2_ok by lia. cbn [bind]. rewrite set2_ok by lia. reflexivity.
  - rewrite set2_ok by lia. reflexivity.
Qed.

Lemma jump_k_0_frame (o : arr2 A) nj i j : i < cols o ->
  forall n k s, same_shape s o ->
  exists s', jump_k_0 isnan n o s nj i j k = Ok s' /\ same_shape s' o /\
    (forall i' j', (j' <> i \/ i' < j + k) -> cell s' i' j' = cell s i' j').
Proof.
  intros Hi n; induction n as [|n IH]; intros k s Hs; cbn [jump_k_0].
  - exists s; auto.
  - destruct (Nat.leb_spec (rows o) (j + k)) as [L|L]; [exists s; auto|].
    rewrite jump_write_0_ok by auto. cbn [bind].
    match goal with |- context [jump_k_0 _ _ _ ?s1 _ _ _ _] => destruct (IH (S k) s1) as (s' & E & Sh & F) end.
    { destruct Hs; split; simpl; auto. }
    exists s'; split; [exact E|]. split; [exact Sh|].
    intros i' j' H. rewrite F by lia. simpl.
    destruct (Nat.eqb_spec i' (j + k)); [|reflexivity].
    destruct (Nat.eqb_spec j' i); [lia|reflexivity].
Qed.

Lemma jump_j_0_ok (o : arr2 A) noise i j s nj :
  i < cols o -> j < rows o -> same_shape s o -> nth_error noise j = Some nj ->
  exists s', jump_j_0 isnan o noise i s j = Ok s' /\ same_shape s' o /\
    cell s' j i = jumped isnan (fun r => cell o r i) nj j /\
    (forall i' j', (j' <> i \/ i' < j) -> cell s' i' j' = cell s i' j').
Proof.
  intros Hi Hj Hs Hn. unfold jump_j_0, get_item. rewrite Hn. cbn [bind].
  replace (nj + 1) with (S nj) by lia. cbn [jump_k_0].
  destruct (Nat.leb_spec (rows o) (j + 0)) as [L|L]; [lia|].
  rewrite jump_write_0_ok by (auto; lia). cbn [bind].
  match goal with |- context [jump_k_0 _ _ _ ?s1 _ _ _ _] =>
    destruct (jump_k_0_frame o nj i j Hi nj 1 s1) as (s' & E & Sh & F) end.
  { destruct Hs; split; simpl; auto. }
  exists s'. split; [exact E|]. split; [exact Sh|]. split.
  - rewrite F by lia. simpl. replace (j + 0) with j by lia. rewrite !Nat.eqb_refl. reflexivity.
  - intros i' j' H. rewrite F by lia. simpl.
    destruct (Nat.eqb_spec i' (j + 0)); [|reflexivity].
    destruct (Nat.eqb_spec j' i); [lia|reflexivity].
Qed.

Lemma jump_row_0 (o : arr2 A) noise i : i < cols o -> rows o <= length noise ->
  forall m s, m <= rows o -> same_shape s o ->
  exists s', foldM (jump_j_0 isnan o noise i) (seq 0 m) s = Ok s' /\ same_shape s' o /\
    (forall j, j < m -> cell s' j i = jumped isnan (fun r => cell o r i) (nth j noise 0) j) /\
    (forall i' j, j <> i -> cell s' i' j = cell s i' j).
Proof.
  intros Hi Hn m; induction m as [|m IH]; intros s Hm Hs.
  - exists s; split; [reflexivity|]. repeat split; try apply Hs; auto. lia.
  - destruct (IH s ltac:(lia) Hs) as (s1 & E & Sh & F1 & F2).
    rewrite seq_S, foldM_app, E. cbn [foldM Nat.add].
    destruct (jump_j_0_ok o noise i m s1 (nth m noise 0)) as (s' & E' & Sh' & C & F'); auto; try lia.
    { apply nth_error_nth'; lia. }
    rewrite E'. exists s'. split; [reflexivity|]. split; [exact Sh'|]. split.
    + intros j Hj. destruct (Nat.eq_dec j m) as [->|Hne]; [exact C|].
      rewrite F' by lia. apply F1; lia.
    + intros i' j H. rewrite F' by auto. apply F2; auto.
Qed.

Lemma jumps_axis_0_ok (o empty : arr2 A) noise :
  same_shape empty o -> rows o <= length noise ->
  exists s', jumps_axis_0 isnan o empty noise = Ok s' /\ same_shape s' o /\
    forall i j, i < rows o -> j < cols o ->
      cell s' i j = jumped isnan (fun r => cell o r j) (nth i noise 0) i.
Proof.
  intros He Hn. unfold jumps_axis_0.
  assert (forall m s, m <= cols o -> same_shape s o ->
    exists s', foldM (fun s i => foldM (jump_j_0 isnan o noise i) (seq 0 (rows o)) s) (seq 0 m) s = Ok s' /\
      same_shape s' o /\
      (forall i j, j < m -> i < rows o -> cell s' i j = jumped isnan (fun r => cell o r j) (nth i noise 0) i)) as K.
  { intros m; induction m as [|m IH]; intros s Hm Hs.
    - exists s; split; [reflexivity|]. split; auto. intros; lia.
    - destruct (IH s ltac:(lia) Hs) as (s1 & E & Sh & F1).
      rewrite seq_S, foldM_app, E. cbn [foldM Nat.add].
      destruct (jump_row_0 o noise m ltac:(lia) Hn (rows o) s1 ltac:(lia) Sh) as (s' & E' & Sh' & C & F').
      rewrite E'. exists s'. split; [reflexivity|]. split; [exact Sh'|].
      intros i j Hj Hi. destruct (Nat.eq_dec j m) as [->|Hne]; [apply C; auto|].
      rewrite F' by auto. apply F1; lia. }
  destruct (K (cols o) empty (Nat.le_refl _) He) as (s' & E & Sh & F).
  exists s'; split; auto.
Qed.

(** packaged *)
Lemma blockwise_axis_1 (o empty : arr2 A) noise :
  same_shape empty o -> length noise = cols o ->
  exists out, dot_jumps_blockwise isnan o empty false noise 1 = Ok out /\ same_shape out o /\
    forall i p, i < rows o -> p < cols o -> cell out i p = jumped isnan (cell o i) (nth p noise 0) p.
Proof. intros; apply jumps_axis_1_ok; auto; lia. Qed.

Lemma blockwise_axis_0 (o empty : arr2 A) noise :
  same_shape empty o -> length noise = rows o ->
  exists out, dot_jumps_blockwise isnan o empty false noise 0 = Ok out /\ same_shape out o /\
    forall p j, p < rows o -> j < cols o ->
      cell out p j = jumped isnan (fun r => cell o r j) (nth p noise 0) p.
Proof. intros; apply jumps_axis_0_ok; auto; lia. Qed.

Lemma blockwise_both (o empty : arr2 A) noise :
  same_shape empty o ->
  (length noise = cols o ->
   exists out, dot_jumps_blockwise isnan o empty false noise 1 = Ok out /\ same_shape out o /\
     forall i p, i < rows o -> p < cols o -> cell out i p = jumped isnan (cell o i) (nth p noise 0) p) /\
  (length noise = rows o ->
   exists out, dot_jumps_blockwise isnan o empty false noise 0 = Ok out /\ same_shape out o /\
     forall p j, p < rows o -> j < cols o ->
       cell out p j = jumped isnan (fun r => cell o r j) (nth p noise 0) p) /\
  (forall axis, axis <> 0%Z -> axis <> 1%Z ->
     dot_jumps_blockwise isnan o empty false noise axis = Err NotImplementedError) /\
  (forall axis, dot_jumps_blockwise isnan o empty true noise axis = Ok o).
Proof.
  intros H. split; [apply blockwise_axis_1; auto|]. split; [apply blockwise_axis_0; auto|].
  split; auto. intros axis H0 H1. unfold dot_jumps_blockwise.
  destruct (Z.eqb_spec axis 1); [lia|]. destruct (Z.eqb_spec axis 0); [lia|]. reflexivity.
Qed.

(** *** pixelwise *)
Lemma pix_k_frame (o : arr2 A) nij i j : i < rows o ->
  forall n k s, same_shape s o ->
  exists s', pix_k n o s nij i j k = Ok s' /\ same_shape s' o /\
    (forall i' j', (i' <> i \/ j' < j + k) -> cell s' i' j' = cell s i' j').
Proof.
  intros Hi n; induction n as [|n IH]; intros k s Hs; cbn [pix_k].
  - exists s; auto.
  - destruct (Nat.leb_spec (cols o) (j + k)) as [L|L]; [exists s; auto|].
    rewrite get2_ok by lia. cbn [bind]. destruct Hs as [Hs1 Hs2]. rewrite set2_ok by lia. cbn [bind].
    match goal with |- context [pix_k _ _ ?s1 _ _ _ _] => destruct (IH (S k) s1) as (s' & E & Sh & F) end.
    { split; simpl; auto. }
    exists s'; split; [exact E|]. split; [exact Sh|].
    intros i' j' H. rewrite F by lia. simpl.
    destruct (Nat.eqb_spec i' i); [|reflexivity].
    destruct (Nat.eqb_spec j' (j + k)); [lia|reflexivity].
Qed.

Lemma pix_row (o : arr2 A) (noise : arr2 nat) i : i < rows o -> same_shape noise o ->
  forall m s, m <= cols o -> same_shape s o ->
  exists s', foldM (pix_j o noise i) (seq 0 m) s = Ok s' /\ same_shape s' o /\
    (forall j, j < m -> cell s' i j = cell o i (j - cell noise i j)) /\
    (forall i' j, i' <> i -> cell s' i' j = cell s i' j).
Proof.
  intros Hi [Hn1 Hn2] m; induction m as [|m IH]; intros s Hm Hs.
  - exists s; split; [reflexivity|]. repeat split; try apply Hs; auto. lia.
  - destruct (IH s ltac:(lia) Hs) as (s1 & E & Sh & F1 & F2).
    rewrite seq_S, foldM_app, E. cbn [foldM Nat.add].
    unfold pix_j at 1. rewrite get2_ok by lia. cbn [bind].
    set (nij := cell noise i m). replace (nij + 1) with (S nij) by lia. cbn [pix_k].
    destruct (Nat.leb_spec (cols o) (m + 0)); [lia|].
    rewrite get2_ok by lia. cbn [bind]. pose proof Sh as [Sh1 Sh2]. rewrite set2_ok by lia. cbn [bind].
    match goal with |- context [pix_k _ _ ?s1 _ _ _ _] =>
      destruct (pix_k_frame o nij i m Hi nij 1 s1) as (s' & E' & Sh' & F') end.
    { split; simpl; auto. }
    rewrite E'. exists s'. split; [reflexivity|]. split; [exact Sh'|]. split.
    + intros j Hj. rewrite F' by lia. simpl. rewrite Nat.eqb_refl. simpl.
      destruct (Nat.eqb_spec j (m + 0)) as [->|Hne].
      * replace (m + 0) with m by lia. reflexivity.
      * apply F1; lia.
    + intros i' j H1. rewrite F' by auto. simpl. destruct (Nat.eqb_spec i' i); [lia|]. apply F2; auto.
Qed.

Lemma pixelwise_ok (o empty : arr2 A) (noise : arr2 nat) :
  same_shape empty o -> same_shape noise o ->
  exists out, dot_jumps_pixelwise o empty false noise = Ok out /\ same_shape out o /\
    forall i j, i < rows o -> j < cols o -> cell out i j = cell o i (j - cell noise i j).
Proof.
  intros He Hn. unfold dot_jumps_pixelwise.
  assert (forall m s, m <= rows o -> same_shape s o ->
    exists s', foldM (fun s i => foldM (pix_j o noise i) (seq 0 (cols o)) s) (seq 0 m) s = Ok s' /\
      same_shape s' o /\
      (forall i j, i < m -> j < cols o -> cell s' i j = cell o i (j - cell noise i j))) as K.
  { intros m; induction m as [|m IH]; intros s Hm Hs.
    - exists s; split; [reflexivity|]. split; auto. intros; lia.
    - destruct (IH s ltac:(lia) Hs) as (s1 & E & Sh & F1).
      rewrite seq_S, foldM_app, E. cbn [foldM Nat.add].
      destruct (pix_row o noise m ltac:(lia) Hn (cols o) s1 ltac:(lia) Sh) as (s' & E' & Sh' & C & F').
      rewrite E'. exists s'. split; [reflexivity|]. split; [exact Sh'|].
      intros i j Hi Hj. destruct (Nat.eq_dec i m) as [->|Hne]; [apply C; auto|].
      rewrite F' by auto. apply F1; lia. }
  destruct (K (rows o) empty (Nat.le_refl _) He) as (s' & E & Sh & F).
  exists s'; auto.
Qed.
End Blockwise.

(** *** noise generation *)
Section Noise.
Context {V G : Type}.
Variable zero : V.
Variable draw : G -> V * G.

Lemma expand_app (b1 b2 : list (nat * V)) : expand (b1 ++ b2) = expand b1 ++ expand b2.
Proof. unfold expand; apply flat_map_app. Qed.

(** the loop appends alternating blocks; it stops with at least [size] entries when every width is
    positive and there are enough widths *)
Lemma block_loop_spec : forall width size bi noise g,
  (forall w, In w width -> 0 < w) ->
  let out := fst (block_loop zero draw width size bi noise g) in
  (exists blocks, alternating zero (negb bi) blocks /\ out = noise ++ expand blocks) /\
  (size <= length noise + length width -> size <= length out).
Proof.
  induction width as [|w ws IH]; intros size bi noise g Hw; cbn [block_loop].
  - simpl. split; [exists []; simpl; rewrite app_nil_r; auto|]. lia.
  - assert (Hw0 : 0 < w) by (apply Hw; left; auto).
    destruct (Nat.ltb_spec 0 w); [|lia].
    destruct (draw g) as [h g1].
    set (blk := (w, if bi then h else zero)).
    assert (Hb : alternating zero (negb bi) [blk]).
    { simpl. repeat split; auto. destruct bi; simpl; [discriminate|auto]. }
    destruct (Nat.leb_spec size (length (noise ++ repeat (if bi then h else zero) w))) as [L|L].
    + simpl fst. split; [|lia]. exists [blk]. split; [exact Hb|].
      unfold expand; simpl. rewrite app_nil_r. reflexivity.
    + destruct (IH size (negb bi) (noise ++ repeat (if bi then h else zero) w) g1) as [(bs & Ha & E) Hl].
      { intros x Hx; apply Hw; right; auto. }
      split.
      * exists (blk :: bs). split.
        -- simpl. repeat split; auto. destruct bi; simpl; [discriminate|auto].
        -- rewrite E. simpl. rewrite <- app_assoc. reflexivity.
      * intros Hs. apply Hl. rewrite app_length, repeat_length. simpl in Hs. lia.
Qed.

Lemma block_noise_spec width size g :
  (forall w, In w width -> 0 < w) -> length width = size ->
  quiet_jump_pattern zero size (fst (block_noise zero draw width size g)).
Proof.
  intros Hw Hl. unfold block_noise.
  pose proof (block_loop_spec width size false [] g Hw) as [(bs & Ha & E) Hs].
  destruct (block_loop zero draw width size false [] g) as [n g'] eqn:EE. simpl in *.
  subst n. split.
  - rewrite firstn_length. specialize (Hs ltac:(lia)). lia.
  - exists bs; auto.
Qed.

Lemma pattern_first size noise : quiet_jump_pattern zero size noise -> 0 < size -> nth_error noise 0 = Some zero.
Proof.
  intros [Hl (bs & Ha & E)] Hs. subst noise.
  destruct bs as [|[w h] t]; [simpl in Hl; rewrite firstn_nil in Hl; simpl in Hl; lia|].
  simpl in Ha. destruct Ha as (Hw & Hh & _). unfold expand; simpl.
  destruct w; [lia|]. destruct size; [lia|]. simpl. rewrite Hh; auto.
Qed.
End Noise.

Lemma generate_jumps_pattern {G} (poisson : G -> nat * G) widths size g :
  (forall w, In w (fst (widths size g)) -> 0 < w) -> length (fst (widths size g)) = size ->
  quiet_jump_pattern 0 size (fst (generate_dot_jumps_blockwise poisson false widths size g)) /\
  (forall x, In x (fst (generate_dot_jumps_blockwise poisson false widths size g)) -> x < 256).
Proof.
  intros Hw Hl. unfold generate_dot_jumps_blockwise.
  destruct (widths size g) as [w g1]; simpl in *.
  pose proof (block_noise_spec 0 poisson w size g1 Hw Hl) as [L (bs & Ha & E)].
  destruct (block_noise 0 poisson w size g1) as [n g2]; simpl in *.
  split; [split|].
  - rewrite map_length; auto.
  - exists (map (fun b => (fst b, uint8 (snd b))) bs). split.
    + clear -Ha. revert Ha. generalize true. induction bs as [|[w h] t IH]; intros q Ha; simpl in *; auto.
      destruct Ha as (Hw & Hh & Ht). repeat split; auto. intros Hq. rewrite (Hh Hq). reflexivity.
    + rewrite E, <- firstn_map. f_equal. clear. unfold expand.
      induction bs as [|[w h] t IH]; simpl; auto.
      rewrite map_app, IH. f_equal. induction w; simpl; congruence.
  - intros x Hx. apply in_map_iff in Hx. destruct Hx as (y & <- & _). unfold uint8. apply Nat.mod_upper_bound. discriminate.
Qed.

(** *** 1D scans *)
Lemma list_max_ge (l : list nat) x : In x l -> x <= list_max l.
Proof.
  induction l as [|a t IH]; simpl; intros H; [tauto|]. destruct H as [->|H]; [lia|].
  specialize (IH H). fold (list_max t). lia.
Qed.

Lemma nth_repeat_app (m : nat) (noise : list nat) c : nth (c + m) (repeat 0 m ++ noise) 0 = nth c noise 0.
Proof. rewrite app_nth2; rewrite repeat_length; [f_equal; lia|lia]. Qed.

Section OneD.
Context {A : Type}.
Variable isnan : A -> bool.
Variable nan : A.
Hypothesis nan_is_nan : isnan nan = true.

(** the columns pushed to the left: after m pushes, the diagonal pushed as number i (0-based) starts
    in column m - 1 - i, the embedded data in column m *)
Lemma push_cols_spec (data : arr1 A) (diag : nat -> arr1 A) m :
  let img := fold_left (fun im i => push_col nan (diag i) im) (seq 0 m) (diag_embed nan data) in
  rows img = len1 data /\ cols img = len1 data + m /\
  (forall r, r < len1 data -> cell img r (r + m) = cell1 data r) /\
  (forall r s, 1 <= s <= m -> cell img r (r + m - s) = cell1 (diag (s - 1)) r).
Proof.
  induction m as [|m IH]; cbv zeta.
  - simpl. repeat split; auto; try lia. intros r Hr. rewrite Nat.add_0_r, Nat.eqb_refl. reflexivity.
  - rewrite seq_S, fold_left_app. cbn [fold_left]. cbv zeta in IH.
    destruct IH as (H1 & H2 & H3 & H4).
    set (im := fold_left _ (seq 0 m) _) in *. simpl. repeat split; try lia.
    + intros r Hr. destruct (Nat.eqb_spec r (r + S m)); [lia|].
      replace (r + S m) with (S (r + m)) by lia. apply H3; auto.
    + intros r s Hs. destruct (Nat.eqb_spec r (r + S m - s)).
      * assert (s = S m) by lia. subst s. replace (S m - 1) with m by lia. reflexivity.
      * destruct (r + S m - s) as [|c] eqn:E; [lia|]. replace c with (r + m - s) by lia. apply H4; lia.
Qed.

Lemma push_rows_spec (data : arr1 A) (diag : nat -> arr1 A) m :
  let img := fold_left (fun im i => push_row nan (diag i) im) (seq 0 m) (diag_embed nan data) in
  cols img = len1 data /\ rows img = len1 data + m /\
  (forall r, r < len1 data -> cell img (r + m) r = cell1 data r) /\
  (forall r s, 1 <= s <= m -> cell img (r + m - s) r = cell1 (diag (s - 1)) r).
Proof.
  induction m as [|m IH]; cbv zeta.
  - simpl. repeat split; auto; try lia. intros r Hr. rewrite Nat.add_0_r, Nat.eqb_refl. reflexivity.
  - rewrite seq_S, fold_left_app. cbn [fold_left]. cbv zeta in IH.
    destruct IH as (H1 & H2 & H3 & H4).
    set (im := fold_left _ (seq 0 m) _) in *. simpl. repeat split; try lia.
    + intros r Hr. destruct (Nat.eqb_spec (r + S m) r); [lia|].
      replace (r + S m) with (S (r + m)) by lia. apply H3; auto.
    + intros r s Hs. destruct (Nat.eqb_spec (r + S m - s) r) as [e|n].
      * assert (s = S m) by lia. subst s. replace (S m - 1) with m by lia. rewrite e. reflexivity.
      * destruct (r + S m - s) as [|c] eqn:E; [lia|]. replace c with (r + m - s) by lia. apply H4; lia.
Qed.

Variable gen1 : limits -> limits -> nat -> arr1 (A * A) * arr1 A.
Variable component : arr1 (A * A) * arr1 A -> arr1 A.
Variable empty : nat -> nat -> arr2 A.
Hypothesis empty_shape : forall r c, rows (empty r c) = r /\ cols (empty r c) = c.

(** without data from outside (no generator, or no jump at all) nothing changes *)
Lemma jump1d_no_gen have_gen axis lim1 lim2 noise data :
  (axis = 0%Z \/ axis = 1%Z) -> length noise = len1 data -> (have_gen = false \/ list_max noise = 0) ->
  exists out, jump1d_component isnan nan gen1 have_gen axis lim1 lim2 noise false component empty data = Ok out /\
    eq1 out data.
Proof.
  intros Hax Hl Hg. unfold jump1d_component.
  assert ((have_gen && (0 <? list_max noise))%bool = false) as ->.
  { destruct Hg as [->|E]; [reflexivity|]. rewrite E. rewrite andb_false_r; reflexivity. }
  cbn [repeat app]. destruct Hax as [-> | ->].
  - destruct (blockwise_axis_0 isnan (diag_embed nan data) (empty (rows (diag_embed nan data)) (cols (diag_embed nan data))) noise)
      as (out & E & Sh & F).
    { apply empty_shape. } { auto. }
    rewrite E. simpl. eexists; split; [reflexivity|]. split; auto. simpl. intros i Hi.
    rewrite Nat.add_0_r, F by (simpl; auto). unfold jumped. simpl. rewrite Nat.eqb_refl.
    destruct (Nat.eqb_spec (i - nth i noise 0) i) as [e|n].
    + rewrite e. destruct (isnan (cell1 data i)); auto.
    + rewrite nan_is_nan. reflexivity.
  - destruct (blockwise_axis_1 isnan (diag_embed nan data) (empty (rows (diag_embed nan data)) (cols (diag_embed nan data))) noise)
      as (out & E & Sh & F).
    { apply empty_shape. } { auto. }
    rewrite E. simpl. eexists; split; [reflexivity|]. split; auto. simpl. intros i Hi.
    rewrite Nat.add_0_r, F by (simpl; auto). unfold jumped. simpl. rewrite Nat.eqb_refl.
    destruct (Nat.eqb_spec i (i - nth i noise 0)) as [e|n].
    + destruct (isnan (cell1 data i)); auto.
    + rewrite nan_is_nan. reflexivity.
Qed.

(** with a generator, pixel i shows pixel i of the scan shifted by noise[i] steps *)
Lemma jump1d_gen axis lim1 lim2 noise data :
  (axis = 0%Z \/ axis = 1%Z) -> length noise = len1 data ->
  let step := ((snd lim1 - fst lim1) / INR (len1 data))%R in
  let shifted_scan s :=
    component (if (axis =? 1)%Z then gen1 (shifted_limits lim1 s step) lim2 (len1 data)
               else gen1 lim1 (shifted_limits lim2 s step) (len1 data)) in
  (forall i s, i < len1 data -> 1 <= s -> isnan (cell1 (shifted_scan s) i) = false) ->
  exists out, jump1d_component isnan nan gen1 true axis lim1 lim2 noise false component empty data = Ok out /\
    len1 out = len1 data /\
    forall i, i < len1 data ->
      cell1 out i = if nth i noise 0 =? 0 then cell1 data i else cell1 (shifted_scan (nth i noise 0)) i.
Proof.
  intros Hax Hl step scan Hnan.
  destruct (Nat.eq_dec (list_max noise) 0) as [Hz|Hz].
  { destruct (jump1d_no_gen true axis lim1 lim2 noise data Hax Hl (or_intror Hz)) as (out & E & [L C]).
    exists out; split; auto. split; auto. intros i Hi. rewrite C by lia.
    assert (nth i noise 0 = 0). { assert (nth i noise 0 <= list_max noise) by (apply list_max_ge, nth_In; lia). lia. }
    rewrite H. reflexivity. }
  unfold jump1d_component.
  assert ((true && (0 <? list_max noise))%bool = true) as -> by (simpl; apply Nat.ltb_lt; lia).
  set (m := list_max noise) in *.
  destruct Hax as [-> | ->].
  - cbn [Z.eqb].
    destruct (push_rows_spec data (fun i => component (gen1 lim1 (shifted_limits lim2 (i + 1) step) (len1 data))) m)
      as (H1 & H2 & H3 & H4). fold step.
    set (img := fold_left _ _ _) in *.
    destruct (blockwise_axis_0 isnan img (empty (rows img) (cols img)) (repeat 0 m ++ noise)) as (out & E & Sh & F).
    { apply empty_shape. } { rewrite app_length, repeat_length; lia. }
    rewrite E. cbn [bind]. eexists; split; [reflexivity|]. split; [reflexivity|]. simpl. intros i Hi.
    rewrite F by lia. rewrite nth_repeat_app. unfold jumped.
    set (s := nth i noise 0).
    assert (Hs : s <= m) by (apply list_max_ge, nth_In; lia).
    destruct (Nat.eqb_spec s 0) as [e|ne].
    + rewrite e, Nat.sub_0_r. rewrite (H3 i Hi). destruct (isnan (cell1 data i)); reflexivity.
    + rewrite (H4 i s) by lia. replace (s - 1 + 1) with s by lia.
      pose proof (Hnan i s Hi ltac:(lia)) as HN. unfold scan in HN. cbn [Z.eqb] in HN. rewrite HN.
      unfold scan. reflexivity.
  - cbn [Z.eqb Pos.eqb].
    destruct (push_cols_spec data (fun i => component (gen1 (shifted_limits lim1 (i + 1) step) lim2 (len1 data))) m)
      as (H1 & H2 & H3 & H4). fold step.
    set (img := fold_left _ _ _) in *.
    destruct (blockwise_axis_1 isnan img (empty (rows img) (cols img)) (repeat 0 m ++ noise)) as (out & E & Sh & F).
    { apply empty_shape. } { rewrite app_length, repeat_length; lia. }
    rewrite E. cbn [bind]. eexists; split; [reflexivity|]. split; [reflexivity|]. simpl. intros i Hi.
    rewrite F by lia. rewrite nth_repeat_app. unfold jumped.
    set (s := nth i noise 0).
    assert (Hs : s <= m) by (apply list_max_ge, nth_In; lia).
    destruct (Nat.eqb_spec s 0) as [e|ne].
    + rewrite e, Nat.sub_0_r. rewrite (H3 i Hi). destruct (isnan (cell1 data i)); reflexivity.
    + rewrite (H4 i s) by lia. replace (s - 1 + 1) with s by lia.
      pose proof (Hnan i s Hi ltac:(lia)) as HN. unfold scan in HN. cbn [Z.eqb Pos.eqb] in HN. rewrite HN.
      unfold scan. reflexivity.
Qed.
End OneD.

(** *** 2D scans *)
Section TwoD.
Context {A : Type}.
Variable isnan : A -> bool.
Variable gen1 : limits -> limits -> nat -> arr1 (A * A) * arr1 A.
Variable gen2 : limits -> limits -> nat * nat -> arr2 (A * A) * arr2 A.
Variable component1 : arr1 (A * A) * arr1 A -> arr1 A.
Variable component2 : arr2 (A * A) * arr2 A -> arr2 A.
Variable empty : nat -> nat -> arr2 A.
Hypothesis empty_shape : forall r c, rows (empty r c) = r /\ cols (empty r c) = c.

Notation run := (jump2d_component isnan gen1 gen2).

Lemma jump2d_no_gen have_gen lim1 lim2 noise img axis :
  (axis = 0%Z \/ axis = 1%Z) ->
  length noise = (if (axis =? 1)%Z then cols img else rows img) -> (have_gen = false \/ list_max noise = 0) ->
  exists out, run have_gen axis lim1 lim2 noise false component1 component2 empty img = Ok out /\
    same_shape out img /\
    forall r c, r < rows img -> c < cols img ->
      cell out r c = if (axis =? 1)%Z then jumped isnan (cell img r) (nth c noise 0) c
                     else jumped isnan (fun q => cell img q c) (nth r noise 0) r.
Proof.
  intros Hax Hl Hg. unfold jump2d_component.
  assert ((have_gen && (0 <? list_max noise))%bool = false) as ->.
  { destruct Hg as [->|E]; [reflexivity|]. rewrite E. rewrite andb_false_r; reflexivity. }
  cbn [repeat app]. destruct Hax as [-> | ->]; cbn [Z.eqb Pos.eqb] in *.
  - destruct (blockwise_axis_0 isnan img (empty (rows img) (cols img)) noise) as (out & E & Sh & F); auto.
    { apply empty_shape. }
    rewrite E. cbn [bind]. eexists; split; [reflexivity|]. split; [split; reflexivity|]. simpl. intros r c Hr Hc.
    rewrite Nat.add_0_r, F by auto. reflexivity.
  - destruct (blockwise_axis_1 isnan img (empty (rows img) (cols img)) noise) as (out & E & Sh & F); auto.
    { apply empty_shape. }
    rewrite E. cbn [bind]. eexists; split; [reflexivity|]. split; [split; reflexivity|]. simpl. intros r c Hr Hc.
    rewrite Nat.add_0_r, F by auto. reflexivity.
Qed.

(** the strip is addressed by the voltage offset: column m - d of the strip lies d steps left of the
    first column *)
Lemma jump2d_gen_1 lim1 lim2 noise img :
  length noise = cols img ->
  let m := list_max noise in
  let strip := strip_axis_1 gen1 gen2 component1 component2 lim1 lim2 m img in
  (0 < m -> same_shape strip (mk_arr2 (rows img) m (cell img))) ->
  (forall r c, r < rows img -> c < cols img -> isnan (cell img r c) = false) ->
  (forall r c, r < rows img -> c < m -> isnan (cell strip r c) = false) ->
  exists out, run true 1 lim1 lim2 noise false component1 component2 empty img = Ok out /\
    same_shape out img /\
    forall r c, r < rows img -> c < cols img ->
      let s := nth c noise 0 in
      cell out r c = if s <=? c then cell img r (c - s) else cell strip r (m - (s - c)).
Proof.
  intros Hl m strip Hsh Hn1 Hn2.
  destruct (Nat.eq_dec m 0) as [Hz|Hz].
  { destruct (jump2d_no_gen true lim1 lim2 noise img 1 (or_intror eq_refl) Hl (or_intror Hz)) as (out & E & Sh & F).
    exists out; split; auto. split; auto. intros r c Hr Hc s. rewrite F by auto. cbn [Z.eqb Pos.eqb].
    assert (s = 0). { assert (s <= m) by (apply list_max_ge, nth_In; lia). lia. }
    unfold s in *. rewrite H. simpl. rewrite Nat.sub_0_r. unfold jumped. rewrite Nat.sub_0_r.
    destruct (isnan (cell img r c)); reflexivity. }
  unfold jump2d_component. fold m.
  assert ((true && (0 <? m))%bool = true) as -> by (simpl; apply Nat.ltb_lt; lia).
  cbn [Z.eqb Pos.eqb]. fold strip. destruct (Hsh ltac:(lia)) as [S1 S2]. simpl in S1, S2.
  set (st := hstack strip img).
  destruct (blockwise_axis_1 isnan st (empty (rows st) (cols st)) (repeat 0 m ++ noise)) as (out & E & Sh & F).
  { apply empty_shape. } { rewrite app_length, repeat_length; simpl; lia. }
  rewrite E. cbn [bind]. eexists; split; [reflexivity|]. split; [split; reflexivity|]. simpl. intros r c Hr Hc.
  rewrite F by (simpl; lia). rewrite nth_repeat_app. unfold jumped.
  set (s := nth c noise 0). assert (Hs : s <= m) by (apply list_max_ge, nth_In; lia).
  simpl. rewrite S2. destruct (Nat.leb_spec s c).
  - destruct (Nat.ltb_spec (c + m - s) m); [lia|].
    rewrite (Hn1 r (c + m - s - m)) by lia. f_equal. lia.
  - destruct (Nat.ltb_spec (c + m - s) m); [|lia].
    rewrite (Hn2 r (c + m - s)) by lia. f_equal. lia.
Qed.

Lemma jump2d_gen_0 lim1 lim2 noise img :
  length noise = rows img ->
  let m := list_max noise in
  let strip := strip_axis_0 gen1 gen2 component1 component2 lim1 lim2 m img in
  (0 < m -> same_shape strip (mk_arr2 m (cols img) (cell img))) ->
  (forall r c, r < rows img -> c < cols img -> isnan (cell img r c) = false) ->
  (forall r c, r < m -> c < cols img -> isnan (cell strip r c) = false) ->
  exists out, run true 0 lim1 lim2 noise false component1 component2 empty img = Ok out /\
    same_shape out img /\
    forall r c, r < rows img -> c < cols img ->
      let s := nth r noise 0 in
      cell out r c = if s <=? r then cell img (r - s) c else cell strip (m - (s - r)) c.
Proof.
  intros Hl m strip Hsh Hn1 Hn2.
  destruct (Nat.eq_dec m 0) as [Hz|Hz].
  { destruct (jump2d_no_gen true lim1 lim2 noise img 0 (or_introl eq_refl) Hl (or_intror Hz)) as (out & E & Sh & F).
    exists out; split; auto. split; auto. intros r c Hr Hc s. rewrite F by auto. cbn [Z.eqb Pos.eqb].
    assert (s = 0). { assert (s <= m) by (apply list_max_ge, nth_In; lia). lia. }
    unfold s in *. rewrite H. simpl. rewrite Nat.sub_0_r. unfold jumped. rewrite Nat.sub_0_r.
    destruct (isnan (cell img r c)); reflexivity. }
  unfold jump2d_component. fold m.
  assert ((true && (0 <? m))%bool = true) as -> by (simpl; apply Nat.ltb_lt; lia).
  cbn [Z.eqb Pos.eqb]. fold strip. destruct (Hsh ltac:(lia)) as [S1 S2]. simpl in S1, S2.
  set (st := vstack strip img).
  destruct (blockwise_axis_0 isnan st (empty (rows st) (cols st)) (repeat 0 m ++ noise)) as (out & E & Sh & F).
  { apply empty_shape. } { rewrite app_length, repeat_length; simpl; lia. }
  rewrite E. cbn [bind]. eexists; split; [reflexivity|]. split; [split; reflexivity|]. simpl. intros r c Hr Hc.
  rewrite F by (simpl; lia). rewrite nth_repeat_app. unfold jumped.
  set (s := nth r noise 0). assert (Hs : s <= m) by (apply list_max_ge, nth_In; lia).
  simpl. rewrite S1. destruct (Nat.leb_spec s r).
  - destruct (Nat.ltb_spec (r + m - s) m); [lia|].
    rewrite (Hn1 (r + m - s - m) c) by lia. f_equal. lia.
  - destruct (Nat.ltb_spec (r + m - s) m); [|lia].
    rewrite (Hn2 (r + m - s) c) by lia. f_equal. lia.
Qed.
End TwoD.
