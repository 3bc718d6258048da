(** Proofs that measurements with distortions succeed: the distortions fail only if the generation of data or
    the drawing of noise fails. *)
From Verif Require Import RPrelude Arr ModelSupport ModelTct ModelCsd ModelJumps ModelDistortions ModelSensor ModelSimulation ModelInstance
  ModelNoise SpecSupport SpecTct SpecCsd SpecSensor SpecDistortions SpecInstance SpecNoise ProofsJumps ProofsDistortions ProofsCsd ProofsScan ProofsInstance ProofsNoise ProofsReplay.
Local Open Scope R_scope.

(** ** Jumps succeed *)
Section Components.
Context {A : Type}.
Variable isnan : A -> bool.
Variable nan : A.
Variable junk : nat -> nat -> A.
Variable gen1 : limits -> limits -> nat -> arr1 (A * A) * arr1 A.
Variable gen2 : limits -> limits -> nat * nat -> arr2 (A * A) * arr2 A.
Notation empty := (fun r c => mk_arr2 r c junk).

Lemma length_padded m (noise : list nat) : length (repeat 0%nat m ++ noise) = (m + length noise)%nat.
Proof. rewrite app_length, repeat_length. reflexivity. Qed.

Lemma jump1d_success have axis l1 l2 noise comp data : (axis = 0 \/ axis = 1)%Z -> length noise = len1 data ->
  exists out, jump1d_component isnan nan gen1 have axis l1 l2 noise false comp empty data = Ok out /\ len1 out = len1 data.
Proof.
  intros Ha Hl. unfold jump1d_component. set (m := list_max noise). set (u := (have && (0 <? m)%nat)%bool).
  set (step := (snd l1 - fst l1) / INR (len1 data)).
  destruct Ha as [->| ->]; cbn [Z.eqb].
  - set (img := if u then _ else _).
    assert (Hi : cols img = len1 data /\ rows img = (len1 data + if u then m else 0)%nat).
    { unfold img. destruct u; [|cbn; split; lia].
      destruct (push_rows_spec nan data (fun i => comp (gen1 l1 (shifted_limits l2 (i + 1) step) (len1 data))) m) as (H1 & H2 & _). auto. }
    unfold dot_jumps_blockwise. cbn [Z.eqb Pos.eqb].
    destruct (jumps_axis_0_ok isnan img (mk_arr2 (rows img) (cols img) junk) (repeat 0%nat (if u then m else 0) ++ noise)) as (o & E & _ & _).
    { split; reflexivity. } { rewrite length_padded. lia. }
    rewrite E. cbn [bind]. eexists. split; reflexivity.
  - set (img := if u then _ else _).
    assert (Hi : rows img = len1 data /\ cols img = (len1 data + if u then m else 0)%nat).
    { unfold img. destruct u; [|cbn; split; lia].
      destruct (push_cols_spec nan data (fun i => comp (gen1 (shifted_limits l1 (i + 1) step) l2 (len1 data))) m) as (H1 & H2 & _). auto. }
    unfold dot_jumps_blockwise. cbn [Z.eqb Pos.eqb].
    destruct (jumps_axis_1_ok isnan img (mk_arr2 (rows img) (cols img) junk) (repeat 0%nat (if u then m else 0) ++ noise)) as (o & E & _ & _).
    { split; reflexivity. } { rewrite length_padded. lia. }
    rewrite E. cbn [bind]. eexists. split; reflexivity.
Qed.

Lemma jump2d_success have axis l1 l2 noise comp1 comp2 img : (axis = 0 \/ axis = 1)%Z ->
  length noise = (if (axis =? 1)%Z then cols img else rows img) ->
  let m := list_max noise in
  ((1 < m)%nat -> if (axis =? 1)%Z then cols (strip_axis_1 gen1 gen2 comp1 comp2 l1 l2 m img) = m else rows (strip_axis_0 gen1 gen2 comp1 comp2 l1 l2 m img) = m) ->
  exists out, jump2d_component isnan gen1 gen2 have axis l1 l2 noise false comp1 comp2 empty img = Ok out /\ same_shape out img.
Proof.
  intros Ha Hl m Hs. unfold jump2d_component. fold m. set (u := (have && (0 <? m)%nat)%bool).
  assert (Um : u = true -> m = 1%nat \/ (1 < m)%nat).
  { unfold u. intros H. apply andb_true_iff in H. destruct H as [_ H]. apply Nat.ltb_lt in H. lia. }
  destruct Ha as [->| ->]; cbn [Z.eqb Pos.eqb orb negb] in *.
  - set (st := if u then _ else _).
    assert (Hi : rows st = (rows img + if u then m else 0)%nat).
    { unfold st. destruct u; [|lia]. cbn [vstack rows]. destruct (Um eq_refl) as [E|E].
      - unfold strip_axis_0. rewrite E. cbn [Nat.ltb Nat.leb rows]. lia.
      - rewrite (Hs E). lia. }
    unfold dot_jumps_blockwise. cbn [Z.eqb Pos.eqb].
    destruct (jumps_axis_0_ok isnan st (mk_arr2 (rows st) (cols st) junk) (repeat 0%nat (if u then m else 0) ++ noise)) as (o & E & _ & _).
    { split; reflexivity. } { rewrite length_padded. lia. }
    rewrite E. cbn [bind]. eexists. split; [reflexivity|split; reflexivity].
  - set (st := if u then _ else _).
    assert (Hi : cols st = (cols img + if u then m else 0)%nat).
    { unfold st. destruct u; [|lia]. cbn [hstack cols]. destruct (Um eq_refl) as [E|E].
      - unfold strip_axis_1. rewrite E. cbn [Nat.ltb Nat.leb cols]. lia.
      - rewrite (Hs E). lia. }
    unfold dot_jumps_blockwise. cbn [Z.eqb Pos.eqb].
    destruct (jumps_axis_1_ok isnan st (mk_arr2 (rows st) (cols st) junk) (repeat 0%nat (if u then m else 0) ++ noise)) as (o & E & _ & _).
    { split; reflexivity. } { rewrite length_padded. lia. }
    rewrite E. cbn [bind]. eexists. split; [reflexivity|split; reflexivity].
Qed.
End Components.

(** ** Objects succeed *)
(** Arrays of the shape [sh]. *)
Definition fits (ol : occupation * lead_mask) (sh : shape) : Prop :=
  match ol, sh with
  | (Occ1 a, Lead1 l), Shape1 n => len1 a = n /\ length l = n
  | (Occ2 a, Lead2 l), Shape2 r c => rows a = r /\ cols a = c /\ rows l = r /\ cols l = c
  | _, _ => False
  end.
Definition res_of (sh : shape) : resolution :=
  match sh with Shape1 n => ResInt (Z.of_nat n) | Shape2 r c => ResArray [Z.of_nat c; Z.of_nat r] end.

Section Objects.
Context {G : Type}.
Variable src : sources G.
Notation world := (noise_world G).

(** In the world [w] the generator returns data for the request, without changing the world. *)
Definition served (gen : generator world lead_mask) (w : world) (l1 l2 : limits) (sh : shape) : Prop :=
  exists ol, gen l1 l2 (res_of sh) w = (Ok ol, w) /\ fits ol sh.

Lemma blur_success k sigma kernel radius ol sh l1 l2 gen freeze w q : fits ol sh -> blur_px_per_volt sh l1 l2 = Ok q ->
  (freeze = true -> w_sigma w k <> None) ->
  exists ol' sg g', od_noise (occ_object src (Blur k sigma kernel radius)) (fst ol) (snd ol) l1 l2 gen freeze w
    = (Ok (ol', ol'), mk_noise_world (set_key (w_sigma w) k (Some sg)) (w_jump w) g') /\ fits ol' sh /\
    (freeze = true -> w_sigma w k = Some sg /\ g' = w_rng w) /\ (freeze = false -> g' = snd (sigma (w_rng w))).
Proof.
  intros Hf Hq Hz. destruct ol as [occ lead]. cbn [fst snd occ_object blur_object od_noise].
  assert (Hs : exists s, occ_scan occ = Some s /\ scan_shape s = sh).
  { destruct occ as [a|a|], lead as [l|l], sh as [n|r c]; cbn in Hf; try contradiction; (eexists; split; [reflexivity|]); cbn; [destruct Hf; congruence|destruct Hf as (?&?&_); congruence]. }
  destruct Hs as (s & Es & Sh). rewrite Es. unfold blur_noise_function.
  set (sg := if freeze then _ else _).
  assert (K : exists x g1, sg = Ok (x, g1) /\ (freeze = true -> w_sigma w k = Some x /\ g1 = w_rng w) /\ (freeze = false -> g1 = snd (sigma (w_rng w)))).
  { unfold sg. destruct freeze.
    - destruct (w_sigma w k) as [x|]; [|exfalso; apply Hz; reflexivity]. exists x, (w_rng w). split; [reflexivity|]. split; [auto|discriminate].
    - destruct (sigma (w_rng w)) as [x g1]. exists x, g1. split; [reflexivity|]. split; [discriminate|reflexivity]. }
  destruct K as (x & g1 & Ex & Fz). rewrite Ex. cbn [bind]. rewrite Sh, Hq. cbn [bind].
  assert (Ft : forall s', scan_shape s' = sh -> fits (occ_part s', lead) sh).
  { intros s' E'. unfold fits in *. destruct occ, lead, sh; try contradiction; destruct s'; cbn in E'; try discriminate; cbn.
    - injection E' as E'. destruct Hf. split; congruence.
    - injection E' as E1 E2. destruct Hf as (_ & _ & H). tauto. }
  destruct (Rltb 0 x); do 3 eexists; (split; [reflexivity|]; split; [|exact Fz]); apply Ft; auto.
  rewrite <- Sh. destruct s; reflexivity.
Qed.

(** The shape of a requested resolution. *)
Definition call_ok (gen : generator world lead_mask) (w : world) (c : limits * limits * resolution) : Prop :=
  exists sh, snd c = res_of sh /\ served gen w (fst (fst c)) (snd (fst c)) sh.

Lemma run_calls_success gen w calls : Forall (call_ok gen w) calls -> run_calls gen calls w = (Ok tt, w).
Proof.
  induction 1 as [|[[l1 l2] res] t (sh & E & ol & Eg & _) _ IH]; [reflexivity|]. cbn [fst snd] in *. subst res.
  cbn [run_calls]. unfold mbind. rewrite Eg. exact IH.
Qed.

Lemma generated2_shape gen w l1 l2 r c : served gen w l1 l2 (Shape2 r c) ->
  rows (fst (generated2 gen w l1 l2 (c, r))) = r /\ cols (fst (generated2 gen w l1 l2 (c, r))) = c /\
  rows (snd (generated2 gen w l1 l2 (c, r))) = r /\ cols (snd (generated2 gen w l1 l2 (c, r))) = c.
Proof.
  intros ((occ & lead) & E & F). unfold generated2. cbn [res_of fst snd] in *. rewrite E. cbn [fst].
  unfold fits in F. destruct occ, lead; try contradiction. cbn. tauto.
Qed.

Lemma apply_success gen w axis noise occ lead sh s l1 l2 : (axis = 0 \/ axis = 1)%Z -> fits (occ, lead) sh -> jump_scan occ lead = Some s ->
  jump_size axis sh = Ok (length noise) -> Forall (call_ok gen w) (jump_calls axis noise sh l1 l2) ->
  exists s', jump_apply is_nan None (src_empty src) true (generated1 gen w) (generated2 gen w) axis noise s l1 l2 = Ok s' /\ fits (scan_jump s' lead) sh.
Proof.
  intros Ha Hf Es Hz Hc. unfold jump_apply.
  destruct occ as [a|a|], lead as [l|l], sh as [n|r c]; cbn in Hf; try contradiction; injection Es as <-.
  - destruct Hf as [Ln Ll].
    assert (Hn : length noise = n).
    { unfold jump_size in Hz. destruct Ha as [->| ->]; cbn in Hz; injection Hz as Hz; auto. }
    set (desc := (descending l2 || descending l1)%bool).
    destruct (jump1d_success is_nan None (src_empty src) (generated1 gen w) true axis (sort_limits l1) (sort_limits l2) noise
                (fun d => amap1 fst (fst d)) (amap1 fst (if desc then flip1 (amap1 lift_occ a) else amap1 lift_occ a)) Ha) as (o1 & E1 & S1).
    { destruct desc; cbn; congruence. }
    destruct (jump1d_success is_nan None (src_empty src) (generated1 gen w) true axis (sort_limits l1) (sort_limits l2) noise
                (fun d => amap1 snd (fst d)) (amap1 snd (if desc then flip1 (amap1 lift_occ a) else amap1 lift_occ a)) Ha) as (o2 & E2 & S2).
    { destruct desc; cbn; congruence. }
    set (t := amap1 (fun n => Some (INR n)) (of_list1 0%nat l)).
    destruct (jump1d_success is_nan None (src_empty src) (generated1 gen w) true axis (sort_limits l1) (sort_limits l2) noise
                snd (if desc then flip1 t else t) Ha) as (o3 & E3 & S3).
    { destruct desc; cbn; congruence. }
    rewrite E1. cbn [bind]. rewrite E2. cbn [bind option_mapM]. rewrite E3. cbn [bind]. eexists. split; [reflexivity|].
    cbn [scan_jump option_map fits]. split.
    + destruct desc; cbn in *; congruence.
    + unfold to_list1. rewrite map_length, seq_length. destruct desc; cbn in *; congruence.
  - destruct Hf as (Hr & Hcc & Hlr & Hlc).
    set (fl := fun (X : Type) (a : arr2 X) => if descending l1 then flip_cols a else if descending l2 then flip_rows a else a).
    assert (Fr : forall X (b : arr2 X), rows (fl X b) = rows b /\ cols (fl X b) = cols b).
    { intros X b. unfold fl. destruct (descending l1); [split; reflexivity|]. destruct (descending l2); split; reflexivity. }
    set (m := list_max noise) in *. set (sl1 := sort_limits l1) in *. set (sl2 := sort_limits l2) in *.
    assert (K : forall comp1 comp2 img, rows img = r -> cols img = c -> 
       (forall x, rows (comp2 x) = rows (fst x) /\ cols (comp2 x) = cols (fst x) \/ rows (comp2 x) = rows (snd x) /\ cols (comp2 x) = cols (snd x)) ->
       exists out, jump2d_component is_nan (generated1 gen w) (generated2 gen w) true axis sl1 sl2 noise false comp1 comp2 (fun r c => mk_arr2 r c (src_empty src)) img = Ok out /\ same_shape out img).
    { intros comp1 comp2 img Ir Ic Hcomp. apply jump2d_success; [exact Ha| |].
      - unfold jump_size in Hz. destruct Ha as [->| ->]; cbn in Hz |- *; injection Hz as Hz; congruence.
      - fold m. intros Hm. unfold jump_calls in Hc. fold m sl1 sl2 in Hc.
        replace (0 <? m)%nat with true in Hc by (symmetry; apply Nat.ltb_lt; lia).
        assert (Lm : (1 <? m)%nat = true) by (apply Nat.ltb_lt; exact Hm). rewrite Lm in Hc.
        destruct Ha as [->| ->]; cbn [Z.eqb Pos.eqb] in *; inversion Hc as [|? ? (sh & E & Sv) _]; cbn [fst snd] in *.
        + unfold strip_axis_0. rewrite Lm, Ir, Ic.
          destruct sh as [n|r' c']; [discriminate|]. cbn [res_of] in E. injection E as Ec Er. apply Nat2Z.inj in Ec, Er. subst r' c'.
          destruct (generated2_shape _ _ _ _ _ _ Sv) as (R1 & C1 & R2 & C2).
          destruct (Hcomp (generated2 gen w sl1 (fst sl2 - INR m * ((snd sl2 - fst sl2) / INR r), fst sl2 - (snd sl2 - fst sl2) / INR r) (c, m))) as [[A1 _]|[A1 _]]; rewrite A1; assumption.
        + unfold strip_axis_1. rewrite Lm, Ir, Ic.
          destruct sh as [n|r' c']; [discriminate|]. cbn [res_of] in E. injection E as Ec Er. apply Nat2Z.inj in Ec, Er. subst r' c'.
          destruct (generated2_shape _ _ _ _ _ _ Sv) as (R1 & C1 & R2 & C2).
          destruct (Hcomp (generated2 gen w (fst sl1 - INR m * ((snd sl1 - fst sl1) / INR c), fst sl1 - (snd sl1 - fst sl1) / INR c) sl2 (m, r))) as [[_ A1]|[_ A1]]; rewrite A1; assumption. }
    set (occ := amap2 lift_occ a). set (t := amap2 (fun n => Some (INR n)) l).
    destruct (K (fun d => amap1 fst (fst d)) (fun d => amap2 fst (fst d)) (amap2 fst (fl _ occ))) as (o1 & E1 & [R1 C1]).
    { cbn. rewrite (proj1 (Fr _ occ)). exact Hr. } { cbn. rewrite (proj2 (Fr _ occ)). exact Hcc. } { left. split; reflexivity. }
    destruct (K (fun d => amap1 snd (fst d)) (fun d => amap2 snd (fst d)) (amap2 snd (fl _ occ))) as (o2 & E2 & [R2 C2]).
    { cbn. rewrite (proj1 (Fr _ occ)). exact Hr. } { cbn. rewrite (proj2 (Fr _ occ)). exact Hcc. } { left. split; reflexivity. }
    destruct (K snd snd (fl _ t)) as (o3 & E3 & [R3 C3]).
    { rewrite (proj1 (Fr _ t)). exact Hlr. } { rewrite (proj2 (Fr _ t)). exact Hlc. } { right. split; reflexivity. }
    unfold fl in E1, E2, E3. fold occ t. rewrite E1. cbn [bind]. rewrite E2. cbn [bind option_mapM]. rewrite E3. cbn [bind]. eexists. split; [reflexivity|].
    cbn [scan_jump option_map fits amap2 rows cols] in *.
    change (if descending l1 then flip_cols (zip2 o1 o2) else if descending l2 then flip_rows (zip2 o1 o2) else zip2 o1 o2) with (fl _ (zip2 o1 o2)).
    change (if descending l1 then flip_cols o3 else if descending l2 then flip_rows o3 else o3) with (fl _ o3).
    rewrite (proj1 (Fr _ (zip2 o1 o2))), (proj2 (Fr _ (zip2 o1 o2))), (proj1 (Fr _ o3)), (proj2 (Fr _ o3)). cbn [zip2 rows cols].
    rewrite (proj1 (Fr _ occ)) in R1. rewrite (proj2 (Fr _ occ)) in C1. rewrite (proj1 (Fr _ t)) in R3. rewrite (proj2 (Fr _ t)) in C3.
    cbn in *. repeat split; congruence.
Qed.

Hypothesis Sok : sources_ok src.

Lemma drawn_length axis ratio scale lam st g sh l1 l2 noise st' g' :
  jump_draw src axis ratio scale lam false st g sh l1 l2 = Ok (Some noise, st', g') -> jump_size axis sh = Ok (length noise) /\ st' = mk_jump_state (Some true) (Some noise).
Proof.
  unfold jump_draw. cbn [andb]. destruct (src_binomial src ratio g) as [act g1]. destruct act; cbn [negb]; [|discriminate].
  destruct (scale g1) as [sv g2]. destruct (lam g2) as [lv g3]. destruct (jump_px_per_volt axis sh l1 l2) as [q|]; [|discriminate]. cbn [bind].
  destruct (jump_size axis sh) as [size|]; [|discriminate]. cbn [bind].
  set (sc := if Rltb _ _ then _ else _).
  pose proof (generate_jumps_pattern (src_poisson src (lv * q)) (src_geometric src (1 / sc)) size g3) as P.
  destruct (generate_dot_jumps_blockwise _ _ _ _ _) as [n g4]. intros E. injection E as <- <- <-. split; [|reflexivity].
  destruct Sok as [Sg _]. destruct (Sg (1 / sc) size g3) as [Lg Pg]. destruct (P Pg Lg) as [[Q _] _]. cbn [fst] in *. f_equal. congruence.
Qed.

Lemma jumps_success k axis ratio scale lam ol sh l1 l2 gen freeze w : (axis = 0 \/ axis = 1)%Z -> fits ol sh ->
  (freeze = false -> fst (src_binomial src ratio (w_rng w)) = true -> exists q, jump_px_per_volt axis sh l1 l2 = Ok q) ->
  (freeze = true -> js_activated (w_jump w k) = Some true -> exists noise, js_noise (w_jump w k) = Some noise /\ jump_size axis sh = Ok (length noise)) ->
  (forall noise st g, jump_size axis sh = Ok (length noise) -> (freeze = true -> st = w_jump w k /\ g = w_rng w) ->
     Forall (call_ok gen (mk_noise_world (w_sigma w) (set_key (w_jump w) k st) g)) (jump_calls axis noise sh l1 l2)) ->
  exists ol' st g', od_noise (occ_object src (Jumps k axis ratio scale lam)) (fst ol) (snd ol) l1 l2 gen freeze w
    = (Ok (ol', ol'), mk_noise_world (w_sigma w) (set_key (w_jump w) k st) g') /\ fits ol' sh /\
    (freeze = true -> st = w_jump w k /\ g' = w_rng w) /\
    (js_activated st = Some true -> exists noise, js_noise st = Some noise /\ jump_size axis sh = Ok (length noise)).
Proof.
  intros Ha Hf Hq Hz Hc. destruct ol as [occ lead]. cbn [fst snd occ_object jumps_object od_noise].
  assert (Hs : exists s, jump_scan occ lead = Some s /\ scan_shape s = sh).
  { destruct occ as [a|a|], lead as [l|l], sh as [n|r c]; cbn in Hf; try contradiction; (eexists; split; [reflexivity|]); cbn; [destruct Hf; congruence|destruct Hf as (?&?&_); congruence]. }
  destruct Hs as (s & Es & Sh). rewrite Es, Sh.
  assert (D : (exists st g', jump_draw src axis ratio scale lam freeze (w_jump w k) (w_rng w) sh l1 l2 = Ok (None, st, g') /\
                 (freeze = true -> st = w_jump w k /\ g' = w_rng w) /\ js_activated st <> Some true) \/
              (exists noise st g', jump_draw src axis ratio scale lam freeze (w_jump w k) (w_rng w) sh l1 l2 = Ok (Some noise, st, g') /\
                 (freeze = true -> st = w_jump w k /\ g' = w_rng w) /\ js_noise st = Some noise /\ jump_size axis sh = Ok (length noise))).
  { destruct freeze.
    - unfold jump_draw. cbn [andb]. destruct (js_activated (w_jump w k)) as [[|]|] eqn:A; cbn [negb].
      + destruct (Hz eq_refl eq_refl) as (noise & En & Ln). rewrite En. right. do 3 eexists. split; [reflexivity|]. auto.
      + left. do 2 eexists. split; [reflexivity|]. split; [auto|]. congruence.
      + left. do 2 eexists. split; [reflexivity|]. split; [auto|]. congruence.
    - destruct (jump_draw src axis ratio scale lam false (w_jump w k) (w_rng w) sh l1 l2) as [[[[noise|] st] g']|e] eqn:D.
      + right. destruct (drawn_length _ _ _ _ _ _ _ _ _ _ _ _ D) as [L ->]. do 3 eexists. split; [reflexivity|]. split; [discriminate|]. auto.
      + left. do 2 eexists. split; [reflexivity|]. split; [discriminate|]. unfold jump_draw in D. cbn [andb] in D.
        destruct (src_binomial src ratio (w_rng w)) as [act g1]. destruct act; cbn [negb] in D.
        * destruct (scale g1) as [sv g2]. destruct (lam g2) as [lv g3]. destruct (jump_px_per_volt axis sh l1 l2) as [qq|]; [|discriminate]. cbn [bind] in D.
          destruct (jump_size axis sh) as [size|]; [|discriminate]. cbn [bind] in D. destruct (generate_dot_jumps_blockwise _ _ _ _ _); discriminate.
        * injection D as <- _. discriminate.
      + exfalso. unfold jump_draw in D. cbn [andb] in D. destruct (src_binomial src ratio (w_rng w)) as [act g1]. destruct act; cbn [negb] in D; [|discriminate]. specialize (Hq eq_refl eq_refl).
        destruct (scale g1) as [sv g2]. destruct (lam g2) as [lv g3]. destruct Hq as [q Eq]. rewrite Eq in D. cbn [bind] in D.
        assert (Js : exists size, jump_size axis sh = Ok size) by (destruct sh, Ha as [->| ->]; cbn; eauto). destruct Js as [size Js]. rewrite Js in D. cbn [bind] in D.
        destruct (generate_dot_jumps_blockwise _ _ _ _ _); discriminate. }
  destruct D as [(st & g' & E & Fz & Na)|(noise & st & g' & E & Fz & En & Ln)]; rewrite E.
  - do 3 eexists. split; [reflexivity|]. split; [exact Hf|]. split; [exact Fz|]. intros C. congruence.
  - specialize (Hc noise st g' Ln Fz). set (w1 := mk_noise_world _ _ _) in *. unfold mbind. rewrite (run_calls_success gen w1 _ Hc).
    destruct (apply_success gen w1 axis noise occ lead sh s l1 l2 Ha Hf Es Ln Hc) as (s' & Ea & Ft). rewrite Ea. cbn [bind].
    do 3 eexists. split; [reflexivity|]. split; [exact Ft|]. split; [exact Fz|]. intros _. exists noise. auto.
Qed.

(** ** Requests below given voltages with at most [d] volts between pixels *)
Section Fine.
Variables u1 u2 d : R.
Definition fine (l1 l2 : limits) (sh : shape) : Prop :=
  fst l1 <= u1 /\ snd l1 <= u1 /\ fst l2 <= u2 /\ snd l2 <= u2 /\
  match sh with
  | Shape1 n => (0 < n)%nat /\ (fst l1 <> snd l1 \/ fst l2 <> snd l2)
  | Shape2 r c => (2 <= r)%nat /\ (2 <= c)%nat /\ fst l1 <> snd l1 /\ fst l2 <> snd l2 /\
      Rabs (snd l1 - fst l1) <= d * INR (c - 1) /\ Rabs (snd l2 - fst l2) <= d * INR (r - 1)
  end.

Lemma sort_range l : snd (sort_limits l) - fst (sort_limits l) = Rabs (snd l - fst l).
Proof. unfold sort_limits. cbn. unfold Rmin, Rmax, Rabs. destruct (Rle_dec (fst l) (snd l)), (Rcase_abs (snd l - fst l)); lra. Qed.
Lemma sort_upper l u : fst l <= u -> snd l <= u -> fst (sort_limits l) <= u /\ snd (sort_limits l) <= u.
Proof. unfold sort_limits. cbn. unfold Rmin, Rmax. destruct (Rle_dec (fst l) (snd l)); lra. Qed.
Lemma sort_distinct l : fst l <> snd l -> fst (sort_limits l) < snd (sort_limits l).
Proof. intros H. unfold sort_limits. cbn. unfold Rmin, Rmax. destruct (Rle_dec (fst l) (snd l)); lra. Qed.

(** The limits of a strip of [m] columns below [l] continue the pixels. *)
Lemma strip_limits l u n m : fst l <= u -> snd l <= u -> fst l <> snd l -> (2 <= n)%nat -> (2 <= m)%nat ->
  Rabs (snd l - fst l) <= d * INR (n - 1) ->
  let s := sort_limits l in let step := (snd s - fst s) / INR n in
  let t := (fst s - INR m * step, fst s - step) in
  fst t <= u /\ snd t <= u /\ fst t <> snd t /\ Rabs (snd t - fst t) <= d * INR (m - 1).
Proof.
  intros H1 H2 Hd Hn Hm Hr s step t.
  destruct (sort_upper l u H1 H2) as [U1 U2]. pose proof (sort_distinct l Hd) as Ld. fold s in U1, U2, Ld.
  assert (Rs : snd s - fst s = Rabs (snd l - fst l)) by apply sort_range.
  assert (Nn : 0 < INR n) by (apply lt_0_INR; lia).
  assert (St : 0 < step) by (unfold step; apply Rdiv_lt_0_compat; lra).
  assert (Mm : INR m = INR (m - 1) + 1) by (rewrite <- S_INR; f_equal; lia).
  assert (M1 : 1 <= INR (m - 1)) by (replace 1 with (INR 1) by reflexivity; apply le_INR; lia).
  assert (Nn1 : INR n = INR (n - 1) + 1) by (rewrite <- S_INR; f_equal; lia).
  assert (Sd : step <= d).
  { unfold step. apply Rmult_le_reg_r with (INR n); [exact Nn|]. replace ((snd s - fst s) / INR n * INR n) with (snd s - fst s) by (field; lra).
    rewrite Rs. assert (0 < d * INR (n - 1)) by (rewrite Rs in Ld || idtac; assert (0 < Rabs (snd l - fst l)) by (rewrite <- Rs; lra); lra).
    assert (N1 : 1 <= INR (n - 1)) by (replace 1 with (INR 1) by reflexivity; apply le_INR; lia). nra. }
  cbn [t fst snd]. assert (0 <= INR m * step) by (apply Rmult_le_pos; [apply pos_INR|lra]).
  split; [lra|]. split; [lra|]. split; [rewrite Mm; nra|].
  replace (fst s - step - (fst s - INR m * step)) with (INR (m - 1) * step) by (rewrite Mm; ring).
  rewrite Rabs_pos_eq by nra. nra.
Qed.

Lemma calls_fine axis noise sh l1 l2 : fine l1 l2 sh ->
  Forall (fun c => exists sh', snd c = res_of sh' /\ fine (fst (fst c)) (snd (fst c)) sh' /\ (axis = 1%Z -> jump_size 0 sh' = jump_size 0 sh))
    (jump_calls axis noise sh l1 l2).
Proof.
  intros (A1 & B1 & A2 & B2 & Sh). unfold jump_calls. set (m := list_max noise).
  destruct (sort_upper l1 u1 A1 B1) as [U1 V1]. destruct (sort_upper l2 u2 A2 B2) as [U2 V2].
  pose proof (sort_range l1) as R1. pose proof (sort_range l2) as R2. pose proof (Rabs_pos (snd l1 - fst l1)) as P1. pose proof (Rabs_pos (snd l2 - fst l2)) as P2.
  destruct (0 <? m)%nat eqn:M0; [|constructor]. apply Nat.ltb_lt in M0.
  destruct sh as [n|r c].
  - destruct Sh as [Hn Hd]. set (step := (snd (sort_limits l1) - fst (sort_limits l1)) / INR n).
    assert (Nn : 0 < INR n) by (apply lt_0_INR; lia).
    assert (St : 0 <= step) by (unfold step; apply Rmult_le_pos; [lra|left; apply Rinv_0_lt_compat; exact Nn]).
    assert (Sd : fst (sort_limits l1) <> snd (sort_limits l1) \/ fst (sort_limits l2) <> snd (sort_limits l2)).
    { destruct Hd as [H|H]; [left|right]; pose proof (sort_distinct _ H); lra. }
    destruct (axis =? 1)%Z eqn:X1; [|destruct (axis =? 0)%Z eqn:X0; [|apply Forall_nil]]; apply Forall_map, Forall_forall; intros i _;
      exists (Shape1 n); cbn [fst snd res_of shifted_limits]; (split; [reflexivity|]; split; [|reflexivity]);
      assert (Q : 0 <= INR (i + 1) * step) by (apply Rmult_le_pos; [apply pos_INR|exact St]); unfold fine; cbn [fst snd shifted_limits];
      repeat split; try lra; try exact Hn; (destruct Sd as [H|H]; [left|right]; lra).
  - destruct Sh as (Hr & Hc & D1 & D2 & E1 & E2).
    assert (Sd1 : fst (sort_limits l1) <> snd (sort_limits l1)) by (pose proof (sort_distinct _ D1); lra).
    assert (Sd2 : fst (sort_limits l2) <> snd (sort_limits l2)) by (pose proof (sort_distinct _ D2); lra).
    destruct (axis =? 1)%Z eqn:X1; [|destruct (axis =? 0)%Z eqn:X0; [|apply Forall_nil]]; (apply Forall_cons; [|apply Forall_nil]); cbn [fst snd].
    + destruct (1 <? m)%nat eqn:M1.
      * apply Nat.ltb_lt in M1. exists (Shape2 r m). split; [reflexivity|]. split; [|reflexivity].
        destruct (strip_limits l1 u1 c m A1 B1 D1 Hc ltac:(lia) E1) as (S1 & S2 & S3 & S4).
        unfold fine. repeat split; auto; try lia. rewrite Rabs_pos_eq by lra. lra.
      * apply Nat.ltb_ge in M1. assert (m = 1%nat) by lia. exists (Shape1 r). split; [reflexivity|]. split; [|reflexivity].
        assert (0 <= (snd (sort_limits l1) - fst (sort_limits l1)) / INR c) by (apply Rmult_le_pos; [lra|left; apply Rinv_0_lt_compat, lt_0_INR; lia]).
        unfold fine. cbn [fst snd]. rewrite H. cbn [INR]. repeat split; try lra; auto; lia.
    + destruct (1 <? m)%nat eqn:M1.
      * apply Nat.ltb_lt in M1. exists (Shape2 m c). split; [reflexivity|]. split; [|apply Z.eqb_eq in X0; lia].
        destruct (strip_limits l2 u2 r m A2 B2 D2 Hr ltac:(lia) E2) as (S1 & S2 & S3 & S4).
        unfold fine. repeat split; auto; try lia. rewrite Rabs_pos_eq by lra. lra.
      * apply Nat.ltb_ge in M1. assert (m = 1%nat) by lia. exists (Shape1 c). split; [reflexivity|]. split; [|apply Z.eqb_eq in X0; lia].
        assert (0 <= (snd (sort_limits l2) - fst (sort_limits l2)) / INR r) by (apply Rmult_le_pos; [lra|left; apply Rinv_0_lt_compat, lt_0_INR; lia]).
        unfold fine. cbn [fst snd]. rewrite H. cbn [INR]. repeat split; try lra; auto; lia.
Qed.

Lemma range_abs l : volt_range l = Rabs (snd l - fst l).
Proof. rewrite <- sort_range. reflexivity. Qed.
Lemma div_range_ok n l : fst l <> snd l -> div_range n l = Ok (INR n / Rabs (snd l - fst l)).
Proof.
  intros H. unfold div_range. rewrite range_abs, Reqb_false; [reflexivity|]. apply Rabs_no_R0. lra.
Qed.
Lemma fixed_gate_dec l : {fixed_gate l = true /\ fst l = snd l} + {fixed_gate l = false /\ fst l <> snd l}.
Proof. unfold fixed_gate. destruct (Req_EM_T (fst l) (snd l)) as [E|E]; [left|right]; split; auto; [apply Reqb_true|apply Reqb_false]; auto. Qed.
Lemma blur_fine l1 l2 sh : fine l1 l2 sh -> exists q, blur_px_per_volt sh l1 l2 = Ok q.
Proof.
  intros (_ & _ & _ & _ & Sh). destruct sh as [n|r c]; cbn [blur_px_per_volt].
  - destruct Sh as [_ Hd]. destruct (fixed_gate_dec l1) as [[-> F1]|[-> F1]].
    + rewrite div_range_ok; [eauto|]. destruct Hd; [congruence|auto].
    + destruct (fixed_gate_dec l2) as [[-> F2]|[-> F2]]; rewrite !div_range_ok by auto; cbn [bind]; eauto.
  - destruct Sh as (_ & _ & D1 & _). rewrite div_range_ok by auto. eauto.
Qed.
Lemma jump_fine0 l1 l2 sh : fst l2 <> snd l2 -> exists q, jump_px_per_volt 0 sh l1 l2 = Ok q.
Proof. intros D. destruct sh; cbn [jump_px_per_volt Z.eqb]; rewrite div_range_ok by auto; eauto. Qed.
Lemma jump_fine1 l1 l2 sh : fst l1 <> snd l1 -> exists q, jump_px_per_volt 1 sh l1 l2 = Ok q.
Proof. intros D. destruct sh; cbn [jump_px_per_volt Z.eqb Pos.eqb]; rewrite div_range_ok by auto; eauto. Qed.

(** ** Blurring and jumps along both gates *)
Variable gen : generator world lead_mask.
Hypothesis Gen : forall w l1 l2 sh, fine l1 l2 sh -> served gen w l1 l2 sh.
Variables (kb k0 k1 : nat) (sigma : param G) (kernel : R -> Z -> R) (radius : R -> nat).
Variables (ratio0 ratio1 : R) (scale0 lam0 scale1 lam1 : param G).
Hypothesis Keys : k0 <> k1.
Notation blur := (Blur kb sigma kernel radius).
Notation jump0 := (Jumps k0 0 ratio0 scale0 lam0).
Notation jump1 := (Jumps k1 1 ratio1 scale1 lam1).
Notation gen_b := (with_noise gen (occ_object src blur)).
Notation gen_0 := (with_noise gen_b (occ_object src jump0)).

Lemma blur_served w l1 l2 sh : w_sigma w kb <> None -> fine l1 l2 sh -> served gen_b w l1 l2 sh.
Proof.
  intros Hw F. destruct (Gen w l1 l2 sh F) as (ol & E & Ft). destruct (blur_fine _ _ _ F) as [q Q].
  destruct (blur_success kb sigma kernel radius ol sh l1 l2 gen true w q Ft Q (fun _ => Hw)) as (ol' & sg & g' & En & Ft' & Fz & _).
  destruct (Fz eq_refl) as [Sg ->]. rewrite <- Sg, set_same, world_eta in En.
  exists ol'. split; [|exact Ft']. unfold with_noise, mbind. rewrite E, En. reflexivity.
Qed.
Lemma jump0_served w l1 l2 sh : w_sigma w kb <> None -> fine l1 l2 sh ->
  (js_activated (w_jump w k0) = Some true -> exists noise, js_noise (w_jump w k0) = Some noise /\ jump_size 0 sh = Ok (length noise)) ->
  served gen_0 w l1 l2 sh.
Proof.
  intros Hw F Hj. destruct (blur_served w l1 l2 sh Hw F) as (ol & E & Ft).
  destruct (jumps_success k0 0 ratio0 scale0 lam0 ol sh l1 l2 gen_b true w (or_introl eq_refl) Ft ltac:(discriminate) (fun _ => Hj)) as (ol' & st & g' & En & Ft' & Fz & _).
  { intros noise st g _ Fz. destruct (Fz eq_refl) as [-> ->]. rewrite set_same, world_eta.
    eapply Forall_impl; [|exact (calls_fine 0 noise sh l1 l2 F)]. intros c (sh' & Ec & Fc & _). exists sh'. split; [exact Ec|]. apply blur_served; auto. }
  destruct (Fz eq_refl) as [-> ->]. rewrite set_same, world_eta in En.
  exists ol'. split; [|exact Ft']. unfold with_noise at 1, mbind. rewrite E, En. reflexivity.
Qed.

Lemma triple_success w l1 l2 sh ol : fine l1 l2 sh -> (fst (src_binomial src ratio0 (snd (sigma (w_rng w)))) = true -> fst l2 <> snd l2) ->
  (fst l1 = snd l1 -> forall g, fst (src_binomial src ratio1 g) = false) -> fits ol sh ->
  exists ol' w', occupation_loop (map (occ_object src) [blur; jump0; jump1]) gen l1 l2 ol w = (Ok ol', w') /\ fits ol' sh.
Proof.
  intros F D2 D1 Ft. cbn [map occupation_loop].
  destruct (blur_fine _ _ _ F) as [q Q].
  destruct (blur_success kb sigma kernel radius ol sh l1 l2 gen false w q Ft Q ltac:(discriminate)) as (ol1 & sg & g1 & E1 & Ft1 & _ & G1). specialize (G1 eq_refl).
  unfold mbind at 1. rewrite E1. set (w1 := mk_noise_world _ _ _).
  assert (W1 : w_sigma w1 kb <> None). { unfold w1. cbn [w_sigma]. rewrite set_own. discriminate. }
  destruct (jumps_success k0 0 ratio0 scale0 lam0 ol1 sh l1 l2 gen_b false w1 (or_introl eq_refl) Ft1) as (ol2 & st2 & g2 & E2 & Ft2 & _ & N2).
  { intros _ Hb. cbn [w1 w_rng] in Hb. rewrite G1 in Hb. apply jump_fine0, D2, Hb. } { discriminate. }
  { intros noise st g _ _. eapply Forall_impl; [|exact (calls_fine 0 noise sh l1 l2 F)]. intros c (sh' & Ec & Fc & _). exists sh'. split; [exact Ec|]. apply blur_served; auto. }
  unfold mbind at 1. cbn [fst snd]. rewrite E2. set (w2 := mk_noise_world _ _ _).
  assert (W2 : w_sigma w2 kb <> None) by exact W1.
  destruct (jumps_success k1 1 ratio1 scale1 lam1 ol2 sh l1 l2 gen_0 false w2 (or_intror eq_refl) Ft2) as (ol3 & st3 & g3 & E3 & Ft3 & _ & _).
  { intros _ Hb. apply jump_fine1. intros E. rewrite (D1 E) in Hb. discriminate. } { discriminate. }
  { intros noise st g _ _. eapply Forall_impl; [|exact (calls_fine 1 noise sh l1 l2 F)]. intros c (sh' & Ec & Fc & Sz). exists sh'. split; [exact Ec|]. apply jump0_served; auto.
    cbn [w_jump]. rewrite set_other by exact Keys. cbn [w2 w_jump]. rewrite set_own. rewrite (Sz eq_refl). exact N2. }
  unfold mbind at 1. cbn [fst snd]. rewrite E3. exists ol3. eexists. split; [reflexivity|exact Ft3].
Qed.
End Fine.
End Objects.
