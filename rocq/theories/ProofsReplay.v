(** Proofs about the data generated for occupation distortions: frozen distortions replay. *)
From Coq Require Import FunctionalExtensionality.
From Verif Require Import RPrelude Arr ModelSupport ModelTct ModelCsd ModelJumps ModelDistortions ModelSensor ModelSimulation ModelInstance
  ModelNoise SpecSupport SpecTct SpecCsd SpecSensor SpecDistortions SpecInstance SpecNoise ProofsTct ProofsJumps ProofsDistortions ProofsCsd ProofsOcc ProofsRegions ProofsDriver ProofsScan ProofsInstance ProofsNoise.
Local Open Scope R_scope.

Section Replay.
Context {G : Type}.
Variable src : sources G.
Notation world := (noise_world G).

Lemma set_same {X} (f : nat -> X) k : set_key f k (f k) = f.
Proof. apply functional_extensionality. intros i. unfold set_key. destruct (Nat.eqb_spec i k); congruence. Qed.
Lemma set_other {X} (f : nat -> X) k x i : i <> k -> set_key f k x i = f i.
Proof. intros H. unfold set_key. destruct (Nat.eqb_spec i k); congruence. Qed.
Lemma set_own {X} (f : nat -> X) k x : set_key f k x k = x.
Proof. unfold set_key. rewrite Nat.eqb_refl. reflexivity. Qed.
Lemma world_eta (w : world) : mk_noise_world (w_sigma w) (w_jump w) (w_rng w) = w.
Proof. destruct w; reflexivity. Qed.

Definition agree (ks : list nat) (w w' : world) : Prop :=
  forall k, In k ks -> w_sigma w k = w_sigma w' k /\ w_jump w k = w_jump w' k.
(** reads only the objects [ks] and changes nothing *)
Definition reads (ks : list nat) (gen : generator world lead_mask) : Prop :=
  (forall l1 l2 res w r w1, gen l1 l2 res w = (Ok r, w1) -> w1 = w) /\
  (forall l1 l2 res w w', agree ks w w' -> fst (gen l1 l2 res w') = fst (gen l1 l2 res w)).
Lemma undistorted_reads gen : undistorted gen -> reads [] gen.
Proof.
  intros H. split.
  - intros l1 l2 res w r w1 E. destruct (H l1 l2 res w) as [H1 _]. rewrite E in H1. exact H1.
  - intros l1 l2 res w w' _. destruct (H l1 l2 res w) as [_ H2]. apply H2.
Qed.
Lemma reads_ok ks gen l1 l2 res w w' r : reads ks gen -> agree ks w w' -> gen l1 l2 res w = (Ok r, w) -> gen l1 l2 res w' = (Ok r, w').
Proof.
  intros [P S] A E. specialize (S l1 l2 res w w' A). rewrite E in S. cbn in S.
  destruct (gen l1 l2 res w') as [[r'|] w1] eqn:E'; cbn in S; [|discriminate]. injection S as ->. f_equal. eapply P; eauto.
Qed.
Lemma generated1_agree ks gen w w' : reads ks gen -> agree ks w w' -> generated1 gen w' = generated1 gen w.
Proof.
  intros [_ S] A. apply functional_extensionality; intros l1. apply functional_extensionality; intros l2. apply functional_extensionality; intros n.
  unfold generated1. rewrite (S _ _ _ w w' A). reflexivity.
Qed.
Lemma generated2_agree ks gen w w' : reads ks gen -> agree ks w w' -> generated2 gen w' = generated2 gen w.
Proof.
  intros [_ S] A. apply functional_extensionality; intros l1. apply functional_extensionality; intros l2. apply functional_extensionality; intros n.
  unfold generated2. rewrite (S _ _ _ w w' A). reflexivity.
Qed.
Lemma run_calls_same ks gen : reads ks gen -> forall calls w w', agree ks w w' ->
  fst (run_calls gen calls w') = fst (run_calls gen calls w) /\
  (forall u w1, run_calls gen calls w = (Ok u, w1) -> w1 = w).
Proof.
  intros [P S]. induction calls as [|[[l1 l2] res] t IH]; intros w w' A; cbn [run_calls].
  - split; [reflexivity|]. intros u w1 E. inversion E; auto.
  - unfold mbind. specialize (S l1 l2 res w w' A).
    destruct (gen l1 l2 res w) as [[r|e] w1] eqn:E; destruct (gen l1 l2 res w') as [[r'|e'] w1'] eqn:E'; cbn in S; try discriminate.
    + apply P in E, E'. subst. apply IH, A.
    + injection S as ->. split; [reflexivity|]. discriminate.
Qed.
Lemma agree_refl ks w : agree ks w w.
Proof. split; reflexivity. Qed.
Lemma agree_cons k ks w w' : agree (k :: ks) w w' -> agree ks w w'.
Proof. intros H i Hi. apply H. right. exact Hi. Qed.

Lemma jump_draw_frozen axis ratio scale lam st g g' sh l1 l2 :
  match jump_draw src axis ratio scale lam true st g sh l1 l2, jump_draw src axis ratio scale lam true st g' sh l1 l2 with
  | Ok (n, st1, g1), Ok (n', st1', g1') => n' = n /\ st1 = st /\ st1' = st /\ g1 = g /\ g1' = g'
  | Err e, Err e' => e = e'
  | _, _ => False
  end.
Proof.
  unfold jump_draw. destruct (js_activated st) as [[|]|]; cbn [andb negb]; auto. destruct (js_noise st); auto.
Qed.

(** a frozen distortion reads its own state and changes nothing *)
Lemma frozen_object d ks gen occ lead l1 l2 : reads ks gen ->
  (forall w r w1, od_noise (occ_object src d) occ lead l1 l2 gen true w = (Ok r, w1) -> w1 = w) /\
  (forall w w', agree (key_of d :: ks) w w' ->
     fst (od_noise (occ_object src d) occ lead l1 l2 gen true w') = fst (od_noise (occ_object src d) occ lead l1 l2 gen true w)).
Proof.
  intros Rd. destruct d as [k sigma kernel radius|k axis ratio scale lam]; cbn [occ_object od_noise blur_object jumps_object key_of].
  - destruct (occ_scan occ) as [s|]; [|split; [discriminate|reflexivity]]. split.
    + intros w r w1. destruct (blur_noise_function _ _ _ _ _ _ _ _ _) as [[[s' st] g']|] eqn:E; [|discriminate].
      apply blur_frozen_state in E. destruct E as [-> ->]. intros Q. inversion Q. rewrite set_same. apply world_eta.
    + intros w w' A. destruct (A k (or_introl eq_refl)) as [As _]. rewrite <- As. unfold blur_noise_function.
      destruct (w_sigma w k) as [sg|]; cbn [bind]; [|reflexivity]. destruct (Rltb 0 sg); [|reflexivity].
      destruct (blur_px_per_volt _ _ _); cbn [bind]; reflexivity.
  - destruct (jump_scan occ lead) as [s|]; [|split; [discriminate|reflexivity]]. split.
    + intros w r w1. pose proof (jump_draw_frozen axis ratio scale lam (w_jump w k) (w_rng w) (w_rng w) (scan_shape s) l1 l2) as D.
      destruct (jump_draw src axis ratio scale lam true (w_jump w k) (w_rng w) (scan_shape s) l1 l2) as [[[n st] g]|e]; [|discriminate].
      destruct D as (_ & -> & _ & -> & _). rewrite set_same, world_eta. destruct n as [n|].
      * unfold mbind. destruct (run_calls gen _ w) as [[u|] w2] eqn:E; [|discriminate].
        destruct (run_calls_same ks gen Rd (jump_calls axis n (scan_shape s) l1 l2) w w (agree_refl ks w)) as [_ Q]. apply Q in E. subst w2.
        intros Q'. inversion Q'. reflexivity.
      * intros Q'. inversion Q'. reflexivity.
    + intros w w' A. destruct (A k (or_introl eq_refl)) as [_ Aj]. apply agree_cons in A. rewrite <- Aj.
      pose proof (jump_draw_frozen axis ratio scale lam (w_jump w k) (w_rng w) (w_rng w') (scan_shape s) l1 l2) as D.
      destruct (jump_draw src axis ratio scale lam true (w_jump w k) (w_rng w) (scan_shape s) l1 l2) as [[[n st] g]|e];
      destruct (jump_draw src axis ratio scale lam true (w_jump w k) (w_rng w') (scan_shape s) l1 l2) as [[[n' st'] g']|e']; try contradiction; [|subst; reflexivity].
      destruct D as (-> & -> & -> & -> & ->). rewrite set_same. rewrite Aj, set_same, !world_eta. destruct n as [n|]; [|reflexivity].
      unfold mbind. rewrite (generated1_agree ks gen w w' Rd A), (generated2_agree ks gen w w' Rd A).
      destruct (run_calls_same ks gen Rd (jump_calls axis n (scan_shape s) l1 l2) w w' A) as [Q _].
      destruct (run_calls gen _ w') as [[u'|] w2'], (run_calls gen _ w) as [[u|] w2]; cbn in Q |- *; try discriminate; [reflexivity|injection Q as ->; reflexivity].
Qed.
Lemma with_noise_reads d ks gen : reads ks gen -> reads (key_of d :: ks) (with_noise gen (occ_object src d)).
Proof.
  intros Rd. split.
  - intros l1 l2 res w r w1. unfold with_noise, mbind. destruct (gen l1 l2 res w) as [[ol|] w2] eqn:E; [|discriminate].
    apply (proj1 Rd) in E. subst w2. destruct (od_noise _ _ _ _ _ _ _ _) as [[p|] w3] eqn:E'; [|discriminate].
    apply (proj1 (frozen_object d ks gen _ _ _ _ Rd)) in E'. subst w3. intros Q. inversion Q. reflexivity.
  - intros l1 l2 res w w' A. unfold with_noise, mbind. pose proof (proj2 Rd l1 l2 res w w' (agree_cons _ _ _ _ A)) as Q.
    destruct (gen l1 l2 res w) as [[ol|e] w2] eqn:E; destruct (gen l1 l2 res w') as [[ol'|e'] w2'] eqn:E'; cbn in Q; try discriminate; [|injection Q as ->; reflexivity].
    injection Q as ->. apply (proj1 Rd) in E, E'. subst.
    pose proof (proj2 (frozen_object d ks gen (fst ol) (snd ol) l1 l2 Rd) w w' A) as Q.
    destruct (od_noise (occ_object src d) _ _ _ _ _ _ w) as [[p|] w3], (od_noise (occ_object src d) _ _ _ _ _ _ w') as [[p'|] w3']; cbn in Q |- *; congruence.
Qed.
(** an unfrozen distortion changes its own state only, and a frozen call repeats what it did *)
Lemma active_object d ks gen occ lead l1 l2 w a b w1 : reads ks gen -> ~ In (key_of d) ks ->
  od_noise (occ_object src d) occ lead l1 l2 gen false w = (Ok (a, b), w1) ->
  agree ks w w1 /\ od_noise (occ_object src d) occ lead l1 l2 gen true w1 = (Ok (a, b), w1).
Proof.
  intros Rd Hk. destruct d as [k sigma kernel radius|k axis ratio scale lam]; cbn [occ_object od_noise blur_object jumps_object key_of] in *.
  - destruct (occ_scan occ) as [s|]; [|discriminate].
    destruct (blur_noise_function _ _ _ false _ _ _ _ _) as [[[s' st] g']|] eqn:E; [|discriminate].
    intros Q. inversion Q; subst. cbn [w_sigma w_jump w_rng]. split.
    { intros i Hi. cbn. rewrite set_other by congruence. auto. }
    rewrite set_own. rewrite (blur_frozen _ _ _ _ _ _ _ _ _ _ _ E g'). f_equal. f_equal.
    apply functional_extensionality. intros i. unfold set_key. destruct (i =? k)%nat; reflexivity.
  - destruct (jump_scan occ lead) as [s|]; [|discriminate].
    destruct (jump_draw src axis ratio scale lam false (w_jump w k) (w_rng w) (scan_shape s) l1 l2) as [[[n st] g']|] eqn:E; [|discriminate].
    set (w' := mk_noise_world (w_sigma w) (set_key (w_jump w) k st) g').
    assert (A : agree ks w w').
    { intros i Hi. cbn. rewrite set_other by congruence. auto. }
    assert (D : forall g, jump_draw src axis ratio scale lam true st g (scan_shape s) l1 l2 = Ok (n, st, g)).
    { intros g. unfold jump_draw in E |- *. cbn [andb] in E. destruct (src_binomial src ratio (w_rng w)) as [[|] g1]; cbn [negb] in E.
      - destruct (scale g1) as [sv g2]. destruct (lam g2) as [lv g3]. destruct (jump_px_per_volt _ _ _ _) as [kk|]; [|discriminate]. cbn [bind] in E.
        destruct (jump_size _ _) as [size|]; [|discriminate]. cbn [bind] in E. destruct (generate_dot_jumps_blockwise _ _ _ _ _) as [noise g4].
        inversion E; subst. reflexivity.
      - inversion E; subst. reflexivity. }
    assert (W' : mk_noise_world (w_sigma w') (set_key (w_jump w') k st) (w_rng w') = w').
    { unfold w'. cbn. f_equal. apply functional_extensionality. intros i. unfold set_key. destruct (i =? k)%nat; reflexivity. }
    destruct n as [n|].
    + unfold mbind. destruct (run_calls gen _ w') as [[u|] w2] eqn:Er; [|discriminate].
      destruct (run_calls_same ks gen Rd (jump_calls axis n (scan_shape s) l1 l2) w' w' (agree_refl ks w')) as [_ Q]. pose proof (Q _ _ Er). subst w2.
      intros Q'. inversion Q' as [[Q1 Q2]]. clear Q'. subst w1. split; [exact A|].
      change (w_jump w' k) with (set_key (w_jump w) k st k). rewrite set_own, D, W', Er, Q1. reflexivity.
    + intros Q'. inversion Q'; subst a b w1. split; [exact A|].
      fold w'. change (w_jump w' k) with (set_key (w_jump w) k st k). rewrite set_own, D, W'. reflexivity.
Qed.
Lemma loop_replay ds : forall ks gen l1 l2 res ol w ol' w',
  reads ks gen -> NoDup (map key_of ds) -> (forall d, In d ds -> ~ In (key_of d) ks) ->
  gen l1 l2 res w = (Ok ol, w) ->
  occupation_loop (map (occ_object src) ds) gen l1 l2 ol w = (Ok ol', w') ->
  noisy_generator src gen ds l1 l2 res w' = (Ok ol', w') /\ exists ks', reads ks' (noisy_generator src gen ds).
Proof.
  induction ds as [|d ds IH]; intros ks gen l1 l2 res ol w ol' w' Rd Nd Hk Eg; cbn [map occupation_loop noisy_generator fold_left].
  - unfold ret. intros E. inversion E; subst. eauto.
  - unfold mbind. destruct (od_noise _ _ _ _ _ _ _ _) as [[[a b]|] w1] eqn:E; [|discriminate]. cbn [fst]. intros H.
    cbn [map] in Nd. inversion Nd as [|? ? Nin Nd']; subst.
    destruct (active_object d ks gen _ _ _ _ _ _ _ _ Rd (Hk d (or_introl eq_refl)) E) as [A Fr].
    apply (IH (key_of d :: ks) (with_noise gen (occ_object src d)) l1 l2 res a w1); auto.
    + apply with_noise_reads, Rd.
    + intros d' Hd' [Q|Q]; [|apply (Hk d' (or_intror Hd') Q)]. apply Nin. rewrite Q. apply in_map. exact Hd'.
    + unfold with_noise, mbind. rewrite (reads_ok ks gen _ _ _ _ _ _ Rd A Eg). rewrite Fr. reflexivity.
Qed.
Lemma replay gen ds l1 l2 res ol w ol' w' :
  undistorted gen -> NoDup (map key_of ds) -> fst (gen l1 l2 res w) = Ok ol ->
  occupation_loop (map (occ_object src) ds) gen l1 l2 ol w = (Ok ol', w') ->
  noisy_generator src gen ds l1 l2 res w' = (Ok ol', w').
Proof.
  intros U Nd Eg E. apply (loop_replay ds [] gen l1 l2 res ol w); auto.
  - apply undistorted_reads, U.
  - destruct (U l1 l2 res w) as [Q _]. destruct (gen l1 l2 res w); cbn in *; subst; reflexivity.
Qed.
Lemma geometric_undistorted label x : undistorted (get_csd_data (W := world) label x).
Proof. intros l1 l2 res w. split; [reflexivity|]. intros w'. reflexivity. Qed.
Lemma image_loop_agree ds l1 l2 : forall r w r' w', image_loop (map (image_object src) ds) l1 l2 r w = (Ok r', w') ->
  w_sigma w' = w_sigma w /\ w_jump w' = w_jump w.
Proof.
  induction ds as [|d ds IH]; intros r w r' w'; cbn [map image_loop].
  - unfold ret. intros E. inversion E; auto.
  - unfold mbind. destruct r as [im|]; cbn [image_object]; [|discriminate].
    destruct (image_noise_function _ _ _ _ _ _) as [[im' g']|]; [|discriminate]. intros E. destruct (IH _ _ _ _ E) as [A B]. cbn in *. auto.
Qed.
Lemma measure_replay label lim1 lim2 x s occs pots resps a1 b1 a2 b2 v1 v2 res w w' m : NoDup (map key_of occs) ->
  measure (noisy_config src label lim1 lim2 x s occs pots resps) [a1; b1] [a2; b2] v1 v2 res w = (Ok m, w') ->
  fst (noisy_generator src (get_csd_data label x) occs (a1, b1) (a2, b2) res w') = Ok (m_occ m, m_lead m).
Proof.
  intros Nd M. destruct (noisy_inv _ _ _ _ _ _ _ _ _ _ _ _ _ _ _ _ _ M) as (c1 & e1 & c2 & e2 & d & ol & w1 & im & im' & w2 & Q1 & Q2 & Ed & Eo & Ei & Ep & Er & Mo & Ml).
  injection Q1 as <- <-. injection Q2 as <- <-.
  assert (Eg : get_csd_data (W := world) label x (a1, b1) (a2, b2) res w = (Ok (csd_arrays d), w)).
  { unfold get_csd_data. cbn [fst snd]. unfold ideal_of in Ed. rewrite Ed. reflexivity. }
  destruct (loop_replay occs [] _ _ _ _ _ _ _ _ (undistorted_reads _ (geometric_undistorted label x)) Nd (fun _ _ F => F) Eg Eo) as (H & ks & Rd).
  destruct (image_loop_agree _ _ _ _ _ _ _ Ep) as [A1 B1]. destruct (image_loop_agree _ _ _ _ _ _ _ Er) as [A2 B2].
  rewrite (proj2 Rd (a1, b1) (a2, b2) res w1 w').
  - rewrite H, Mo, Ml. destruct ol; reflexivity.
  - intros k _. rewrite A2, A1, B2, B1. auto.
Qed.
End Replay.

(** ** Jumps along the second gate of data that depends on the first gate only *)
Section Columns.
Context {G : Type}.
Variable src : sources G.
Notation world := (noise_world G).
Variable f : R -> R * R.
Variable h : R -> nat.
Variable gen : generator world lead_mask.
Hypothesis Sg : samples_g1 f h gen.

Lemma generated1_samples w l1 l2 n : let d := generated1 gen w l1 l2 n in
  len1 (fst d) = n /\ len1 (snd d) = n /\ forall i, (i < n)%nat ->
    cell1 (fst d) i = lift_occ (f (pixel_voltage l1 n i)) /\ cell1 (snd d) i = Some (INR (h (pixel_voltage l1 n i))).
Proof.
  destruct (proj1 Sg l1 l2 n w) as (a & l & E & La & Ll & V). unfold generated1. rewrite E. cbn [fst snd jump_scan amap1 len1 cell1 of_list1].
  split; [exact La|]. split; [exact Ll|]. intros i Hi. destruct (V i Hi) as [V1 V2]. rewrite V1. split; [reflexivity|].
  rewrite (nth_error_nth _ _ 0%nat V2). reflexivity.
Qed.
Lemma generated2_samples w l1 l2 c r : let d := generated2 gen w l1 l2 (c, r) in
  rows (fst d) = r /\ cols (fst d) = c /\ rows (snd d) = r /\ cols (snd d) = c /\ forall i j, (i < r)%nat -> (j < c)%nat ->
    cell (fst d) i j = lift_occ (f (pixel_voltage l1 c j)) /\ cell (snd d) i j = Some (INR (h (pixel_voltage l1 c j))).
Proof.
  destruct (proj2 Sg l1 l2 c r w) as (a & l & E & Ra & Ca & [Rl Cl] & V). unfold generated2. cbn [fst snd]. rewrite E. cbn [fst snd jump_scan amap2 rows cols cell].
  repeat split; try congruence; destruct (V i j H H0) as [V1 V2]; [rewrite V1|rewrite V2]; reflexivity.
Qed.


Lemma column_jump gen1 gen2 junk (comp1 : arr1 (option R * option R) * arr1 (option R) -> arr1 (option R)) comp2 l1 l2 noise img (v : nat -> option R) :
  length noise = rows img -> (forall c, (c < cols img)%nat -> is_nan (v c) = false) ->
  (forall r c, (r < rows img)%nat -> (c < cols img)%nat -> cell img r c = v c) ->
  (forall lim, let d := comp1 (gen1 l1 lim (cols img)) in len1 d = cols img /\ forall c, (c < cols img)%nat -> cell1 d c = v c) ->
  (forall lim m, let d := comp2 (gen2 l1 lim (cols img, m)) in rows d = m /\ cols d = cols img /\
     forall r c, (r < m)%nat -> (c < cols img)%nat -> cell d r c = v c) ->
  exists out, jump2d_component is_nan gen1 gen2 true 0 l1 l2 noise false comp1 comp2 (fun r c => mk_arr2 r c junk) img = Ok out /\
    same_shape out img /\ forall r c, (r < rows img)%nat -> (c < cols img)%nat -> cell out r c = v c.
Proof.
  intros Ln Nv Vi V1 V2. set (m := list_max noise). set (strip := strip_axis_0 gen1 gen2 comp1 comp2 l1 l2 m img).
  assert (St : (0 < m)%nat -> rows strip = m /\ cols strip = cols img).
  { intros Hm. unfold strip, strip_axis_0. destruct (1 <? m)%nat eqn:E.
    - match goal with |- context [gen2 l1 ?lim (cols img, m)] => destruct (V2 lim m) as (A & B & _) end. auto.
    - cbn. auto. }
  assert (Sv : forall r c, (r < m)%nat -> (c < cols img)%nat -> cell strip r c = v c).
  { intros r c Hr Hc. unfold strip, strip_axis_0. destruct (1 <? m)%nat eqn:E.
    - match goal with |- context [gen2 l1 ?lim (cols img, m)] => destruct (V2 lim m) as (_ & _ & A) end. auto.
    - cbn [cell]. match goal with |- context [gen1 l1 ?lim (cols img)] => destruct (V1 lim) as (_ & A) end. auto. }
  destruct (jump2d_gen_0 is_nan gen1 gen2 comp1 comp2 (fun r c => mk_arr2 r c junk) ltac:(split; reflexivity) l1 l2 noise img Ln) as (out & E & Sh & V).
  { intros Hm. apply St. exact Hm. }
  { intros r c Hr Hc. rewrite Vi; auto. }
  { intros r c Hr Hc. fold m in Hr |- *. fold strip. rewrite Sv; auto. }
  exists out. split; [exact E|]. split; [exact Sh|]. intros r c Hr Hc. rewrite V by auto. cbv zeta.
  destruct (Nat.leb_spec (nth r noise 0%nat) r) as [H|H].
  - apply Vi; [lia|exact Hc].
  - fold m strip. apply Sv; [|exact Hc].
    assert (nth r noise 0 <= m)%nat by (apply list_max_ge, nth_In; lia). lia.
Qed.
Lemma drop_lift_lead n : drop_lead (Some (INR n)) = n.
Proof. unfold drop_lead, number. rewrite (Int_part_unique _ (Z.of_nat n)); [apply Nat2Z.id|]. rewrite <- INR_IZR_INZ. lra. Qed.
Lemma jump_size_0 axis ratio scale lam fr st g r c l1 l2 n st' g' : axis = 0%Z -> sources_ok src ->
  fr = false -> jump_draw src axis ratio scale lam fr st g (Shape2 r c) l1 l2 = Ok (Some n, st', g') -> length n = r.
Proof.
  intros -> (Sgeo & _) ->. unfold jump_draw. cbn [andb jump_size Z.eqb]. destruct (src_binomial src ratio g) as [[|] g1]; cbn [negb]; [|discriminate].
  destruct (scale g1) as [sv g2]. destruct (lam g2) as [lv g3]. destruct (jump_px_per_volt _ _ _ _) as [kk|]; [|discriminate]. cbn [bind].
  match goal with |- context [generate_dot_jumps_blockwise ?p false ?ws r g3] =>
    pose proof (generate_jumps_pattern p ws r g3) as P; destruct (generate_dot_jumps_blockwise p false ws r g3) as [noise g4] end.
  intros E. injection E as <- _ _. cbn [fst] in P.
  match type of P with (forall w, In w (fst (?ws r g3)) -> _) -> _ => destruct (Sgeo (1 / (if Rltb (sv * kk) 1 then 1 else sv * kk)) r g3) as [L Pos] end.
  destruct (P Pos L) as [[Q _] _]. exact Q.
Qed.
Lemma columns_kept k ratio scale lam l1 l2 nc nr w a b w1 ol : sources_ok src ->
  fst l1 <= snd l1 -> fst l2 <= snd l2 ->
  fst (gen l1 l2 (ResArray [Z.of_nat nc; Z.of_nat nr]) w) = Ok ol ->
  od_noise (occ_object src (Jumps k 0 ratio scale lam)) (fst ol) (snd ol) l1 l2 gen false w = (Ok (a, b), w1) ->
  exists o t, a = (Occ2 o, Lead2 t) /\ rows o = nr /\ cols o = nc /\ same_shape t o /\
    forall i j, (i < nr)%nat -> (j < nc)%nat -> cell o i j = f (pixel_voltage l1 nc j) /\ cell t i j = h (pixel_voltage l1 nc j).
Proof.
  intros Sok H1 H2. destruct (proj2 Sg l1 l2 nc nr w) as (a0 & t0 & E & Ra & Ca & [Rt Ct] & V). rewrite E. cbn [fst]. intros Q. injection Q as <-. cbn [fst snd].
  cbn [occ_object jumps_object od_noise jump_scan]. set (s := Scan2 _ _).
  change (scan_shape s) with (Shape2 (rows a0) (cols a0)).
  destruct (jump_draw src 0 ratio scale lam false (w_jump w k) (w_rng w) (Shape2 (rows a0) (cols a0)) l1 l2) as [[[[noise|] st] g']|] eqn:D; [| |discriminate].
  2: { intros Q. inversion Q; subst. exists a0, t0. repeat split; auto; apply V; auto. }
  apply jump_size_0 in D; auto. unfold mbind. set (w2 := mk_noise_world _ _ _).
  destruct (run_calls gen _ w2) as [[u|] w3]; [|discriminate].
  unfold jump_apply, s. rewrite !sort_id by auto. rewrite !descending_false by auto. cbv iota beta.
  set (g1 := generated1 gen w2). set (g2 := generated2 gen w2).
  destruct (column_jump g1 g2 (src_empty src) (fun d => amap1 fst (fst d)) (fun d => amap2 fst (fst d)) l1 l2 noise (amap2 fst (amap2 lift_occ a0))
     (fun c => Some (fst (f (pixel_voltage l1 nc c))))) as (o1 & E1 & [S1 S1'] & V1).
  { cbn. exact D. } { reflexivity. }
  { cbn. intros i j Hi Hj. rewrite (proj1 (V i j ltac:(lia) ltac:(lia))). reflexivity. }
  { intros lim. cbn [amap2 cols]. rewrite Ca. destruct (generated1_samples w2 l1 lim nc) as (A & _ & B). cbn. split; [exact A|].
    intros c Hc. destruct (B c Hc) as [B1 _]. unfold g1. rewrite B1. reflexivity. }
  { intros lim m. cbn [amap2 cols]. rewrite Ca. destruct (generated2_samples w2 l1 lim nc m) as (A & A' & _ & _ & B). cbn. split; [exact A|]. split; [exact A'|].
    intros r c Hr Hc. destruct (B r c Hr Hc) as [B1 _]. unfold g2. rewrite B1. reflexivity. }
  destruct (column_jump g1 g2 (src_empty src) (fun d => amap1 snd (fst d)) (fun d => amap2 snd (fst d)) l1 l2 noise (amap2 snd (amap2 lift_occ a0))
     (fun c => Some (snd (f (pixel_voltage l1 nc c))))) as (o2 & E2 & [S2 S2'] & V2).
  { cbn. exact D. } { reflexivity. }
  { cbn. intros i j Hi Hj. rewrite (proj1 (V i j ltac:(lia) ltac:(lia))). reflexivity. }
  { intros lim. cbn [amap2 cols]. rewrite Ca. destruct (generated1_samples w2 l1 lim nc) as (A & _ & B). cbn. split; [exact A|].
    intros c Hc. destruct (B c Hc) as [B1 _]. unfold g1. rewrite B1. reflexivity. }
  { intros lim m. cbn [amap2 cols]. rewrite Ca. destruct (generated2_samples w2 l1 lim nc m) as (A & A' & _ & _ & B). cbn. split; [exact A|]. split; [exact A'|].
    intros r c Hr Hc. destruct (B r c Hr Hc) as [B1 _]. unfold g2. rewrite B1. reflexivity. }
  destruct (column_jump g1 g2 (src_empty src) snd snd l1 l2 noise (amap2 (fun n => Some (INR n)) t0)
     (fun c => Some (INR (h (pixel_voltage l1 nc c))))) as (o3 & E3 & [S3 S3'] & V3).
  { cbn. lia. } { reflexivity. }
  { cbn. intros i j Hi Hj. rewrite (proj2 (V i j ltac:(lia) ltac:(lia))). reflexivity. }
  { intros lim. cbn [amap2 cols]. rewrite Ct, Ca. destruct (generated1_samples w2 l1 lim nc) as (_ & A & B). split; [exact A|].
    intros c Hc. destruct (B c Hc) as [_ B1]. exact B1. }
  { intros lim m. cbn [amap2 cols]. rewrite Ct, Ca. destruct (generated2_samples w2 l1 lim nc m) as (_ & _ & A & A' & B). split; [exact A|]. split; [exact A'|].
    intros r c Hr Hc. destruct (B r c Hr Hc) as [_ B1]. exact B1. }
  rewrite E1, E2. cbn [bind option_mapM]. rewrite E3. cbn [bind option_map scan_jump]. intros Q. inversion Q; subst a b w1. clear Q.
  cbn in S1, S1', S2, S2', S3, S3'. do 2 eexists. split; [reflexivity|]. cbn [amap2 zip2 rows cols cell].
  split; [congruence|]. split; [congruence|]. split; [split; cbn; congruence|].
  intros i j Hi Hj. cbn in V1, V2, V3. rewrite V1, V2, V3 by lia. unfold drop_occ. cbn [fst snd number]. split.
  - destruct (f (pixel_voltage l1 nc j)); reflexivity.
  - apply drop_lift_lead.
Qed.
End Columns.
