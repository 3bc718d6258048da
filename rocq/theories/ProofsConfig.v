(** Proofs about the configuration sampler. *)
From Verif Require Import RPrelude Arr ModelSupport SpecSupport ModelCsd ModelDistortions ModelSampling ModelSensor ModelSimulation ModelConfig
  SpecSampling SpecSensor SpecConfig ProofsSupport ProofsSampling ProofsSensor.
Local Open Scope R_scope.

(** ** The monad *)
Lemma bind_ok {W A B} (m : action W A) (k : A -> action W B) w b w' :
  mbind m k w = (Ok b, w') -> exists a w1, m w = (Ok a, w1) /\ k a w1 = (Ok b, w').
Proof. unfold mbind. destruct (m w) as [[a|e] w1]; [|discriminate]. eauto. Qed.
Lemma bind_err {W A B} (m : action W A) (k : A -> action W B) w e w' :
  mbind m k w = (Err e, w') -> m w = (Err e, w') \/ exists a w1, m w = (Ok a, w1) /\ k a w1 = (Err e, w').
Proof. unfold mbind. destruct (m w) as [[a|e0] w1]; intros H; [right; eauto|left; congruence]. Qed.
Lemma bind_go {W A B} (m : action W A) (k : A -> action W B) w a w1 : m w = (Ok a, w1) -> mbind m k w = k a w1.
Proof. unfold mbind. intros ->. reflexivity. Qed.

Lemma ret_inv {W A} (a b : A) (w w' : W) : ret a w = (Ok b, w') -> a = b /\ w = w'.
Proof. intros [= -> ->]. auto. Qed.

Section Config.
Context {G : Type}.
Variable r : rng G.
Variable choice : nat -> nat -> G -> nat * G.
Variable fuel : nat.
Hypothesis U : uniform_ok r.

Lemma uniform_go lo hi g : lo <= hi -> exists v g1, uniform r lo hi g = (Ok v, g1) /\ lo <= v <= hi.
Proof.
  intros H. unfold uniform. rewrite Rltb_false by exact H. destruct (r_uniform r lo hi g) as [v g1] eqn:E.
  exists v, g1. split; [reflexivity|]. pose proof (U lo hi g H) as B. rewrite E in B. exact B.
Qed.
Lemma uniform_inv lo hi g v g1 : uniform r lo hi g = (Ok v, g1) -> lo <= v <= hi.
Proof.
  unfold uniform. destruct (Rltb_spec hi lo); [discriminate|]. intros E.
  destruct (uniform_go lo hi g ltac:(lra)) as (v' & g' & E' & B). unfold uniform in E'.
  rewrite Rltb_false in E' by lra. rewrite E in E'. injection E' as <- <-. exact B.
Qed.
Lemma uniform_err lo hi g e g1 : uniform r lo hi g = (Err e, g1) -> e = ValueError /\ hi < lo.
Proof.
  unfold uniform. destruct (Rltb_spec hi lo); [intros [= <- _]; auto|]. destruct (r_uniform r lo hi g); discriminate.
Qed.
Lemma sample_inv a total g v g1 : admissible_range a total -> sample r fuel a total g = (Ok v, g1) -> within total v.
Proof.
  intros A. unfold sample. destruct (new_sampler r a total None g) as [[s w] g0] eqn:N.
  destruct (sample_parameter r fuel s g0) as [[[v' s'] g']|] eqn:E; [|discriminate]. intros [= <- <-].
  destruct (sampled_in_total r a total None g s w g0 fuel 1 g0 [v'] s' g' U A I N) as [_ F].
  { cbn [sample_many]. rewrite E. reflexivity. }
  inversion F; subst. assumption.
Qed.
Lemma sample_range a lo hi g v g1 : lo <= hi -> sample r fuel a (lo, hi) g = (Ok v, g1) -> lo <= v <= hi.
Proof.
  intros H E. assert (A : admissible_range a (lo, hi)) by (destruct a; cbn; auto; exact H).
  pose proof (sample_inv a _ g v g1 A E) as Q. unfold within in Q. cbn [fst snd] in Q.
  rewrite Rmin_left, Rmax_right in Q by exact H. exact Q.
Qed.
Lemma sample_err a total g e g1 : sample r fuel a total g = (Err e, g1) -> e = OutOfFuel.
Proof.
  unfold sample. destruct (new_sampler r a total None g) as [[s w] g0].
  destruct (sample_parameter r fuel s g0) as [[[v' s'] g']|]; [discriminate|congruence].
Qed.
Lemma sample_uniform_range lo hi g v g1 : sample_uniform r fuel (lo, hi) g = (Ok v, g1) -> lo <= v <= hi.
Proof.
  unfold sample_uniform. cbn [fst snd]. destruct (Rltb_spec hi lo); [discriminate|]. apply sample_range. lra.
Qed.
Lemma sample_uniform_err lo hi g e g1 : lo <= hi -> sample_uniform r fuel (lo, hi) g = (Err e, g1) -> e = OutOfFuel.
Proof. intros H. unfold sample_uniform. cbn [fst snd]. rewrite Rltb_false by exact H. apply sample_err. Qed.
Lemma normal_above_inv n lo std mean g v g1 : normal_above_loop r n lo std mean g = (Ok v, g1) ->
  lo <= v /\ exists g0, v = fst (r_normal r mean std g0).
Proof.
  revert g. induction n as [|n IH]; cbn [normal_above_loop]; intros g; [discriminate|].
  destruct (r_normal r mean std g) as [x g2] eqn:E. destruct (Rltb_spec x lo); [apply IH|]. intros [= <- <-].
  split; [lra|]. exists g. rewrite E. reflexivity.
Qed.
Lemma normal_above_err n lo std mean g e g1 : normal_above_loop r n lo std mean g = (Err e, g1) -> e = OutOfFuel.
Proof.
  revert g. induction n as [|n IH]; cbn [normal_above_loop]; intros g; [congruence|].
  destruct (r_normal r mean std g) as [x g2]. destruct (Rltb x lo); [apply IH|discriminate].
Qed.

(** ** Lever arms *)
Lemma lever_arms_spec q compensated g : 0 < q <= 1 -> exists gates dots g',
  sample_lever_arms r q compensated g = (Ok (gates, dots), g') /\ consistent_arms q compensated gates dots.
Proof.
  intros Q. unfold sample_lever_arms.
  set (lim := if compensated then (0.0001, 0.0005) else (0.02805, 0.15093)).
  assert (L : 0.0001 <= fst lim <= snd lim /\ snd lim <= 0.15093) by (unfold lim; destruct compensated; cbn [fst snd]; lra).
  destruct lim as [lo hi] eqn:El. cbn [fst snd] in L.
  destruct (uniform_go lo hi g ltac:(lra)) as (g1 & s1 & E1 & B1). rewrite (bind_go _ _ _ _ _ E1).
  destruct (uniform_go (0.5 * g1) (2 * g1) s1 ltac:(lra)) as (g2 & s2 & E2 & B2). rewrite (bind_go _ _ _ _ _ E2).
  set (m1 := Rmin (2 * g1 * -0.03 / 100) (-0.0007994 + q * (-0.0000961 - -0.0007994))).
  assert (M1 : -0.0007994 <= m1 /\ m1 <= -0.0007994 + q * 0.0007033 /\ m1 <= - (2 * (0.0003 * g1))).
  { unfold m1, Rmin. destruct (Rle_dec _ _); lra. }
  destruct (uniform_go (-0.0007994) m1 s2 ltac:(lra)) as (d1 & s3 & E3 & B3). rewrite (bind_go _ _ _ _ _ E3).
  set (m2 := Rmin (Rmin (0.5 * d1) (2 * g2 * -0.03 / 100)) (-0.0005214 + q * (-0.0000630 - -0.0005214))).
  assert (M2 : -0.0005214 <= m2 /\ m2 <= -0.0005214 + q * 0.0004584 /\ m2 <= - (2 * (0.0003 * g2)) /\ m2 <= 0.5 * d1).
  { unfold m2. pose proof (Rmin_l (Rmin (0.5 * d1) (2 * g2 * -0.03 / 100)) (-0.0005214 + q * (-0.0000630 - -0.0005214))) as A1.
    pose proof (Rmin_r (Rmin (0.5 * d1) (2 * g2 * -0.03 / 100)) (-0.0005214 + q * (-0.0000630 - -0.0005214))) as A2.
    pose proof (Rmin_l (0.5 * d1) (2 * g2 * -0.03 / 100)) as A3. pose proof (Rmin_r (0.5 * d1) (2 * g2 * -0.03 / 100)) as A4.
    split; [|lra]. apply Rmin_glb; [apply Rmin_glb|]; lra. }
  rewrite Rltb_false by lra.
  assert (X : Rmax (2 * d1) (-0.0005214) <= m2).
  { apply Rmax_lub; [|lra]. unfold m2. apply Rmin_glb; [apply Rmin_glb|]; lra. }
  destruct (uniform_go (Rmax (2 * d1) (-0.0005214)) m2 s3 X) as (d2 & s4 & E4 & B4). rewrite (bind_go _ _ _ _ _ E4).
  pose proof (Rmax_l (2 * d1) (-0.0005214)). pose proof (Rmax_r (2 * d1) (-0.0005214)).
  exists (g1, g2), (d1, d2), s4. split; [reflexivity|]. unfold consistent_arms. cbn [fst snd].
  split; [destruct compensated; injection El as <- <-; lra|]. repeat split; lra.
Qed.

(** ** Peaks of the sensor-scan sensor *)
Lemma snoc_nth {A} (l : list A) x i y : nth_error (l ++ [x]) i = Some y ->
  (i < length l)%nat /\ nth_error l i = Some y \/ i = length l /\ y = x.
Proof.
  intros H. destruct (Nat.lt_ge_cases i (length l)) as [L|L].
  - left. rewrite nth_error_app1 in H by exact L. auto.
  - right. rewrite nth_error_app2 in H by exact L. destruct (i - length l)%nat as [|k] eqn:E.
    + cbn in H. injection H as <-. split; [lia|reflexivity].
    + cbn in H. destruct k; discriminate.
Qed.

Ltac bound := repeat match goal with H : nth_error ?l ?i = Some _ |- _ =>
  let L := fresh "L" in assert (L : (i < length l)%nat) by (apply nth_error_Some; congruence); cbn [length] in L; revert H end; intros.

Lemma new_lorentz_inv m gam h off p g g' : lift (G := G) (new_lorentz m gam h off) g = (Ok p, g') ->
  p = mk_lorentz m gam h off /\ 0 < gam /\ g' = g.
Proof.
  unfold lift, new_lorentz, raise_if. destruct (Rleb_spec gam 0); [discriminate|]. intros [= <- <-]. repeat split. lra.
Qed.
Lemma last_nth {A} (l : list A) x : nth_error (x :: l) (length l) = Some (last l x).
Proof.
  revert x. induction l as [|y l IH]; intros x; [reflexivity|]. cbn [length nth_error]. rewrite IH.
  f_equal. clear. revert y. induction l as [|z l IH]; intros y; [reflexivity|]. cbn [last] in *. destruct l; [reflexivity|apply IH].
Qed.

Lemma add_scan_peak_inv ps h base g ps' g' : add_scan_peak r fuel ps h base g = (Ok ps', g') ->
  scan_peaks_ok base ps -> exists p, ps' = ps ++ [p] /\ scan_peaks_ok base ps'.
Proof.
  intros H. unfold add_scan_peak in H. apply bind_ok in H. destruct H as ([m gam] & g1 & H1 & H).
  apply bind_ok in H. destruct H as (s & g2 & H2 & H). apply bind_ok in H. destruct H as (p & g3 & H3 & H).
  injection H as <- <-. apply new_lorentz_inv in H3. destruct H3 as (-> & Hg & _).
  destruct (normal_above_inv _ _ _ _ _ _ _ H2) as [Hs _].
  intros (F & A & E & B & D & W & Y). eexists. split; [reflexivity|].
  set (p := mk_lorentz m gam (h + s) 0).
  assert (F' : Forall (fun p => 0 < lz_gamma p /\ 0 <= lz_height p /\ lz_offset p = 0) (ps ++ [p])).
  { apply Forall_app. split; [exact F|]. constructor; [|constructor]. cbn. repeat split; lra. }
  split; [exact F'|]. clear F'. destruct ps as [|p0 [|p1 rest]].
  - apply bind_ok in H1. destruct H1 as (gam' & g4 & H4 & H5). injection H5 as <- <- <-. cbn [app].
    split. { intros i j x y L Ex Ey. bound. lia. }
    split. { intros i q0 q1 x y L E0 E1 E2 E3. bound. lia. }
    split. { intros x [= <-]. reflexivity. }
    split. { intros x y _ [=]. }
    split. { intros i x L Ex. bound. lia. }
    intros i x y Ex Ey L. bound. lia.
  - apply bind_ok in H1. destruct H1 as (dif & g4 & H4 & H5). apply bind_ok in H5. destruct H5 as (rel & g5 & H6 & H7).
    injection H7 as <- <- <-. apply sample_range in H4; [|lra]. apply sample_range in H6; [|lra].
    specialize (B p0 eq_refl). cbn [app].
    split. { intros i j x y L Ex Ey. bound. assert (i = 0 /\ j = 1)%nat as [-> ->] by lia. injection Ex as <-. injection Ey as <-. cbn. lra. }
    split. { intros i q0 q1 x y L E0 E1 E2 E3. bound. lia. }
    split. { intros x [= <-]. exact B. }
    split. { intros x y [= <-] [= <-]. cbn. lra. }
    split. { intros i x L Ex. bound. lia. }
    intros i x y Ex Ey L. bound. lia.
  - apply bind_ok in H1. destruct H1 as (z & g4 & H4 & H5). apply bind_ok in H5. destruct H5 as (rel & g5 & H6 & H7).
    apply bind_ok in H7. destruct H7 as (gam' & g6 & H8 & H9). apply ret_inv in H9. destruct H9 as [H9 <-].
    assert (Em := f_equal fst H9). assert (Eg := f_equal snd H9). clear H9. cbn [fst snd] in Em, Eg. subst m gam.
    apply sample_range in H4; [|lra]. apply sample_range in H6; [|lra].
    set (l := last rest p1) in *. set (ps := p0 :: p1 :: rest) in *.
    assert (Hl : nth_error ps (length ps - 1) = Some l).
    { unfold ps. cbn [length nth_error]. replace (S (S (length rest)) - 1)%nat with (S (length rest)) by lia. apply last_nth. }
    assert (Ln : (2 <= length ps)%nat) by (unfold ps; cbn; lia).
    specialize (D p0 p1 eq_refl eq_refl).
    assert (Gl : 0 < lz_gamma l). { rewrite Forall_forall in F. apply F. eapply nth_error_In; exact Hl. }
    assert (K : 1 <= INR (Nat.min (length ps) 10) - 1 <= 9).
    { assert (2 <= Nat.min (length ps) 10 <= 10)%nat as [K1 K2] by lia. apply le_INR in K1, K2.
      change (INR 2) with 2 in K1. replace (INR 10) with 10 in K2 by (cbn; lra). lra. }
    set (rd := z + -0.0374000174907983 / 4 * (INR (Nat.min (length ps) 10) - 1) + 1.0189427890611187) in *.
    assert (Rd : 0.887 <= rd <= 1.06) by (unfold rd; lra). set (d := lz_mu0 p1 - lz_mu0 p0) in *.
    assert (Md : 0.887 * d <= rd * d <= 1.06 * d) by (split; apply Rmult_le_compat_r; lra).
    assert (Gp : gam' <= 0.0022 /\ (0.0018 <= gam' \/ gam' <= 1.5 * lz_gamma l)).
    { destruct (Rltb_spec 0.002 (lz_gamma l * rel)) as [T|T].
      - apply sample_uniform_range in H8. lra.
      - injection H8 as <- <-. split; [lra|]. right. rewrite (Rmult_comm 1.5). apply Rmult_le_compat_l; lra. }
    split. { intros i j x y L Ex Ey. apply snoc_nth in Ey. destruct Ey as [[Lj Ey]|[-> ->]].
      - rewrite nth_error_app1 in Ex by lia. exact (A i j x y L Ex Ey).
      - rewrite nth_error_app1 in Ex by lia. cbn.
        assert (lz_mu0 x <= lz_mu0 l).
        { destruct (Nat.eq_dec i (length ps - 1)) as [->|N]; [rewrite Hl in Ex; injection Ex as <-; lra|].
          exact (A i (length ps - 1)%nat x l ltac:(lia) Ex Hl). }
        lra. }
    split. { intros i q0 q1 x y L E0 E1 Ex Ey. injection E0 as <-. injection E1 as <-.
      apply snoc_nth in Ey. destruct Ey as [[Lj Ey]|[Ej ->]].
      - rewrite nth_error_app1 in Ex by lia. exact (E i p0 p1 x y L eq_refl eq_refl Ex Ey).
      - rewrite nth_error_app1 in Ex by lia. replace i with (length ps - 1)%nat in Ex by lia. rewrite Hl in Ex. injection Ex as <-.
        cbn [lz_mu0 p]. fold d. lra. }
    split. { intros x Ex. injection Ex as <-. apply B. reflexivity. }
    split. { intros x y Ex Ey. injection Ex as <-. injection Ey as <-. exact D. }
    split. { intros i x L Ex. apply snoc_nth in Ex. destruct Ex as [[Lj Ex]|[_ ->]]; [exact (W i x L Ex)|]. cbn. lra. }
    intros i x y Ex Ey L. apply snoc_nth in Ey. destruct Ey as [[Lj Ey]|[Ej ->]].
    + rewrite nth_error_app1 in Ex by lia. exact (Y i x y Ex Ey L).
    + rewrite nth_error_app1 in Ex by lia. replace i with (length ps - 1)%nat in Ex by lia. rewrite Hl in Ex. injection Ex as <-.
      cbn [lz_gamma p]. lra.
Qed.
Lemma add_scan_peaks_inv n h base ps g ps' g' : add_scan_peaks r fuel n h base ps g = (Ok ps', g') ->
  scan_peaks_ok base ps -> length ps' = (length ps + n)%nat /\ scan_peaks_ok base ps'.
Proof.
  revert ps g. induction n as [|n IH]; cbn [add_scan_peaks]; intros ps g H K.
  - injection H as <- <-. split; [lia|exact K].
  - apply bind_ok in H. destruct H as (ps1 & g1 & H1 & H). destruct (add_scan_peak_inv _ _ _ _ _ _ H1 K) as (p & E & K1).
    destruct (IH _ _ H K1) as [L K2]. split; [|exact K2]. rewrite L, E, app_length. cbn. lia.
Qed.
Lemma no_peaks base : scan_peaks_ok base [].
Proof.
  split; [constructor|]. split; [|split; [|split; [|split; [|split]]]].
  - intros i j p q L Ex Ey. bound. lia.
  - intros i p0 p1 p q L E0. discriminate.
  - intros p. discriminate.
  - intros p q. discriminate.
  - intros i p L E. bound. lia.
  - intros i p q E E1. bound. lia.
Qed.

Lemma new_lorentz_err m gam h off e g g' : lift (G := G) (new_lorentz m gam h off) g = (Err e, g') -> e = ValueError /\ gam <= 0.
Proof. unfold lift, new_lorentz, raise_if. destruct (Rleb_spec gam 0); [intros [= <- _]; auto|discriminate]. Qed.
Lemma add_scan_peak_err ps h base g e g' : (forall m s g, fst (r_normal r m s g) <> 0) ->
  add_scan_peak r fuel ps h base g = (Err e, g') -> scan_peaks_ok base ps -> e = OutOfFuel.
Proof.
  intros NZ H (F & _). unfold add_scan_peak in H.
  assert (P : forall m gam g1, (match ps with
    | [] => do gam <- normal_above r fuel 0 (3.6990706645585366e-05 / 2) (9.878642853157584e-05 * 2.5); ret (base, gam)
    | [p] => do dif <- sample r fuel (ANormal (0.00023884164727643042 / 2) (Some (0.002902416771776037 * 2.5))) (0, 0.00367179654343025 * 4);
             do rel <- sample r fuel (ANormal (0.4695086254881995 / 2) (Some 1.25)) (0.85, 1.5);
             ret (lz_mu0 p + dif, lz_gamma p * rel)
    | p0 :: p1 :: rest =>
        do z <- sample r fuel (ANormal (0.09509839063162284 / 2) (Some 0)) (-1 * (0.09509839063162284 / 2), 1 * (0.09509839063162284 / 2));
        do rel <- sample r fuel (ANormal (0.4695086254881995 / 2) (Some 1.25)) (0.85, 1.5);
        do gam' <- (if Rltb 0.002 (lz_gamma (last rest p1) * rel) then sample_uniform r fuel (0.002 * (1 - 0.1), 0.002 * (1 + 0.1)) else ret (lz_gamma (last rest p1) * rel));
        ret (lz_mu0 (last rest p1) + (z + -0.0374000174907983 / 4 * (INR (Nat.min (length ps) 10) - 1) + 1.0189427890611187) * (lz_mu0 p1 - lz_mu0 p0), gam')
    end) g = (Ok (m, gam), g1) -> 0 < gam).
  { intros m gam g1 H1. destruct ps as [|p0 [|p1 rest]].
    - apply bind_ok in H1. destruct H1 as (x & g2 & H2 & H3). injection H3 as _ <- _.
      destruct (normal_above_inv _ _ _ _ _ _ _ H2) as [L (g0 & E)]. specialize (NZ (9.878642853157584e-05 * 2.5) (3.6990706645585366e-05 / 2) g0).
      rewrite <- E in NZ. lra.
    - apply bind_ok in H1. destruct H1 as (x & g2 & H2 & H3). apply bind_ok in H3. destruct H3 as (y & g3 & H4 & H5).
      apply ret_inv in H5. destruct H5 as [H5 _]. apply (f_equal snd) in H5. cbn [snd] in H5. subst gam.
      apply sample_range in H4; [|lra]. inversion F; subst. apply Rmult_lt_0_compat; lra.
    - apply bind_ok in H1. destruct H1 as (x & g2 & H2 & H3). apply bind_ok in H3. destruct H3 as (y & g3 & H4 & H5).
      apply bind_ok in H5. destruct H5 as (z & g4 & H6 & H7).
      apply ret_inv in H7. destruct H7 as [H7 _]. apply (f_equal snd) in H7. cbn [snd] in H7. subst gam.
      apply sample_range in H4; [|lra].
      destruct (Rltb_spec 0.002 (lz_gamma (last rest p1) * y)) as [T|T].
      + apply sample_uniform_range in H6. lra.
      + injection H6 as <- <-. apply Rmult_lt_0_compat; [|lra]. rewrite Forall_forall in F.
        apply (F (last rest p1)). apply nth_error_In with (n := S (length rest)). apply (last_nth rest p1). }
  apply bind_err in H. destruct H as [H|([m gam] & g1 & H1 & H)].
  - destruct ps as [|p0 [|p1 rest]].
    + apply bind_err in H. destruct H as [H|(x & g1 & _ & [=])]. exact (normal_above_err _ _ _ _ _ _ _ H).
    + apply bind_err in H. destruct H as [H|(x & g1 & _ & H)]; [exact (sample_err _ _ _ _ _ H)|].
      apply bind_err in H. destruct H as [H|(y & g2 & _ & [=])]. exact (sample_err _ _ _ _ _ H).
    + apply bind_err in H. destruct H as [H|(x & g1 & _ & H)]; [exact (sample_err _ _ _ _ _ H)|].
      apply bind_err in H. destruct H as [H|(y & g2 & _ & H)]; [exact (sample_err _ _ _ _ _ H)|].
      apply bind_err in H. destruct H as [H|(z & g3 & _ & [=])].
      destruct (Rltb _ _); [|discriminate]. refine (sample_uniform_err _ _ _ _ _ _ H). lra.
  - specialize (P _ _ _ H1). apply bind_err in H. destruct H as [H|(s & g2 & _ & H)]; [exact (normal_above_err _ _ _ _ _ _ _ H)|].
    apply bind_err in H. destruct H as [H|(p & g3 & _ & [=])]. apply new_lorentz_err in H. lra.
Qed.
Lemma add_scan_peaks_err n h base ps g e g' : (forall m s g, fst (r_normal r m s g) <> 0) ->
  add_scan_peaks r fuel n h base ps g = (Err e, g') -> scan_peaks_ok base ps -> e = OutOfFuel.
Proof.
  intros NZ. revert ps g. induction n as [|n IH]; cbn [add_scan_peaks]; intros ps g H K; [discriminate|].
  apply bind_err in H. destruct H as [H|(ps1 & g1 & H1 & H)]; [exact (add_scan_peak_err _ _ _ _ _ _ NZ H K)|].
  destruct (add_scan_peak_inv _ _ _ _ _ _ H1 K) as (p & E & K1). exact (IH _ _ H K1).
Qed.

(** ** Placement of the peaks of a generic sensor *)
Lemma min_list_spec x l d : d < min_list x l <-> d < x /\ forall y, In y l -> d < y.
Proof.
  revert x. induction l as [|y l IH]; intros x; cbn [min_list In].
  - split; [|tauto]. intros H; split; [exact H|tauto].
  - split.
    + intros H. assert (d < x /\ d < min_list y l) as [H1 H2].
      { pose proof (Rmin_l x (min_list y l)). pose proof (Rmin_r x (min_list y l)). lra. }
      split; [exact H1|]. apply IH in H2. intros z [<-|I]; [tauto|]. apply H2. exact I.
    + intros [H1 H2]. apply Rmin_glb_lt; [exact H1|]. apply IH. split; [apply H2; auto|]. intros z I. apply H2. auto.
Qed.
Lemma nearest_away d ps x : ps <> [] -> d < nearest_distance x ps <-> away d ps x.
Proof.
  intros N. unfold nearest_distance, away. destruct ps as [|p ps]; [congruence|]. cbn [map]. rewrite min_list_spec. split.
  - intros [H1 H2] y [<-|I]; [exact H1|]. apply H2. apply in_map_iff. eauto.
  - intros H. split; [apply H; left; reflexivity|]. intros z I. apply in_map_iff in I. destruct I as (y & <- & I).
    apply H. right. exact I.
Qed.
Lemma place_inv tries c lo hi n ps x g y g' : ps <> [] -> lo <= x <= hi ->
  place r tries c lo hi n ps x g = (Ok y, g') -> lo <= y <= hi /\ away ((hi - lo) / (INR n * 2)) ps y.
Proof.
  intros N. revert c x g. induction tries as [|k IH]; intros c x g Hx; cbn [place].
  - destruct (Rleb_spec (nearest_distance x ps) ((hi - lo) / (INR n * 2))) as [T|T].
    + rewrite orb_true_r. discriminate.
    + rewrite orb_false_r. destruct (_ && _); [discriminate|]. intros E. apply ret_inv in E. destruct E as [<- _].
      split; [exact Hx|]. apply nearest_away; [exact N|lra].
  - destruct (Rleb_spec (nearest_distance x ps) ((hi - lo) / (INR n * 2))) as [T|T].
    + rewrite orb_true_r. intros E. apply bind_ok in E. destruct E as (z & g1 & E1 & E). apply uniform_inv in E1. exact (IH _ _ _ E1 E).
    + rewrite orb_false_r. destruct (_ && _).
      * intros E. apply bind_ok in E. destruct E as (z & g1 & E1 & E). apply uniform_inv in E1. exact (IH _ _ _ E1 E).
      * intros E. apply ret_inv in E. destruct E as [<- _]. split; [exact Hx|]. apply nearest_away; [exact N|lra].
Qed.
Lemma place_err tries c lo hi n ps x g e g' : lo <= hi -> place r tries c lo hi n ps x g = (Err e, g') -> e = OutOfFuel.
Proof.
  intros L. revert c x g. induction tries as [|k IH]; intros c x g; cbn [place]; (destruct (_ || _); [|discriminate]).
  - intros [= <- _]. reflexivity.
  - intros E. apply bind_err in E. destruct E as [E|(z & g1 & _ & E)]; [|exact (IH _ _ _ E)]. apply uniform_err in E. lra.
Qed.
(** how many draws a placement takes *)
Lemma place_draws (draws : G -> nat) tries c lo hi n ps x g y g' : ps <> [] ->
  (forall lo hi g, draws (snd (r_uniform r lo hi g)) = S (draws g)) ->
  place r tries c lo hi n ps x g = (Ok y, g') -> away ((hi - lo) / (INR n * 1.5)) ps y \/ (1000 <= c + (draws g' - draws g) /\ draws g <= draws g')%nat.
Proof.
  intros N D. revert c x g y g'. induction tries as [|k IH]; intros c x g y g'; cbn [place];
  destruct (Rleb_spec (nearest_distance x ps) ((hi - lo) / (INR n * 1.5))) as [T|T]; cbn [andb].
  - destruct (Nat.ltb_spec c 1000); [discriminate|]. cbn [orb]. destruct (Rleb _ _); [discriminate|].
    intros E. apply ret_inv in E. destruct E as [<- <-]. right. lia.
  - cbn [orb]. destruct (Rleb _ _); [discriminate|].
    intros E. apply ret_inv in E. destruct E as [<- <-]. left. apply nearest_away; [exact N|lra].
  - assert (St : forall z g1, (do y <- uniform r lo hi; place r k (S c) lo hi n ps y) g = (Ok z, g1) ->
      away ((hi - lo) / (INR n * 1.5)) ps z \/ (1000 <= c + (draws g1 - draws g) /\ draws g <= draws g1)%nat).
    { intros z g1 E. apply bind_ok in E. destruct E as (w & g2 & E1 & E). destruct (IH _ _ _ _ _ E) as [H|H]; [left; exact H|right].
      unfold uniform in E1. destruct (Rltb hi lo); [discriminate|]. destruct (r_uniform r lo hi g) as [v g3] eqn:Er.
      injection E1 as <- <-. specialize (D lo hi g). rewrite Er in D. cbn [snd] in D. lia. }
    destruct (Nat.ltb_spec c 1000); cbn [orb]; [apply St|]. destruct (Rleb _ _); [apply St|].
    intros E. apply ret_inv in E. destruct E as [<- <-]. right. lia.
  - assert (St : forall z g1, (do y <- uniform r lo hi; place r k (S c) lo hi n ps y) g = (Ok z, g1) ->
      away ((hi - lo) / (INR n * 1.5)) ps z \/ (1000 <= c + (draws g1 - draws g) /\ draws g <= draws g1)%nat).
    { intros z g1 E. apply bind_ok in E. destruct E as (w & g2 & E1 & E). destruct (IH _ _ _ _ _ E) as [H|H]; [left; exact H|right].
      unfold uniform in E1. destruct (Rltb hi lo); [discriminate|]. destruct (r_uniform r lo hi g) as [v g3] eqn:Er.
      injection E1 as <- <-. specialize (D lo hi g). rewrite Er in D. cbn [snd] in D. lia. }
    cbn [orb]. destruct (Rleb _ _); [apply St|]. intros E. apply ret_inv in E. destruct E as [<- <-]. left. apply nearest_away; [exact N|lra].
Qed.

(** one more peak *)
Definition generic_peaks_ok (lo hi : R) (n : nat) (ps : list lorentz) : Prop :=
  (ps <> [] -> similar_peaks ps) /\ Forall (fun p => lo <= lz_mu0 p <= hi) ps /\
  apart ((hi - lo) / (INR n * 2)) (map lz_mu0 ps).
Lemma height_range scale g v g1 : sample r fuel (AExponential scale) (0.19204, 0.02245) g = (Ok v, g1) -> 0.02245 <= v <= 0.19204.
Proof.
  intros H. pose proof (sample_inv (AExponential scale) _ g v g1 I H) as Q. unfold within in Q. cbn [fst snd] in Q.
  rewrite Rmin_right, Rmax_left in Q by lra. exact Q.
Qed.
Lemma apart_snoc d xs x : apart d xs -> away d xs x -> apart d (xs ++ [x]).
Proof.
  intros A W i j a b N Ea Eb. apply snoc_nth in Ea, Eb. destruct Ea as [[La Ea]|[-> ->]], Eb as [[Lb Eb]|[-> ->]].
  - exact (A i j a b N Ea Eb).
  - rewrite Rabs_minus_sym. apply W. eapply nth_error_In; exact Ea.
  - apply W. eapply nth_error_In; exact Eb.
  - congruence.
Qed.
Lemma add_generic_peak_inv lo hi scale n ps g ps' g' : add_generic_peak r fuel lo hi scale n ps g = (Ok ps', g') ->
  generic_peaks_ok lo hi n ps -> exists p, ps' = ps ++ [p] /\ generic_peaks_ok lo hi n ps'.
Proof.
  intros H (S & F & A). unfold add_generic_peak in H.
  apply bind_ok in H. destruct H as (gam & g1 & H1 & H). apply uniform_inv in H1.
  apply bind_ok in H. destruct H as (x & g2 & H2 & H). apply uniform_inv in H2.
  apply bind_ok in H. destruct H as (m & g3 & H3 & H). apply bind_ok in H. destruct H as (off & g4 & H4 & H).
  apply bind_ok in H. destruct H as (h & g5 & H5 & H). apply bind_ok in H. destruct H as (p & g6 & H6 & H).
  apply ret_inv in H. destruct H as [<- <-]. apply new_lorentz_inv in H6. destruct H6 as (-> & _ & _).
  eexists. split; [reflexivity|]. destruct ps as [|p0 rest].
  - apply ret_inv in H3. destruct H3 as [<- _]. apply uniform_inv in H4. apply height_range in H5. split; [|split].
    + intros _. cbn [app]. eexists. split; [reflexivity|]. cbn. split; [exact H5|]. split; [exact H4|].
      intros p [<-|[]]. cbn. lra.
    + constructor; [exact H2|constructor].
    + intros i j a b N Ea Eb. cbn [app map] in Ea, Eb. bound. lia.
  - destruct (S ltac:(discriminate)) as (q0 & E0 & Hh & Ho & Hp). injection E0 as <-.
    apply place_inv in H3; [|discriminate|exact H2]. destruct H3 as [Hm Ha]. apply uniform_inv in H4, H5. split; [|split].
    + intros _. exists p0. split; [reflexivity|]. split; [exact Hh|]. split; [exact Ho|].
      intros p I. apply in_app_or in I. destruct I as [I|[<-|[]]]; [exact (Hp p I)|]. cbn. lra.
    + apply Forall_app. split; [exact F|]. constructor; [exact Hm|constructor].
    + rewrite map_app. apply apart_snoc; [exact A|exact Ha].
Qed.
Lemma add_generic_peak_err lo hi scale n ps g e g' : lo <= hi -> add_generic_peak r fuel lo hi scale n ps g = (Err e, g') ->
  generic_peaks_ok lo hi n ps -> e = OutOfFuel.
Proof.
  intros L H (S & F & A). unfold add_generic_peak in H.
  apply bind_err in H. destruct H as [H|(gam & g1 & H1 & H)]; [apply uniform_err in H; lra|]. apply uniform_inv in H1.
  apply bind_err in H. destruct H as [H|(x & g2 & H2 & H)]; [apply uniform_err in H; lra|].
  apply bind_err in H. destruct H as [H|(m & g3 & H3 & H)].
  { destruct ps; [discriminate|]. exact (place_err _ _ _ _ _ _ _ _ _ _ L H). }
  apply bind_err in H. destruct H as [H|(off & g4 & H4 & H)].
  { destruct ps as [|p0 rest]; [apply uniform_err in H; lra|]. destruct (S ltac:(discriminate)) as (q0 & E0 & Hh & Ho & _).
    injection E0 as <-. apply uniform_err in H. lra. }
  apply bind_err in H. destruct H as [H|(h & g5 & H5 & H)].
  { destruct ps as [|p0 rest]; [exact (sample_err _ _ _ _ _ H)|]. destruct (S ltac:(discriminate)) as (q0 & E0 & Hh & Ho & _).
    injection E0 as <-. apply uniform_err in H. lra. }
  apply bind_err in H. destruct H as [H|(p & g6 & H6 & [=])]. apply new_lorentz_err in H. lra.
Qed.
Lemma add_generic_peaks_inv lo hi scale n todo ps g ps' g' : add_generic_peaks r fuel lo hi scale n todo ps g = (Ok ps', g') ->
  generic_peaks_ok lo hi n ps -> length ps' = (length ps + todo)%nat /\ generic_peaks_ok lo hi n ps'.
Proof.
  revert ps g. induction todo as [|k IH]; cbn [add_generic_peaks]; intros ps g H K.
  - apply ret_inv in H. destruct H as [<- _]. split; [lia|exact K].
  - apply bind_ok in H. destruct H as (ps1 & g1 & H1 & H). destruct (add_generic_peak_inv _ _ _ _ _ _ _ _ H1 K) as (p & E & K1).
    destruct (IH _ _ H K1) as [L K2]. split; [|exact K2]. rewrite L, E, app_length. cbn. lia.
Qed.
Lemma add_generic_peaks_err lo hi scale n todo ps g e g' : lo <= hi -> add_generic_peaks r fuel lo hi scale n todo ps g = (Err e, g') ->
  generic_peaks_ok lo hi n ps -> e = OutOfFuel.
Proof.
  intros L. revert ps g. induction todo as [|k IH]; cbn [add_generic_peaks]; intros ps g H K; [discriminate|].
  apply bind_err in H. destruct H as [H|(ps1 & g1 & H1 & H)]; [exact (add_generic_peak_err _ _ _ _ _ _ _ _ L H K)|].
  destruct (add_generic_peak_inv _ _ _ _ _ _ _ _ H1 K) as (p & E & K1). exact (IH _ _ H K1).
Qed.
Lemma no_generic_peaks lo hi n : generic_peaks_ok lo hi n [].
Proof. split; [congruence|]. split; [constructor|]. intros i j a b N Ea. destruct i; discriminate. Qed.

Lemma potential_range_spec gates dots : let e := end_potentials gates dots in
  potential_range gates dots = Ok (Rmin (fst e) (snd e), Rmax (fst e) (snd e)).
Proof.
  intros e. unfold potential_range, generic_potential. cbn [of_list1 len1 length Nat.eqb raise_if bind cell1 nth].
  unfold dot2, volts1, grid. cbn [gs_dot gs_gate gs_offset fst snd INR Nat.sub].
  do 2 f_equal; subst e; unfold end_potentials; cbn [fst snd]; f_equal; field.
Qed.
Lemma end_distance_spec gates dots : let e := end_potentials gates dots in
  end_distance gates dots = Rmax (fst e) (snd e) - Rmin (fst e) (snd e).
Proof.
  intros e. unfold end_distance, width. fold e. unfold Rabs, Rmax, Rmin. destruct (Rle_dec _ _), (Rcase_abs _); lra.
Qed.

Lemma generic_peaks_spec q compensated g gates dots lim ps g' : choice_ok choice -> 0 < q <= 1 ->
  sample_generic_peaks r choice fuel q compensated g = (Ok (gates, dots, lim, ps), g') ->
  consistent_arms q compensated gates dots /\ (3 <= length ps <= 6)%nat /\ similar_peaks ps /\
  Forall (fun p => between_ends gates dots (lz_mu0 p)) ps /\
  apart (end_distance gates dots / (2 * INR (length ps))) (map lz_mu0 ps) /\
  lim = (Rmin (fst (end_potentials gates dots)) (snd (end_potentials gates dots)), Rmax (fst (end_potentials gates dots)) (snd (end_potentials gates dots))).
Proof.
  intros C Q H. unfold sample_generic_peaks in H. apply bind_ok in H. destruct H as ([gt dt] & g1 & H1 & H).
  destruct (lever_arms_spec q compensated g Q) as (gt' & dt' & g1' & E1 & K1). rewrite E1 in H1. injection H1 as -> -> ->.
  rewrite potential_range_spec in H. cbn [lift] in H. apply bind_ok in H. destruct H as ([lo hi] & g2 & H2 & H).
  apply (f_equal fst) in H2 as El. injection El as <- <-. clear H2.
  apply bind_ok in H. destruct H as (n & g3 & H3 & H). apply bind_ok in H. destruct H as (ps' & g4 & H4 & H).
  apply ret_inv in H. destruct H as [H _]. injection H as -> -> <- ->.
  destruct (add_generic_peaks_inv _ _ _ _ _ _ _ _ _ H4 (no_generic_peaks _ _ _)) as [L (K2 & K3 & K4)]. cbn [length Nat.add] in L.
  unfold choose in H3. destruct (choice 3 6 g2)%nat as [n' g5] eqn:Ec. injection H3 as -> ->.
  pose proof (C 3 6 g2 ltac:(lia))%nat as Cn. rewrite Ec in Cn. cbn [fst] in Cn.
  split; [exact K1|]. split; [lia|]. split; [apply K2; intros ->; cbn in L; lia|]. split; [exact K3|]. split; [|reflexivity].
  rewrite end_distance_spec, L, (Rmult_comm 2). exact K4.
Qed.
Lemma generic_peaks_err q compensated g e g' : choice_ok choice -> 0 < q <= 1 ->
  sample_generic_peaks r choice fuel q compensated g = (Err e, g') -> e = OutOfFuel.
Proof.
  intros C Q H. unfold sample_generic_peaks in H.
  destruct (lever_arms_spec q compensated g Q) as (gt' & dt' & g1' & E1 & K1). rewrite (bind_go _ _ _ _ _ E1) in H.
  rewrite potential_range_spec in H. cbn [lift] in H. unfold mbind at 1 in H.
  apply bind_err in H. destruct H as [H|(n & g3 & H3 & H)]. { unfold choose in H. destruct (choice 3 6 g1')%nat; discriminate. }
  apply bind_err in H. destruct H as [H|(ps' & g4 & H4 & [=])].
  refine (add_generic_peaks_err _ _ _ _ _ _ _ _ _ _ H (no_generic_peaks _ _ _)).
  unfold Rmin, Rmax. destruct (Rle_dec _ _); lra.
Qed.

(** a peak after the first one is at the preferred distance unless many draws were rejected *)
Lemma preferred_distance (draws : G -> nat) lo hi scale n ps g ps' p g' : ps <> [] ->
  (forall lo hi g, draws (snd (r_uniform r lo hi g)) = S (draws g)) ->
  add_generic_peak r fuel lo hi scale n ps g = (Ok (ps' ++ [p]), g') ->
  ps' = ps /\ (away ((hi - lo) / (INR n * 1.5)) (map lz_mu0 ps) (lz_mu0 p) \/ (draws g + 1004 <= draws g')%nat).
Proof.
  intros N D H. unfold add_generic_peak in H.
  assert (Ud : forall lo hi g v g1, uniform r lo hi g = (Ok v, g1) -> draws g1 = S (draws g)).
  { intros l h g0 v g1. unfold uniform. destruct (Rltb h l); [discriminate|]. destruct (r_uniform r l h g0) as [w g2] eqn:E.
    intros [= <- <-]. specialize (D l h g0). rewrite E in D. exact D. }
  apply bind_ok in H. destruct H as (gam & g1 & H1 & H). apply Ud in H1.
  apply bind_ok in H. destruct H as (x & g2 & H2 & H). apply Ud in H2.
  apply bind_ok in H. destruct H as (m & g3 & H3 & H). apply bind_ok in H. destruct H as (off & g4 & H4 & H).
  apply bind_ok in H. destruct H as (h & g5 & H5 & H). apply bind_ok in H. destruct H as (p1 & g6 & H6 & H).
  apply ret_inv in H. destruct H as [E <-]. apply app_inj_tail in E. destruct E as [<- <-]. split; [reflexivity|].
  apply new_lorentz_inv in H6. destruct H6 as (-> & _ & ->). cbn [lz_mu0]. destruct ps as [|p0 rest]; [congruence|].
  apply Ud in H4, H5. assert (N' : map lz_mu0 (p0 :: rest) <> []) by (intros E; discriminate E).
  destruct (place_draws draws _ _ _ _ _ _ _ _ _ _ N' D H3) as [K|K]; [left; exact K|right; lia].
Qed.

(** a degenerate range *)
Lemma place_degenerate tries c x n ps y g : ps <> [] -> Forall (eq x) ps -> y = x ->
  fst (place r tries c x x n ps y g) = Err OutOfFuel.
Proof.
  intros N F. revert c y g. induction tries as [|k IH]; intros c y g ->; cbn [place].
  - assert (T : Rleb (nearest_distance x ps) ((x - x) / (INR n * 2)) = true).
    { apply Rleb_true. apply Rnot_lt_le. intros L. apply nearest_away in L; [|exact N].
      destruct ps as [|p ps]; [congruence|]. inversion F; subst. specialize (L p (or_introl eq_refl)).
      unfold Rminus in L. rewrite !Rplus_opp_r, Rabs_R0 in L. unfold Rdiv in L. rewrite Rmult_0_l in L. lra. }
    rewrite T, orb_true_r. reflexivity.
  - assert (T : Rleb (nearest_distance x ps) ((x - x) / (INR n * 2)) = true).
    { apply Rleb_true. apply Rnot_lt_le. intros L. apply nearest_away in L; [|exact N].
      destruct ps as [|p ps]; [congruence|]. inversion F; subst. specialize (L p (or_introl eq_refl)).
      unfold Rminus in L. rewrite !Rplus_opp_r, Rabs_R0 in L. unfold Rdiv in L. rewrite Rmult_0_l in L. lra. }
    rewrite T, orb_true_r. destruct (uniform_go x x g ltac:(lra)) as (v & g1 & E & B). rewrite (bind_go _ _ _ _ _ E).
    apply IH. lra.
Qed.
Lemma peaks_degenerate x scale n todo g : (2 <= todo)%nat ->
  fst (add_generic_peaks r fuel x x scale n todo [] g) = Err OutOfFuel.
Proof.
  intros L. destruct todo as [|[|k]]; [lia|lia|]. cbn [add_generic_peaks]. clear L.
  destruct (add_generic_peak r fuel x x scale n [] g) as [[ps1|e] g1] eqn:E1.
  2:{ unfold mbind at 1. rewrite E1. cbn [fst].
      rewrite (add_generic_peak_err x x scale n _ _ _ _ (Rle_refl x) E1 (no_generic_peaks _ _ _)). reflexivity. }
  rewrite (bind_go _ _ _ _ _ E1). destruct (add_generic_peak_inv _ _ _ _ _ _ _ _ E1 (no_generic_peaks _ _ _)) as (p & -> & K).
  cbn [app] in *.
  assert (E2 : fst (add_generic_peak r fuel x x scale n [p] g1) = Err OutOfFuel).
  { destruct (add_generic_peak r fuel x x scale n [p] g1) as [[ps2|e] g2] eqn:E2.
    - exfalso. unfold add_generic_peak in E2.
      apply bind_ok in E2. destruct E2 as (gam & g3 & H1 & H). apply bind_ok in H. destruct H as (y & g4 & H2 & H).
      apply uniform_inv in H2. apply bind_ok in H. destruct H as (m & g5 & H3 & _).
      pose proof (place_degenerate fuel 0 x n (map lz_mu0 [p]) y g4 ltac:(discriminate)) as Q. rewrite H3 in Q.
      destruct K as (_ & F & _). inversion F; subst. specialize (Q ltac:(constructor; [lra|constructor]) ltac:(lra)). discriminate.
    - rewrite (add_generic_peak_err x x scale n _ _ _ _ (Rle_refl x) E2 K). reflexivity. }
  unfold mbind at 1. destruct (add_generic_peak r fuel x x scale n [p] g1) as [[ps2|e] g2]; cbn [fst] in *; [discriminate|exact E2].
Qed.

(** ** Barriers *)
Lemma barrier_spec off height q pinch full g p b g' : 0 < height * q -> 0 < pinch < 1 -> 0 < full < 1 ->
  sample_simple_barrier r fuel off height q pinch full g = (Ok (p, b), g') ->
  pinch_off b = off /\ get_value b off = pinch * (height * q) /\ get_value b (fully_conductive b) = full * (height * q) /\
  (pinch < full -> off < fully_conductive b) /\ (forall x, 0 < get_value b x < height * q) /\
  (forall x y, x < y -> get_value b x < get_value b y) /\
  20 <= growth_rate p <= 40 /\ (forall x, get_value b x = glf p x).
Proof.
  intros Hh Hp Hf H. unfold sample_simple_barrier in H.
  apply bind_ok in H. destruct H as (gr & g1 & H1 & H). apply sample_uniform_range in H1.
  apply bind_ok in H. destruct H as (asy & g2 & H2 & H). apply sample_uniform_range in H2.
  apply bind_ok in H. destruct H as (sh & g3 & H3 & H). apply sample_uniform_range in H3.
  apply bind_ok in H. destruct H as (b0 & g4 & H4 & H). apply ret_inv in H. destruct H as [H _]. apply pair_equal_spec in H. destruct H as [<- <-].
  set (p o := {| asymptote_left := 0; asymptote_right := height * q; growth_rate := gr; asymmetry := asy;
                 shape_factor := sh; denominator_offset := 1; offset := o |}) in *.
  set (o := off - inverse_glf (p 0) (height * q * pinch)) in *. unfold lift in H4. apply (f_equal fst) in H4. cbn [fst] in H4.
  assert (A : glf_admissible (p o)). { unfold glf_admissible, p. cbn. repeat split; lra. }
  destruct (barrier_exact (p o) pinch full b0 A eq_refl Hp Hf H4) as (P1 & P2 & P3 & P4).
  assert (V : forall x, get_value b0 x = glf (p o) x) by exact P3.
  assert (Po : pinch_off b0 = off).
  { unfold barrier_glf, raise_if in H4. destruct (Rleb _ _); [discriminate|]. injection H4 as <-. cbn [pinch_off].
    unfold glf_percentage. cbn [p asymptote_right asymptote_left]. rewrite Rmin_left by lra. rewrite Rabs_right by lra.
    replace ((height * q - 0) * pinch + 0) with (height * q * pinch) by ring.
    unfold o, inverse_glf. cbn [p growth_rate offset asymptote_left asymptote_right asymmetry denominator_offset shape_factor]. field. lra. }
  destruct (P4 ltac:(cbn; lra) ltac:(cbn; lra)) as (Q1 & Q2 & Q3). rewrite Po in *.
  unfold percentage_reached in P1, P2. cbn [p asymptote_left asymptote_right] in P1, P2. rewrite Rmin_left in P1, P2 by lra.
  rewrite Rabs_right in P1, P2 by lra.
  destruct (glf_growth (p o) A) as (Mono & Bd & _); [cbn; lra|cbn; lra|].
  rewrite (glf_far_asymptote_1 (p o) eq_refl) in Bd. cbn [p asymptote_left asymptote_right] in Bd.
  split; [reflexivity|]. split; [rewrite V; lra|]. split; [rewrite V; lra|]. split; [exact Q3|].
  split; [intros x; rewrite V; apply Bd|]. split; [intros x y L; rewrite !V; apply Mono; exact L|].
  split; [cbn; lra|]. exact V.
Qed.
(** ** A free position *)
Lemma filter_one {A} (f : A -> bool) (l : list A) : NoDup l -> (forall i j, f i = true -> f j = true -> i = j) ->
  (length l <= S (length (filter (fun x => negb (f x)) l)))%nat.
Proof.
  intros N I. induction N as [|x l Hx N IH]; cbn [filter length]; [lia|]. destruct (f x) eqn:E; cbn [negb length]; [|lia].
  assert (K : filter (fun x => negb (f x)) l = l).
  { clear IH N. induction l as [|y l IH]; [reflexivity|]. cbn [filter]. destruct (f y) eqn:F; cbn [negb].
    - exfalso. apply Hx. left. apply I; assumption.
    - f_equal. apply IH. intros Q. apply Hx. right. exact Q. }
  rewrite K. lia.
Qed.
Lemma free_candidate (blocks : R -> nat -> bool) ps (cands : list nat) : NoDup cands -> (length ps < length cands)%nat ->
  (forall y i j, blocks y i = true -> blocks y j = true -> i = j) ->
  exists j, In j cands /\ forall y, In y ps -> blocks y j = false.
Proof.
  intros N L I. revert cands N L. induction ps as [|y ps IH]; intros cands N L; cbn [length] in L.
  - destruct cands as [|j c]; [cbn in L; lia|]. exists j. split; [left; reflexivity|intros y []].
  - destruct (IH (filter (fun x => negb (blocks y x)) cands)) as (j & Hj & B).
    + apply NoDup_filter. exact N.
    + pose proof (filter_one (blocks y) cands N (I y)). lia.
    + apply filter_In in Hj. destruct Hj as [Hj E]. exists j. split; [exact Hj|]. intros z [<-|Hz]; [|apply B; exact Hz].
      apply negb_true_iff in E. exact E.
Qed.
Lemma free_interval lo hi n (ps : list R) : lo < hi -> (2 <= n)%nat -> (length ps < n)%nat ->
  exists a b, lo <= a /\ b <= hi /\ b - a = (hi - lo) / (4 * INR n * (INR n - 1)) /\
    forall x, a <= x <= b -> away ((hi - lo) / (2 * INR n)) ps x.
Proof.
  intros L Hn Hl. assert (Hr : 2 <= INR n) by (replace 2 with (INR 2) by (cbn; ring); apply le_INR; exact Hn).
  set (w := (hi - lo) / (4 * INR n * (INR n - 1))). set (s := (hi - lo) / (INR n - 1)). set (d := (hi - lo) / (2 * INR n)).
  assert (W : 0 < w) by (apply Rdiv_lt_0_compat; nra).
  assert (Es : s = 2 * d + 4 * w) by (unfold s, d, w; field; lra).
  assert (D : 0 < d) by (apply Rdiv_lt_0_compat; nra).
  assert (Et : s * (INR n - 1) = hi - lo) by (unfold s; field; lra).
  set (c := fun j => lo + INR j * s).
  destruct (free_candidate (fun y j => Rleb (Rabs (c j - y)) (d + w)) ps (seq 0 n)) as (j & Hj & B).
  - apply seq_NoDup.
  - rewrite seq_length. exact Hl.
  - assert (Q : forall y i j, (i < j)%nat -> Rabs (c i - y) <= d + w -> Rabs (c j - y) <= d + w -> False).
    { intros y i j Q A B. apply Rabs_le_inv in A, B. unfold c in *.
      assert (INR i + 1 <= INR j) by (rewrite <- S_INR; apply le_INR; lia). nra. }
    intros y i j A B. cbv beta in A, B. destruct (Rleb_spec (Rabs (c i - y)) (d + w)) as [A'|]; [|discriminate].
    destruct (Rleb_spec (Rabs (c j - y)) (d + w)) as [B'|]; [|discriminate]. destruct (Nat.lt_trichotomy i j) as [T|[T|T]]; [|exact T|]; exfalso; eauto.
  - apply in_seq in Hj. assert (B' : forall y, In y ps -> d + w < Rabs (c j - y)).
    { intros y Hy. specialize (B y Hy). cbv beta in B. destruct (Rleb_spec (Rabs (c j - y)) (d + w)); [discriminate|lra]. }
    assert (Hc : lo <= c j <= hi).
    { assert (INR j <= INR n - 1). { replace (INR n - 1) with (INR (n - 1)) by (rewrite minus_INR by lia; cbn; ring). apply le_INR. lia. }
      pose proof (pos_INR j). unfold c. split; [|]; nra. }
    assert (Hw : forall x, Rabs (x - c j) <= w -> away d ps x).
    { intros x Hx y Hy. specialize (B' y Hy). pose proof (Rabs_triang (c j - x) (x - y)) as T.
      replace (c j - x + (x - y)) with (c j - y) in T by ring. rewrite (Rabs_minus_sym (c j) x) in T. lra. }
    destruct j as [|j].
    + exists (c O), (c O + w). assert (c 0%nat = lo) by (unfold c; cbn; ring).
      split; [lra|]. split; [nra|]. split; [ring|]. intros x Hx. apply Hw. apply Rabs_le. lra.
    + exists (c (S j) - w), (c (S j)). assert (lo + s <= c (S j)) by (unfold c; rewrite S_INR; pose proof (pos_INR j); nra).
      split; [lra|]. split; [lra|]. split; [ring|]. intros x Hx. apply Hw. apply Rabs_le. lra.
Qed.
(** the placement ends as soon as the generator hits an admissible position after the 1000th draw *)
Lemma place_live tries c lo hi n ps x g k : lo <= hi -> ps <> [] -> (0 < n)%nat -> (k < tries)%nat -> (999 <= c + k)%nat ->
  away ((hi - lo) / (2 * INR n)) ps (fst (r_uniform r lo hi (after_draws r lo hi k g))) ->
  exists y g', place r tries c lo hi n ps x g = (Ok y, g').
Proof.
  intros L N Hn. revert c x g k. induction tries as [|t IH]; intros c x g k Hk Hc A; [lia|]. cbn [place].
  destruct (_ || _) eqn:E; [|eexists; eexists; reflexivity].
  assert (Eu : uniform r lo hi g = (Ok (fst (r_uniform r lo hi g)), snd (r_uniform r lo hi g))).
  { unfold uniform. rewrite Rltb_false by lra. destruct (r_uniform r lo hi g). reflexivity. }
  rewrite (bind_go _ _ _ _ _ Eu). destruct k as [|k].
  - cbn [after_draws] in A. replace (2 * INR n) with (INR n * 2) in A by ring. apply (nearest_away _ _ _ N) in A.
    destruct t as [|t]; cbn [place]; rewrite (Rleb_false _ _ A), orb_false_r;
      (destruct (Nat.ltb_spec (S c) 1000); [lia|]); rewrite andb_false_r; eexists; eexists; reflexivity.
  - apply (IH (S c) _ _ k); [lia|lia|exact A].
Qed.
Lemma compensated_range q gates dots : 0 < q <= 1 -> consistent_arms q true gates dots -> 0.0005 < end_distance gates dots.
Proof.
  intros Q (A & B & C & D & E & _). rewrite end_distance_spec. unfold end_potentials. cbn [fst snd].
  assert (0 < fst gates + snd gates <= 0.0015) by lra. assert (fst dots + snd dots <= -0.0001591) by lra.
  unfold Rmax, Rmin. repeat destruct (Rle_dec _ _); lra.
Qed.
Lemma degenerate_never q compensated g gates dots g1 : choice_ok choice ->
  sample_lever_arms r q compensated g = (Ok (gates, dots), g1) -> end_distance gates dots = 0 ->
  fst (sample_generic_peaks r choice fuel q compensated g) = Err OutOfFuel.
Proof.
  intros C E D. unfold sample_generic_peaks. rewrite (bind_go _ _ _ _ _ E).
  pose proof (potential_range_spec gates dots) as P. cbv zeta in P. rewrite end_distance_spec in D.
  unfold lift. rewrite P. unfold mbind at 1.
  unfold mbind at 1, choose. destruct (choice 3 6 g1)%nat as [n g2] eqn:En.
  specialize (C 3%nat 6%nat g1 ltac:(lia)). rewrite En in C. cbn [fst] in C.
  unfold mbind at 1. set (lo := Rmin _ _) in *. set (hi := Rmax _ _) in *. replace hi with lo by lra.
  pose proof (peaks_degenerate lo (0.6 * q / ln (1 / (1 - 0.99))) n n g2 ltac:(lia)) as K.
  destruct (add_generic_peaks r fuel lo lo (0.6 * q / ln (1 / (1 - 0.99))) n n [] g2) as [[x|e] g3]; cbn [fst] in *; [discriminate|congruence].
Qed.

(** ** The steepest point *)
Lemma argmax_spec f n : (np_argmax f n <= n)%nat /\ (forall i, (i <= n)%nat -> f i <= f (np_argmax f n)) /\
  (forall i, (i < np_argmax f n)%nat -> f i < f (np_argmax f n)).
Proof.
  induction n as [|k (A & B & C)]; cbn [np_argmax].
  - split; [lia|]. split; [intros i Hi; replace i with O by lia; lra|intros i Hi; lia].
  - set (m := np_argmax f k) in *. destruct (Rltb_spec (f m) (f (S k))) as [T|T].
    + split; [lia|]. split.
      * intros i Hi. destruct (Nat.eq_dec i (S k)) as [->|]; [lra|]. specialize (B i ltac:(lia)). lra.
      * intros i Hi. specialize (B i ltac:(lia)). lra.
    + split; [lia|]. split; [|exact C].
      intros i Hi. destruct (Nat.eq_dec i (S k)) as [->|]; [lra|]. apply B. lia.
Qed.
Lemma gradient_slope f n i : (3 <= n)%nat -> (i < n)%nat -> np_gradient f n i = sample_slope f n i.
Proof.
  intros Hn Hi. unfold np_gradient, sample_slope. destruct (Nat.eqb_spec i 0) as [->|].
  - replace (Nat.min (0 + 1) (n - 1)) with 1%nat by lia. cbn [Nat.sub]. change (INR 1) with 1. field.
  - destruct (Nat.eqb_spec i (n - 1)) as [->|].
    + replace (Nat.min (n - 1 + 1) (n - 1)) with (n - 1)%nat by lia. replace (n - 1 - 1)%nat with (n - 2)%nat by lia.
      replace (n - 1 - (n - 2))%nat with 1%nat by lia. change (INR 1) with 1. field.
    + replace (Nat.min (i + 1) (n - 1)) with (i + 1)%nat by lia. replace (i + 1 - (i - 1))%nat with 2%nat by lia. reflexivity.
Qed.
Lemma steepest_spec ps lo hi : let n := Z.to_nat 1000000 in
  let x := grid (lo - 0.2 * (hi - lo), hi + 0.2 * (hi - lo)) n in
  let slope := sample_slope (fun i => sum_peaks ps (x i)) n in
  exists k, (k < n)%nat /\ steepest_point ps lo hi = x k /\ (forall i, (i < n)%nat -> slope i <= slope k) /\
    forall i, (i < k)%nat -> slope i < slope k.
Proof.
  cbv zeta. unfold steepest_point. assert (Hn : (3 <= Z.to_nat 1000000)%nat) by (apply Nat2Z.inj_le; rewrite Z2Nat.id; lia).
  revert Hn. generalize (Z.to_nat 1000000) as n. intros n Hn. set (x := grid _ _). set (f := fun i => sum_peaks ps (x i)).
  destruct (argmax_spec (np_gradient f n) (n - 1)) as (A & B & C). set (k := np_argmax _ _) in *.
  exists k. split; [lia|]. split; [reflexivity|]. split.
  - intros i Hi. rewrite <- !gradient_slope by lia. apply B. lia.
  - intros i Hi. rewrite <- !gradient_slope by lia. apply C. exact Hi.
Qed.

(** ** The sensor function and the sensor-scan sensor *)
Lemma max_samples_spec f n : (0 < n)%nat ->
  (forall i, (i < n)%nat -> f i <= max_samples f n) /\ exists i, (i < n)%nat /\ max_samples f n = f i.
Proof.
  intros Hn. unfold max_samples. destruct (argmax_spec f (n - 1)) as (A & B & _). split; [intros i Hi; apply B; lia|].
  exists (np_argmax f (n - 1)). split; [lia|reflexivity].
Qed.
Lemma int_part_range x a b : IZR a <= x <= IZR b -> (a <= Int_part x <= b)%Z.
Proof.
  intros [A B]. destruct (base_Int_part x) as [C D]. split.
  - apply Z.lt_succ_r. apply lt_IZR. rewrite succ_IZR. lra.
  - apply le_IZR. lra.
Qed.
Lemma sum_peaks_nonneg ps x : Forall (fun p => 0 < lz_gamma p /\ 0 <= lz_height p /\ lz_offset p = 0) ps ->
  0 <= sum_peaks (map lorentz_peak ps) x.
Proof.
  intros F. unfold sum_peaks. induction F as [|p ps (A & B & C) F IH]; cbn [map Rsum]; [lra|].
  apply Rplus_le_le_0_compat; [|exact IH]. unfold sensor_function, lorentz_peak, sensor_response_lorentz. cbn [peak_fun mu0]. rewrite C.
  apply Rplus_le_le_0_compat; [lra|]. apply Rmult_le_pos; [apply Rmult_le_pos; [exact B|nra]|].
  left. apply Rinv_0_lt_compat. pose proof (pow_lt _ 2 A). pose proof (pow2_ge_0 (x - lz_mu0 p)). lra.
Qed.
Lemma sensor_function_spec off q g ps rise g' : sample_sensor_function r fuel off q g = (Ok (ps, rise), g') ->
  scan_peaks_ok off ps /\ (20 <= length ps <= 30)%nat /\
  (let n := Z.to_nat 500000 in let y i := sum_peaks (map lorentz_peak ps) (grid (-5, 5) n i) in
   (forall i, (i < n)%nat -> 1.05 * y i <= asymptote_right (rise_glf rise)) /\
   exists i, (i < n)%nat /\ asymptote_right (rise_glf rise) = 1.05 * y i) /\
  asymptote_left (rise_glf rise) = 0 /\ 0 <= asymptote_right (rise_glf rise) /\ denominator_offset (rise_glf rise) = 1 /\
  400 <= growth_rate (rise_glf rise) <= 600 /\ 0.01 <= asymmetry (rise_glf rise) <= 1 /\
  0.01 <= shape_factor (rise_glf rise) <= 100 /\ rise_percentage rise = 0.95.
Proof.
  unfold sample_sensor_function. intros H.
  apply bind_ok in H. destruct H as (h & g1 & H1 & H). apply bind_ok in H. destruct H as (x & g2 & H2 & H).
  apply sample_uniform_range in H2. apply bind_ok in H. destruct H as (ps1 & g3 & H3 & H).
  apply bind_ok in H. destruct H as (gr & g4 & H4 & H). apply sample_uniform_range in H4.
  apply bind_ok in H. destruct H as (asy & g5 & H5 & H). apply sample_uniform_range in H5.
  apply bind_ok in H. destruct H as (sh & g6 & H6 & H). apply sample_uniform_range in H6.
  apply ret_inv in H. destruct H as [H _]. apply pair_equal_spec in H. destruct H as [<- <-].
  destruct (add_scan_peaks_inv _ _ _ _ _ _ _ H3 (no_peaks off)) as [L K]. split; [exact K|].
  apply (int_part_range x 20 30) in H2. split; [rewrite L; cbn [length]; lia|].
  cbn [rise_glf asymptote_right asymptote_left growth_rate asymmetry shape_factor denominator_offset rise_percentage].
  assert (Hn : (0 < Z.to_nat 500000)%nat) by (apply Nat2Z.inj_lt; rewrite Z2Nat.id; lia).
  revert Hn. generalize (Z.to_nat 500000) as n. intros n Hn. cbv zeta. set (y := fun i => sum_peaks (map lorentz_peak ps1) (grid (-5, 5) n i)).
  change (fun i => sum_peaks (map lorentz_peak ps1) (grid (-5, 5) n i)) with y.
  destruct (max_samples_spec y n Hn) as (M & i & Hi & Ei).
  split; [split; [intros j Hj; specialize (M j Hj); unfold y in M at 1; lra|exists i; split; [exact Hi|rewrite Ei; unfold y; ring]]|].
  split; [reflexivity|]. split; [|split; [reflexivity|]; split; [lra|]; split; [lra|]; split; [lra|reflexivity]].
  rewrite Ei. unfold y. pose proof (sum_peaks_nonneg ps1 (grid (-5, 5) n i) (proj1 K)). lra.
Qed.
Lemma sensor_function_err off q g e g' : (forall m s g, fst (r_normal r m s g) <> 0) ->
  sample_sensor_function r fuel off q g = (Err e, g') -> e = OutOfFuel.
Proof.
  intros N H. unfold sample_sensor_function in H.
  apply bind_err in H. destruct H as [H|(h & g1 & H1 & H)]; [exact (sample_err _ _ _ _ _ H)|].
  apply bind_err in H. destruct H as [H|(x & g2 & H2 & H)]; [exact (sample_uniform_err 20 30 _ _ _ ltac:(lra) H)|].
  apply bind_err in H. destruct H as [H|(ps & g3 & H3 & H)]; [exact (add_scan_peaks_err _ _ _ _ _ _ _ N H (no_peaks off))|].
  apply bind_err in H. destruct H as [H|(a & g4 & _ & H)]; [exact (sample_uniform_err 400 600 _ _ _ ltac:(lra) H)|].
  apply bind_err in H. destruct H as [H|(b & g5 & _ & H)]; [exact (sample_uniform_err 0.01 1 _ _ _ ltac:(lra) H)|].
  apply bind_err in H. destruct H as [H|(c & g6 & _ & H)]; [exact (sample_uniform_err 0.01 100 _ _ _ ltac:(lra) H)|discriminate].
Qed.
Lemma barrier_err off height q pinch full g e g' :
  sample_simple_barrier r fuel off height q pinch full g = (Err e, g') -> e = OutOfFuel.
Proof.
  unfold sample_simple_barrier. intros H.
  apply bind_err in H. destruct H as [H|(a & g4 & _ & H)]; [exact (sample_uniform_err 20 40 _ _ _ ltac:(lra) H)|].
  apply bind_err in H. destruct H as [H|(b & g5 & Hb & H)]; [exact (sample_uniform_err 0.000001 0.0001 _ _ _ ltac:(lra) H)|].
  apply sample_uniform_range in Hb.
  apply bind_err in H. destruct H as [H|(c & g6 & _ & H)]; [exact (sample_uniform_err 0.01 100 _ _ _ ltac:(lra) H)|].
  apply bind_err in H. destruct H as [H|(d & g7 & _ & H)]; [|discriminate].
  unfold lift, barrier_glf, raise_if in H. cbn [asymmetry] in H. rewrite Rleb_false in H by lra. discriminate.
Qed.
Lemma scan_sensor_spec q compensated g s g' : 0 < q <= 1 -> sample_scan_sensor r fuel q compensated g = (Ok s, g') ->
  let b := sp_base s in
  scan_lever_arms (sp_sensor_gate s) /\ consistent_arms q compensated (sp_gates s) (sp_dots s) /\
  (-0.688 <= fst b <= -0.509 /\ -0.688 <= snd b <= -0.509) /\
  scan_peaks_ok (gate_potential (row0 (sp_sensor_gate s)) b - 0.05) (sp_peaks s) /\ (20 <= length (sp_peaks s) <= 30)%nat /\
  (forall bar row, (bar, row) = (sp_barrier1 s, row1 (sp_sensor_gate s)) \/ (bar, row) = (sp_barrier2 s, row2 (sp_sensor_gate s)) ->
     pinch_off bar = gate_potential row b /\ get_value bar (gate_potential row b) = 0.00025 * q /\
     pinch_off bar < fully_conductive bar /\ get_value bar (fully_conductive bar) = 0.24975 * q /\
     (forall x, 0 < get_value bar x < 0.25 * q) /\ (forall x y, x < y -> get_value bar x < get_value bar y)).
Proof.
  intros Q H. unfold sample_scan_sensor in H.
  apply bind_ok in H. destruct H as (ratio & g1 & H1 & H). apply sample_range in H1; [|lra].
  apply bind_ok in H. destruct H as (u & g2 & H2 & H).
  assert (Z : 0 < ratio). { destruct (Reqb_spec ratio 0) as [E|E]; [discriminate|].
    destruct (Rtotal_order ratio 0) as [T|[T|T]]; [lra|contradiction|exact T]. }
  apply bind_ok in H. destruct H as (c1 & g3 & H3 & H). apply sample_uniform_range in H3.
  apply bind_ok in H. destruct H as (c2 & g4 & H4 & H). apply sample_uniform_range in H4.
  apply bind_ok in H. destruct H as ([gates dots] & g5 & H5 & H).
  apply bind_ok in H. destruct H as (b1 & g6 & H6 & H). apply sample_uniform_range in H6.
  apply bind_ok in H. destruct H as (b2 & g7 & H7 & H). apply sample_uniform_range in H7.
  apply bind_ok in H. destruct H as ([ps rise] & g8 & H8 & H).
  apply bind_ok in H. destruct H as ([p1 bar1] & g9 & H9 & H). apply bind_ok in H. destruct H as ([p2 bar2] & g10 & H10 & H).
  apply ret_inv in H. destruct H as [<- _]. cbn [sp_base sp_sensor_gate sp_gates sp_dots sp_peaks sp_barrier1 sp_barrier2 row0 row1 row2].
  cbv zeta.
  destruct (lever_arms_spec q compensated g4 Q) as (ga & dt & g0 & E & C). rewrite E in H5.
  apply (f_equal fst) in H5. cbn [fst] in H5.
  assert (Eg : (ga, dt) = (gates, dots)) by congruence. apply pair_equal_spec in Eg. destruct Eg as [<- <-].
  destruct (sensor_function_spec _ _ _ _ _ _ H8) as (S1 & S2 & _).
  assert (DG : forall x y, dot2 x y = gate_potential x y) by (intros [? ?] [? ?]; reflexivity).
  assert (M : 1 <= Rmax 1 (1 / ratio)) by apply Rmax_l. assert (I : 0 < 1 / ratio) by (apply Rdiv_lt_0_compat; lra).
  split.
  { unfold scan_lever_arms. cbn [fst snd row0 row1 row2]. set (mx := Rmax 1 (1 / ratio)) in *.
    assert (I1 : 0 < 1 / mx) by (apply Rdiv_lt_0_compat; lra). assert (I2 : 0 < 1 / ratio / mx) by (apply Rdiv_lt_0_compat; lra).
    split; [lra|]. split; [lra|]. split; [|split; [reflexivity|]; split; [lra|]; split; [lra|reflexivity]].
    unfold mx, Rmax at 2 3. destruct (Rle_dec 1 (1 / ratio)) as [T|T].
    - replace (1 / ratio / (1 / ratio)) with 1 by (field; lra). rewrite Rmax_right; [lra|].
      assert (1 / (1 / ratio) <= 1). { replace (1 / (1 / ratio)) with ratio by (field; lra). assert (ratio * (1 / ratio) = 1) by (field; lra). nra. } lra.
    - rewrite Rmax_left; lra. }
  split; [exact C|]. split; [cbn [fst snd]; lra|]. split; [rewrite <- DG; replace 0.05 with (0.005 * 10) by lra; exact S1|]. split; [exact S2|].
  intros bar row K. unfold sample_barrier in H9, H10.
  assert (E9 : sample_simple_barrier r fuel (gate_potential row (b1, b2)) 0.25 q 0.001 0.999 g8 = (Ok (p1, bar), g9) \/
               sample_simple_barrier r fuel (gate_potential row (b1, b2)) 0.25 q 0.001 0.999 g9 = (Ok (p2, bar), g10)).
  { rewrite <- DG. destruct K as [K|K]; apply pair_equal_spec in K; destruct K as [-> ->]; [left; exact H9|right; exact H10]. }
  clear H9 H10 K. destruct E9 as [E9|E9]; (apply barrier_spec in E9; [|lra|lra|lra]);
  destruct E9 as (B1 & B2 & B3 & B4 & B5 & B6 & _); (split; [exact B1|]); (split; [rewrite B2; lra|]);
  (split; [rewrite B1; apply B4; lra|]); (split; [rewrite B3; lra|]); (split; [exact B5|exact B6]).
Qed.
Lemma sample_normal std mean total g v g1 : sample r fuel (ANormal std (Some mean)) total g = (Ok v, g1) ->
  exists g0, v = fst (r_normal r mean std g0).
Proof.
  unfold sample, new_sampler, narrow, sample_parameter. cbn [sm_dist sm_range]. generalize fuel as k. intros k.
  revert g. induction k as [|k IH]; intros g; cbn [draw_until]; [discriminate|]. unfold draw.
  destruct (r_normal r mean std g) as [x g2] eqn:E. destruct (rejected _ _ _).
  { intros H. apply (IH g2). destruct (draw_until r k (DNormal mean std) total g2) as [[x1 g3]|]; [exact H|discriminate]. }
  intros [= <- _]. exists g. rewrite E. reflexivity.
Qed.
Lemma scan_sensor_err q compensated g e g' : 0 < q <= 1 -> (forall m s g, fst (r_normal r m s g) <> 0) ->
  sample_scan_sensor r fuel q compensated g = (Err e, g') -> e = OutOfFuel.
Proof.
  intros Q N H. unfold sample_scan_sensor in H.
  apply bind_err in H. destruct H as [H|(ratio & g1 & H1 & H)]; [exact (sample_err _ _ _ _ _ H)|].
  apply sample_normal in H1. destruct H1 as (g0 & ->). set (ratio := fst _) in *.
  assert (Z : ratio <> 0) by apply N. apply bind_err in H. destruct H as [H|(u & g2 & _ & H)].
  { destruct (Reqb_spec ratio 0); [contradiction|discriminate]. }
  apply bind_err in H. destruct H as [H|(c1 & g3 & _ & H)]; [exact (sample_uniform_err 0.1 0.3 _ _ _ ltac:(lra) H)|].
  apply bind_err in H. destruct H as [H|(c2 & g4 & _ & H)]; [exact (sample_uniform_err 0.1 0.3 _ _ _ ltac:(lra) H)|].
  apply bind_err in H. destruct H as [H|([gates dots] & g5 & _ & H)].
  { destruct (lever_arms_spec q compensated g4 Q) as (ga & dt & g6 & E & _). congruence. }
  apply bind_err in H. destruct H as [H|(b1 & g6 & _ & H)]; [exact (sample_uniform_err (-0.688) (-0.509) _ _ _ ltac:(lra) H)|].
  apply bind_err in H. destruct H as [H|(b2 & g7 & _ & H)]; [exact (sample_uniform_err (-0.688) (-0.509) _ _ _ ltac:(lra) H)|].
  apply bind_err in H. destruct H as [H|([ps rise] & g8 & _ & H)]; [exact (sensor_function_err _ _ _ _ _ N H)|].
  apply bind_err in H. destruct H as [H|([p1 bar1] & g9 & _ & H)]; [exact (barrier_err _ _ _ _ _ _ _ _ H)|].
  apply bind_err in H. destruct H as [H|([p2 bar2] & g10 & _ & H)]; [exact (barrier_err _ _ _ _ _ _ _ _ H)|discriminate].
Qed.
End Config.

(** ** The configuration *)
Section Whole.
Context {G C : Type}.
Variable r : rng G.
Variable choice : nat -> nat -> G -> nat * G.
Variable fuel : nat.
Variable sample_csd : action G C.

Lemma config_range kind q compensated steepest g : ~ 0 < q <= 1 ->
  sample_config r choice fuel sample_csd kind q compensated steepest g = (Err ValueError, g).
Proof.
  intros N. unfold sample_config, mbind at 1. destruct (Rltb_spec 0 q); cbn [andb]; [|reflexivity].
  destruct (Rleb_spec q 1); [|reflexivity]. exfalso. apply N. lra.
Qed.
Lemma config_unknown q compensated steepest g csd g1 : 0 < q <= 1 -> sample_csd g = (Ok csd, g1) ->
  sample_config r choice fuel sample_csd ChooseOther q compensated steepest g = (Err ValueError, g1).
Proof.
  intros Q E. unfold sample_config. rewrite (Rltb_true 0 q), (Rleb_true q 1) by lra. cbn [andb].
  unfold mbind at 1. cbn [ret]. rewrite (bind_go _ _ _ _ _ E). reflexivity.
Qed.
Lemma config_result kind q compensated steepest g csd c g' :
  sample_config r choice fuel sample_csd kind q compensated steepest g = (Ok (csd, c), g') ->
  0 < q <= 1 /\ (exists g1 g2, sample_csd g = (Ok csd, g1) /\
    match sc_sensor c with
    | SampledGeneric s => kind = ChooseGeneric /\ sample_sensor_generic r choice fuel q compensated steepest g1 = (Ok s, g2)
    | SampledScan s => kind = ChooseScan /\ sample_scan_sensor r fuel q compensated g1 = (Ok s, g2)
    end) /\
  sc_limits_g1 c = (-0.2, -0.06) /\ sc_limits_g2 c = (-0.2, -0.06) /\
  sc_limits_sensor_g1 c = (-1, 0) /\ sc_limits_sensor_g2 c = (-1, 0) /\
  sc_occupation c = sample_occupation_distortions 1 /\ sc_potential c = sample_potential_distortions 1 /\
  sc_response c = sample_response_distortions 1.
Proof.
  unfold sample_config. intros H. apply bind_ok in H. destruct H as (u & g1 & H1 & H).
  destruct (Rltb_spec 0 q) as [T|T]; cbn [andb] in H1; [|discriminate]. destruct (Rleb_spec q 1) as [T'|T']; [|discriminate].
  apply ret_inv in H1. destruct H1 as [_ <-]. split; [lra|]. apply bind_ok in H. destruct H as (cs & g2 & H2 & H).
  apply bind_ok in H. destruct H as (s & g3 & H3 & H). apply ret_inv in H. destruct H as [H _].
  apply pair_equal_spec in H. destruct H as [-> <-]. cbn [sc_sensor sc_limits_g1 sc_limits_g2 sc_limits_sensor_g1 sc_limits_sensor_g2 sc_occupation sc_potential sc_response].
  split; [|repeat split; reflexivity]. exists g2. destruct kind; [| |discriminate];
  (apply bind_ok in H3; destruct H3 as (s' & g4 & H3 & H4); apply ret_inv in H4; destruct H4 as [<- _]; exists g4; auto).
Qed.
End Whole.
Lemma potential_multiplier q : sample_potential_distortions q = sample_potential_distortions 1 -> q = 1.
Proof. unfold sample_potential_distortions. intros H. assert (E : 1 / 6 * q = 1 / 6 * 1) by congruence. lra. Qed.
Lemma response_multiplier q : sample_response_distortions q = sample_response_distortions 1 -> q = 1.
Proof. unfold sample_response_distortions. intros H. assert (E : 0.01 * q = 0.01 * 1) by congruence. lra. Qed.

(** ** Strictly sorted peaks *)
Lemma scan_peaks_sorted base ps : scan_peaks_ok base ps -> (2 <= length ps)%nat ->
  sorted_peaks (map lorentz_peak ps) <-> (forall p q, nth_error ps 0 = Some p -> nth_error ps 1 = Some q -> lz_mu0 p <> lz_mu0 q).
Proof.
  intros (_ & A & E & _ & _) L. split.
  - intros S p q Hp Hq. specialize (S 0%nat 1%nat (lorentz_peak p) (lorentz_peak q) ltac:(lia)).
    rewrite !nth_error_map, Hp, Hq in S. specialize (S eq_refl eq_refl). cbn in S. lra.
  - intros N. destruct ps as [|p0 [|p1 ps]]; [cbn in L; lia|cbn in L; lia|]. set (l := p0 :: p1 :: ps) in *.
    assert (D : lz_mu0 p0 < lz_mu0 p1).
    { specialize (N p0 p1 eq_refl eq_refl). specialize (A 0%nat 1%nat p0 p1 ltac:(lia) eq_refl eq_refl). lra. }
    assert (Step : forall i p q, nth_error l i = Some p -> nth_error l (S i) = Some q -> lz_mu0 p < lz_mu0 q).
    { intros [|i] p q Hp Hq; [cbn in Hp, Hq; congruence|].
      destruct (E (S i) p0 p1 p q ltac:(lia) eq_refl eq_refl Hp Hq) as [K _]. lra. }
    intros i j p q Hij Hp Hq. rewrite nth_error_map in Hp, Hq.
    destruct (nth_error l i) as [a|] eqn:Ea; [|discriminate]. destruct (nth_error l j) as [b|] eqn:Eb; [|discriminate].
    cbn in Hp, Hq. injection Hp as <-. injection Hq as <-. cbn [lorentz_peak mu0].
    clear N. revert b Eb. induction Hij as [|j Hj IH]; intros b Eb.
    + exact (Step _ _ _ Ea Eb).
    + destruct (nth_error l j) as [c|] eqn:Ec.
      * specialize (IH c eq_refl). specialize (Step _ _ _ Ec Eb). lra.
      * apply nth_error_None in Ec. assert (S j < length l)%nat by (apply nth_error_Some; congruence). lia.
Qed.

(** ** The generic sensor *)
Lemma sensor_generic_inv {G} (r : rng G) choice fuel q compensated steepest g s g' :
  sample_sensor_generic r choice fuel q compensated steepest g = (Ok s, g') ->
  exists gates dots lo hi ps, sample_generic_peaks r choice fuel q compensated g = (Ok (gates, dots, (lo, hi), ps), g') /\
    gs_peaks s = Some (map lorentz_peak ps) /\ gs_gate s = gates /\ gs_dot s = dots /\
    gs_offset s = if steepest then steepest_point (map lorentz_peak ps) lo hi else 0.
Proof.
  unfold sample_sensor_generic. intros H. apply bind_ok in H. destruct H as ([[[gates dots] [lo hi]] ps] & g1 & H1 & H).
  apply ret_inv in H. destruct H as [<- <-]. exists gates, dots, lo, hi, ps. split; [exact H1|]. repeat split; reflexivity.
Qed.
Lemma sensor_generic_spec {G} (r : rng G) choice fuel q compensated steepest g s g' : uniform_ok r -> choice_ok choice -> 0 < q <= 1 ->
  sample_sensor_generic r choice fuel q compensated steepest g = (Ok s, g') ->
  exists ps, gs_peaks s = Some (map lorentz_peak ps) /\ consistent_arms q compensated (gs_gate s) (gs_dot s) /\
    (3 <= length ps <= 6)%nat /\ similar_peaks ps /\ Forall (fun p => between_ends (gs_gate s) (gs_dot s) (lz_mu0 p)) ps /\
    apart (end_distance (gs_gate s) (gs_dot s) / (2 * INR (length ps))) (map lz_mu0 ps) /\
    (steepest = false -> gs_offset s = 0).
Proof.
  intros U C Q H. apply sensor_generic_inv in H. destruct H as (gates & dots & lo & hi & ps & E & P1 & -> & -> & P4).
  destruct (generic_peaks_spec r choice fuel U _ _ _ _ _ _ _ _ C Q E) as (A1 & A2 & A3 & A4 & A5 & _).
  exists ps. split; [exact P1|]. split; [exact A1|]. split; [exact A2|]. split; [exact A3|]. split; [exact A4|]. split; [exact A5|].
  intros ->. exact P4.
Qed.
Lemma sensor_generic_err {G} (r : rng G) choice fuel q compensated steepest g e g' : uniform_ok r -> choice_ok choice -> 0 < q <= 1 ->
  sample_sensor_generic r choice fuel q compensated steepest g = (Err e, g') -> e = OutOfFuel.
Proof.
  intros U C Q H. unfold sample_sensor_generic in H. apply bind_err in H.
  destruct H as [H|([[[gates dots] [lo hi]] ps] & g1 & _ & H)]; [|discriminate]. exact (generic_peaks_err r choice fuel U _ _ _ _ _ C Q H).
Qed.
Lemma sensor_steepest_spec {G} (r : rng G) choice fuel q compensated g s g' : uniform_ok r -> choice_ok choice -> 0 < q <= 1 ->
  sample_sensor_generic r choice fuel q compensated true g = (Ok s, g') ->
  exists ps, gs_peaks s = Some ps /\
  let e := end_potentials (gs_gate s) (gs_dot s) in let m := 0.2 * end_distance (gs_gate s) (gs_dot s) in
  let n := Z.to_nat 1000000 in
  let x := grid (Rmin (fst e) (snd e) - m, Rmax (fst e) (snd e) + m) n in
  let slope := sample_slope (fun i => sum_peaks ps (x i)) n in
  exists k, (k < n)%nat /\ gs_offset s = x k /\ (forall i, (i < n)%nat -> slope i <= slope k) /\
    forall i, (i < k)%nat -> slope i < slope k.
Proof.
  intros U C Q H. apply sensor_generic_inv in H. destruct H as (gates & dots & lo & hi & ps & E & P1 & -> & -> & P4).
  destruct (generic_peaks_spec r choice fuel U _ _ _ _ _ _ _ _ C Q E) as (_ & _ & _ & _ & _ & L).
  apply pair_equal_spec in L. destruct L as [-> ->]. exists (map lorentz_peak ps). split; [exact P1|].
  cbv zeta. pose proof (steepest_spec (map lorentz_peak ps) (Rmin (fst (end_potentials gates dots)) (snd (end_potentials gates dots)))
     (Rmax (fst (end_potentials gates dots)) (snd (end_potentials gates dots)))) as S. cbv zeta in S.
  rewrite end_distance_spec. rewrite P4. exact S.
Qed.
Lemma no_preferred x : 0 <= x <= 1 -> ~ away ((1 - 0) / (INR 4 * 1.5)) [1 / 6; 1 / 2; 5 / 6] x.
Proof.
  intros X A. replace ((1 - 0) / (INR 4 * 1.5)) with (1 / 6) in A by (change (INR 4) with (2 + 1 + 1); lra).
  pose proof (A (1 / 6) ltac:(cbn [In]; tauto)) as A1. pose proof (A (1 / 2) ltac:(cbn [In]; tauto)) as A2. pose proof (A (5 / 6) ltac:(cbn [In]; tauto)) as A3.
  unfold Rabs in *. repeat destruct (Rcase_abs _); lra.
Qed.
Lemma thirds_apart : apart ((1 - 0) / (INR 4 * 2)) [1 / 6; 1 / 2; 5 / 6].
Proof.
  replace ((1 - 0) / (INR 4 * 2)) with (1 / 8) by (change (INR 4) with (2 + 1 + 1); lra).
  intros i j x y N Hx Hy. destruct i as [|[|[|i]]]; destruct j as [|[|[|j]]]; cbn in Hx, Hy; try congruence;
    try (destruct i; discriminate); try (destruct j; discriminate); injection Hx as <-; injection Hy as <-;
    unfold Rabs; destruct (Rcase_abs _); lra.
Qed.
