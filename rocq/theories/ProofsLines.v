(** Lines along one gate: the outcome of blurring and jumps along both gates for every draw. *)
From Verif Require Import RPrelude Arr ModelSupport ModelTct ModelCsd ModelJumps ModelDistortions ModelSampling ModelSensor ModelSimulation ModelInstance
  ModelNoise ModelConfig ModelConfigCsd ModelScanInstance ModelDefault ModelDefaultNoise ModelScanNoise ModelSampledSim
  SpecSupport SpecTct SpecCsd SpecSensor SpecSampling SpecConfig SpecConfigCsd SpecSimulation SpecDistortions SpecInstance SpecNoise SpecDefaultNoise SpecScanInstance SpecScanNoise SpecSampledSim
  ProofsJumps ProofsDistortions ProofsCsd ProofsOcc ProofsRegions ProofsDriver ProofsScan ProofsSimulation ProofsInstance ProofsScanSensor ProofsSensorMore ProofsNoise ProofsReplay ProofsSuccess ProofsDefault ProofsDefaultNoise
  ProofsScanInstance ProofsScanCsd ProofsScanNoise ProofsScanNoise2 ProofsScanNoise3 ProofsScanNoise4 ProofsConfig ProofsOrder ProofsCover ProofsConfigCsd ProofsSampledSim ProofsSampledSim2.
Local Open Scope R_scope.

Section Loop.
Context {G : Type}.
Variable src : sources G.
Hypothesis Sok : sources_ok src.
Variables u1 u2 d : R.
Variable gen : generator (noise_world G) lead_mask.
Hypothesis Gen : forall w l1 l2 sh, fine u1 u2 d l1 l2 sh -> served gen w l1 l2 sh.
Variables (kb k0 k1 : nat) (sigma : param G) (kernel : R -> Z -> R) (radius : R -> nat).
Variables (ratio0 ratio1 : R) (scale0 lam0 scale1 lam1 : param G).
Hypothesis Keys : k0 <> k1.
Notation blur := (Blur kb sigma kernel radius).
Notation jump0 := (Jumps k0 0 ratio0 scale0 lam0).
Notation jump1 := (Jumps k1 1 ratio1 scale1 lam1).
Notation first g := (src_binomial src ratio0 (snd (sigma g))).

Lemma line_loop w v1 l2 n ol : fine u1 u2 d (v1, v1) l2 (Shape1 n) -> fits ol (Shape1 n) ->
  exists g, (fst (first (w_rng w)) = false -> g = snd (first (w_rng w))) /\
    if fst (src_binomial src ratio1 g)
    then exists w', occupation_loop (map (occ_object src) [blur; jump0; jump1]) gen (v1, v1) l2 ol w = (Err ValueError, w')
    else exists ol' w', occupation_loop (map (occ_object src) [blur; jump0; jump1]) gen (v1, v1) l2 ol w = (Ok ol', w') /\ fits ol' (Shape1 n).
Proof.
  intros F Ft. assert (D2 : fst l2 <> snd l2). { destruct F as (_ & _ & _ & _ & _ & [D|D]); [cbn [fst snd] in D; congruence|exact D]. }
  cbn [map occupation_loop]. destruct (blur_fine _ _ _ _ _ _ F) as [q Q].
  destruct (blur_success src kb sigma kernel radius ol (Shape1 n) (v1, v1) l2 gen false w q Ft Q ltac:(discriminate)) as (ol1 & sg & g1 & E1 & Ft1 & _ & G1). specialize (G1 eq_refl).
  unfold mbind at 1 4. rewrite E1. set (w1 := mk_noise_world _ _ _).
  assert (W1 : w_sigma w1 kb <> None). { unfold w1. cbn [w_sigma]. rewrite set_own. discriminate. }
  destruct (jumps_success src Sok k0 0 ratio0 scale0 lam0 ol1 (Shape1 n) (v1, v1) l2 (with_noise gen (occ_object src blur)) false w1 (or_introl eq_refl) Ft1) as (ol2 & st2 & g2 & E2 & Ft2 & _ & N2).
  { intros _ _. apply jump_fine0, D2. } { discriminate. }
  { intros noise st g _ _. eapply Forall_impl; [|exact (calls_fine u1 u2 d 0 noise (Shape1 n) (v1, v1) l2 F)]. intros c (sh' & Ec & Fc & _). exists sh'. split; [exact Ec|].
    eapply blur_served; eauto. }
  exists g2. split.
  { intros J. assert (J' : fst (src_binomial src ratio0 (w_rng w1)) = false) by (unfold w1; cbn [w_rng]; rewrite G1; exact J).
    destruct (jumps_inactive src k0 0 ratio0 scale0 lam0 ol1 (Shape1 n) (v1, v1) l2 (with_noise gen (occ_object src blur)) w1 Ft1 J') as (w2 & E2' & _ & G2).
    rewrite E2 in E2'. apply (f_equal (fun z => w_rng (snd z))) in E2'. cbn [snd w_rng] in E2'. rewrite E2', G2. unfold w1. cbn [w_rng]. rewrite G1. reflexivity. }
  unfold mbind at 1 3. cbn [fst snd]. rewrite E2. set (w2 := mk_noise_world _ _ _). destruct (fst (src_binomial src ratio1 g2)) eqn:J1.
  - eexists. unfold mbind at 1. erewrite jumps_fail; [reflexivity|exact Ft2|exact J1|]. cbn [jump_px_per_volt Z.eqb Pos.eqb]. apply zero_range. reflexivity.
  - destruct (jumps_inactive src k1 1 ratio1 scale1 lam1 ol2 (Shape1 n) (v1, v1) l2 (with_noise (with_noise gen (occ_object src blur)) (occ_object src jump0)) w2 Ft2 J1) as (w3 & E3 & _ & _).
    unfold mbind at 1. cbn [fst snd]. rewrite E3. exists ol2. eexists. split; [reflexivity|exact Ft2].
Qed.
Lemma line_loop1 w l1 v2 n ol : fine u1 u2 d l1 (v2, v2) (Shape1 n) -> fits ol (Shape1 n) ->
  if fst (first (w_rng w))
  then exists w', occupation_loop (map (occ_object src) [blur; jump0; jump1]) gen l1 (v2, v2) ol w = (Err ValueError, w')
  else exists ol' w', occupation_loop (map (occ_object src) [blur; jump0; jump1]) gen l1 (v2, v2) ol w = (Ok ol', w') /\ fits ol' (Shape1 n).
Proof.
  intros F Ft. assert (D1 : fst l1 <> snd l1). { destruct F as (_ & _ & _ & _ & _ & [D|D]); [exact D|cbn [fst snd] in D; congruence]. }
  destruct (fst (first (w_rng w))) eqn:J.
  - cbn [map occupation_loop]. destruct (blur_fine _ _ _ _ _ _ F) as [q Q].
    destruct (blur_success src kb sigma kernel radius ol (Shape1 n) l1 (v2, v2) gen false w q Ft Q ltac:(discriminate)) as (ol1 & sg & g1 & E1 & Ft1 & _ & G1). specialize (G1 eq_refl).
    eexists. unfold mbind at 1. rewrite E1. unfold mbind at 1. cbn [fst snd]. erewrite jumps_fail; [reflexivity|exact Ft1| |].
    + cbn [w_rng]. rewrite G1. exact J.
    + cbn [jump_px_per_volt Z.eqb]. apply zero_range. reflexivity.
  - apply (triple_success src Sok u1 u2 d gen Gen kb k0 k1 sigma kernel radius ratio0 ratio1 scale0 lam0 scale1 lam1 Keys w l1 (v2, v2) (Shape1 n) ol F); [congruence|contradiction|exact Ft].
Qed.
End Loop.

(** ** The default configurations *)
Section Default.
Context {G : Type}.
Variable src : sources G.
Hypothesis Sok : sources_ok src.
Variable label : arr2 nat -> arr2 nat.
Hypothesis Lab : forall m, is_labelling m (label m).
Variables (kernel : R -> Z -> R) (radius : R -> nat) (pink white : param G).
Hypothesis Wht : white_range white.
Notation loop := (occupation_loop (map (occ_object src) (default_occupation kernel radius)) (get_csd_data label default_csd)).

Lemma default_line v1 a2 b2 res n w d : sweep_within (Some limits_g1) v1 v1 -> sweep_within (Some limits_g2) a2 b2 -> a2 <> b2 ->
  res_list res = [Z.of_nat n] -> (7 <= n)%nat -> ideal_of label default_csd v1 v1 a2 b2 res = Ok d ->
  exists g, (fst (src_binomial src 0.01 (w_rng w)) = false -> g = snd (src_binomial src 0.01 (w_rng w))) /\
    if fst (src_binomial src (0.01 / 6) g) then exists w', loop (v1, v1) (a2, b2) (csd_arrays d) w = (Err ValueError, w')
    else exists ol w', loop (v1, v1) (a2, b2) (csd_arrays d) w = (Ok ol, w') /\ fits ol (Shape1 n).
Proof.
  intros S1 S2 D2 Hr Hn Ed. destruct (sweep_fine _ _ _ _ S1 S2) as (A1 & B1 & A2 & B2 & P1 & P2).
  apply (line_loop src Sok (snd limits_g1) (snd limits_g2) 0.004 (get_csd_data label default_csd) (default_served label Lab) 0 1 2 (given (0.75 * 0.03 / 100)) kernel radius
    0.01 (0.01 / 6) (given (100 * 0.03 / 100)) (given (6 * 0.03 / 100)) (given (100 * 0.03 / 100)) (given (6 * 0.03 / 100)) w v1 (a2, b2) n (csd_arrays d)).
  - unfold fine. cbn [fst snd]. repeat split; auto; lia.
  - exact (ideal_fits label Lab _ _ _ _ _ _ (Shape1 n) Ed Hr).
Qed.
Lemma default_line1 a1 b1 v2 res n w d : sweep_within (Some limits_g1) a1 b1 -> sweep_within (Some limits_g2) v2 v2 -> a1 <> b1 ->
  res_list res = [Z.of_nat n] -> (7 <= n)%nat -> ideal_of label default_csd a1 b1 v2 v2 res = Ok d ->
  if fst (src_binomial src 0.01 (w_rng w)) then exists w', loop (a1, b1) (v2, v2) (csd_arrays d) w = (Err ValueError, w')
  else exists ol w', loop (a1, b1) (v2, v2) (csd_arrays d) w = (Ok ol, w') /\ fits ol (Shape1 n).
Proof.
  intros S1 S2 D2 Hr Hn Ed. destruct (sweep_fine _ _ _ _ S1 S2) as (A1 & B1 & A2 & B2 & P1 & P2).
  apply (line_loop1 src Sok (snd limits_g1) (snd limits_g2) 0.004 (get_csd_data label default_csd) (default_served label Lab) 0 1 2 (given (0.75 * 0.03 / 100)) kernel radius
    0.01 (0.01 / 6) (given (100 * 0.03 / 100)) (given (6 * 0.03 / 100)) (given (100 * 0.03 / 100)) (given (6 * 0.03 / 100)) ltac:(discriminate) w (a1, b1) v2 n (csd_arrays d)).
  - unfold fine. cbn [fst snd]. repeat split; auto; lia.
  - exact (ideal_fits label Lab _ _ _ _ _ _ (Shape1 n) Ed Hr).
Qed.

(** GaAs_v1 along gate 2 *)
Lemma second_gate v1 a2 b2 res n w : res_list res = [Z.of_nat n] -> (7 <= n)%nat -> a2 <> b2 ->
  sweep_within (Some limits_g1) v1 v1 -> sweep_within (Some limits_g2) a2 b2 ->
  let r := measure (default_noisy src label kernel radius pink white) [v1; v1] [a2; b2] None None res w in
  exists g, (fst (src_binomial src 0.01 (w_rng w)) = false -> g = snd (src_binomial src 0.01 (w_rng w))) /\
    if fst (src_binomial src (0.01 / 6) g) then raised r ValueError else returned r (Shape1 n).
Proof.
  intros Hr Hn D2 S1 S2 r. destruct (default_1d label Lab v1 v1 a2 b2 res n Hr) as [d Ed].
  destruct (default_line v1 a2 b2 res n w d S1 S2 D2 Hr Hn Ed) as (g & G1 & O). exists g. split; [exact G1|].
  destruct (fst (src_binomial src (0.01 / 6) g)).
  - destruct O as [w' O]. exists w'. eapply noisy_fails; eauto. exact (request_1d _ _ _ _ _ _ Hr).
  - destruct O as (ol & w' & O & Ft). destruct (rtn_1d (v1, v1) (a2, b2) n) as (k & Hk & Hb); auto.
    { destruct (sweep_fine _ _ _ _ S1 S2) as (_ & _ & _ & _ & P1 & _). exact P1. }
    { destruct (sweep_fine _ _ _ _ S1 S2) as (_ & _ & _ & _ & _ & P2). exact P2. }
    destruct (default_draws src white pink (Shape1 n) (v1, v1) (a2, b2) k (white_positive white Wht) Hk Hb) as [Dp Dr].
    eapply noisy_ok; eauto; [reflexivity|discriminate|exact (request_1d _ _ _ _ _ _ Hr)|cbn [shape_size]; lia].
Qed.

(** GaAs_v2_extended_sensor *)
Variable s : scan_sensor.
Hypothesis Made : default_sensor_v2 = Ok s.
Notation cfg := (default_noisy_v2 src label kernel radius pink white s).
Lemma v2_outcome a1 b1 a2 b2 u1 u2 res n (w : scan_world G) d r0 n1 : sweep_within (Some limits_g1) a1 b1 -> sweep_within (Some limits_g2) a2 b2 -> a1 <> b1 \/ a2 <> b2 ->
  sensor_within u1 -> sensor_within u2 -> res_list res = [Z.of_nat n] -> (7 <= n)%nat -> ideal_of label default_csd a1 b1 a2 b2 res = Ok d ->
  loop (a1, b1) (a2, b2) (csd_arrays d) (fst w) = (r0, n1) -> (forall ol, r0 = Ok ol -> fits ol (Shape1 n)) ->
  let m := measure cfg [a1; b1] [a2; b2] (Some u1) (Some u2) res w in
  match r0 with Err e => raised m e | Ok _ => returned_csd m (Shape1 n) end.
Proof.
  intros S1 S2 D U1 U2 Hr Hn Ed Eo Ft m. destruct (sweep_fine _ _ _ _ S1 S2) as (_ & _ & _ & _ & P1 & P2).
  pose proof (noisy_csd_outcome src Sok label (Some limits_g1) (Some limits_g2) (Some limits_sensor) (Some limits_sensor) default_csd s (default_occupation kernel radius)
    (default_potential pink) [White white] a1 b1 a2 b2 (Some u1) (Some u2) res w d r0 n1 (Shape1 n) (or_introl (proj1 (default_v2_parts s Made))) (request_1d _ _ _ _ _ _ Hr) S1 S2 U1 U2) as O.
  cbv zeta in O. specialize (O ltac:(split; discriminate) Ed Eo Ft ltac:(cbn [shape_size]; lia)). destruct r0 as [ol|e]; [|exact O].
  destruct (rtn_1d (a1, b1) (a2, b2) n D P1 P2 Hn) as (k & Hk & Hb).
  destruct (v2_draws src pink (Shape1 n) (a1, b1) (a2, b2) k Hk ltac:(lra) (w_rng n1)) as (z0 & z1 & z2 & g & D3). rewrite D3 in O.
  destruct (v2_response src white (white_positive white Wht) (Shape1 n) (a1, b1) (a2, b2) g) as (z & g' & D'). rewrite D' in O. exact O.
Qed.
Lemma v2_first a1 b1 v2 u1 u2 res n (w : scan_world G) : sweep_within (Some limits_g1) a1 b1 -> sweep_within (Some limits_g2) v2 v2 -> a1 <> b1 ->
  sensor_within u1 -> sensor_within u2 -> res_list res = [Z.of_nat n] -> (7 <= n)%nat ->
  let m := measure cfg [a1; b1] [v2; v2] (Some u1) (Some u2) res w in
  if fst (src_binomial src 0.01 (w_rng (fst w))) then raised m ValueError else returned_csd m (Shape1 n).
Proof.
  intros S1 S2 D U1 U2 Hr Hn m. destruct (default_1d label Lab a1 b1 v2 v2 res n Hr) as [d Ed].
  pose proof (default_line1 a1 b1 v2 res n (fst w) d S1 S2 D Hr Hn Ed) as O. destruct (fst (src_binomial src 0.01 (w_rng (fst w)))).
  - destruct O as [w' O]. exact (v2_outcome a1 b1 v2 v2 u1 u2 res n w d _ w' S1 S2 (or_introl D) U1 U2 Hr Hn Ed O ltac:(discriminate)).
  - destruct O as (ol & w' & O & Ft). exact (v2_outcome a1 b1 v2 v2 u1 u2 res n w d _ w' S1 S2 (or_introl D) U1 U2 Hr Hn Ed O ltac:(intros ? [= <-]; exact Ft)).
Qed.
Lemma v2_second v1 a2 b2 u1 u2 res n (w : scan_world G) : sweep_within (Some limits_g1) v1 v1 -> sweep_within (Some limits_g2) a2 b2 -> a2 <> b2 ->
  sensor_within u1 -> sensor_within u2 -> res_list res = [Z.of_nat n] -> (7 <= n)%nat ->
  let m := measure cfg [v1; v1] [a2; b2] (Some u1) (Some u2) res w in
  exists g, (fst (src_binomial src 0.01 (w_rng (fst w))) = false -> g = snd (src_binomial src 0.01 (w_rng (fst w)))) /\
    if fst (src_binomial src (0.01 / 6) g) then raised m ValueError else returned_csd m (Shape1 n).
Proof.
  intros S1 S2 D U1 U2 Hr Hn m. destruct (default_1d label Lab v1 v1 a2 b2 res n Hr) as [d Ed].
  destruct (default_line v1 a2 b2 res n (fst w) d S1 S2 D Hr Hn Ed) as (g & G1 & O). exists g. split; [exact G1|].
  destruct (fst (src_binomial src (0.01 / 6) g)).
  - destruct O as [w' O]. exact (v2_outcome v1 v1 a2 b2 u1 u2 res n w d _ w' S1 S2 (or_intror D) U1 U2 Hr Hn Ed O ltac:(discriminate)).
  - destruct O as (ol & w' & O & Ft). exact (v2_outcome v1 v1 a2 b2 u1 u2 res n w d _ w' S1 S2 (or_intror D) U1 U2 Hr Hn Ed O ltac:(intros ? [= <-]; exact Ft)).
Qed.
End Default.

(** ** Sampled configurations *)
Section Sampled.
Context {G H : Type}.
Variable src : sources G.
Hypothesis Sok : sources_ok src.
Variable label : arr2 nat -> arr2 nat.
Hypothesis Lab : forall m, is_labelling m (label m).
Variables (r : rng H) (choice : nat -> nat -> H -> nat * H).
Hypothesis Uok : uniform_ok r.
Hypothesis Cok : choice_ok choice.
Variable draw : sampler_args -> R * R -> param G.
Hypothesis Dok : drawn_within draw.
Variables (kernel : R -> Z -> R) (radius : R -> nat) (x : geometric) (c : sampled_config).
Hypothesis Smp : sampled r choice label x c.
Notation after g := (src_binomial src 0.01 (after_blur draw g)).

Lemma sampled_line v1 a2 b2 res n w d : fine (-0.06) (-0.06) 0.0119 (v1, v1) (a2, b2) (Shape1 n) -> requested res (Shape1 n) -> ideal_of label x v1 v1 a2 b2 res = Ok d ->
  exists g, (jumps_g2 src draw (w_rng w) = false -> g = snd (after (w_rng w))) /\
    let loop := occupation_loop (map (occ_object src) (sampled_occs draw kernel radius)) (get_csd_data label x) (v1, v1) (a2, b2) (csd_arrays d) w in
    if fst (src_binomial src (0.01 / 6) g) then exists w', loop = (Err ValueError, w')
    else exists ol w', loop = (Ok ol, w') /\ fits ol (Shape1 n).
Proof.
  intros F Hr Ed. destruct (sampled_fields label r choice Uok Cok draw kernel radius x c Smp) as ((fuel & g & g1 & Es) & _).
  exact (line_loop src Sok (-0.06) (-0.06) 0.0119 (get_csd_data label x) (fun w l1 l2 sh => sampled_served r fuel Uok label Lab g x g1 w l1 l2 sh Es) 0 1 2
    (draw (ANormal ((2 * 0.03 / 100 - 0.25 * 0.03 / 100) / 6) None) (0.25 * 0.03 / 100, 2 * 0.03 / 100)) kernel radius
    0.01 (0.01 / 6) (given (100 * 0.03 / 100)) (given (6 * 0.03 / 100)) (given (100 * 0.03 / 100)) (given (6 * 0.03 / 100)) w v1 (a2, b2) n (csd_arrays d) F
    (sampled_fits r fuel Uok label Lab g x g1 _ _ _ _ _ _ _ Es Ed Hr)).
Qed.
Lemma generic_second s v1 a2 b2 u1 u2 res n w : sc_sensor c = SampledGeneric s ->
  res_list res = [Z.of_nat n] -> (7 <= n)%nat -> a2 <> b2 -> in_range (v1, a2) -> in_range (v1, b2) -> sensor_volt u1 -> sensor_volt u2 ->
  let m := measure (sampled_generic src label draw kernel radius x c s) [v1; v1] [a2; b2] (Some u1) (Some u2) res w in
  exists g, (jumps_g2 src draw (w_rng w) = false -> g = snd (after (w_rng w))) /\
    if fst (src_binomial src (0.01 / 6) g) then raised m ValueError else returned m (Shape1 n).
Proof.
  intros Hs Hr Hn D Ha Hb U1 U2 m. assert (Fr : fits_request v1 v1 a2 b2 res (Shape1 n)) by (repeat split; auto).
  destruct (request_facts label Lab r choice Uok Cok draw kernel radius x c Smp _ _ _ _ _ _ Ha Hb Fr) as (Wf & Rq & F & (d & Ed) & K).
  destruct (sampled_line v1 a2 b2 res n w d F Rq Ed) as (g & G1 & O). exists g. split; [exact G1|].
  pose proof (fun r0 X => proj1 (both_outcomes src Sok label r choice Uok Cok draw Dok kernel radius x c Smp v1 v1 a2 b2 u1 u2 res (Shape1 n) d r0 Wf Ha Hb U1 U2 Ed F K X) s w Hs) as B.
  cbv zeta in O. destruct (fst (src_binomial src (0.01 / 6) g)).
  - exact (B (Err ValueError) ltac:(discriminate) O).
  - destruct O as (ol & w' & O & Ft). exact (B (Ok ol) ltac:(intros ? [= <-]; exact Ft) (ex_intro _ w' O)).
Qed.
Lemma scan_second s v1 a2 b2 u1 u2 res n w : ss_deform s = [] ->
  res_list res = [Z.of_nat n] -> (7 <= n)%nat -> a2 <> b2 -> in_range (v1, a2) -> in_range (v1, b2) -> sensor_volt u1 -> sensor_volt u2 ->
  let m := measure (sampled_scan src label draw kernel radius x c s) [v1; v1] [a2; b2] (Some u1) (Some u2) res w in
  exists g, (jumps_g2 src draw (w_rng (fst w)) = false -> g = snd (after (w_rng (fst w)))) /\
    if fst (src_binomial src (0.01 / 6) g) then raised m ValueError else returned_csd m (Shape1 n).
Proof.
  intros Hs Hr Hn D Ha Hb U1 U2 m. assert (Fr : fits_request v1 v1 a2 b2 res (Shape1 n)) by (repeat split; auto).
  destruct (request_facts label Lab r choice Uok Cok draw kernel radius x c Smp _ _ _ _ _ _ Ha Hb Fr) as (Wf & Rq & F & (d & Ed) & K).
  destruct (sampled_line v1 a2 b2 res n (fst w) d F Rq Ed) as (g & G1 & O). exists g. split; [exact G1|].
  pose proof (fun r0 X => proj2 (both_outcomes src Sok label r choice Uok Cok draw Dok kernel radius x c Smp v1 v1 a2 b2 u1 u2 res (Shape1 n) d r0 Wf Ha Hb U1 U2 Ed F K X) s w Hs) as B.
  cbv zeta in O. destruct (fst (src_binomial src (0.01 / 6) g)).
  - exact (B (Err ValueError) ltac:(discriminate) O).
  - destruct O as (ol & w' & O & Ft). exact (B (Ok ol) ltac:(intros ? [= <-]; exact Ft) (ex_intro _ w' O)).
Qed.
End Sampled.
