(** Proofs about a simulation with a SensorScanSensorGeneric object and distortions. *)
From Coq Require Import FunctionalExtensionality.
From Verif Require Import RPrelude Arr ModelSupport ModelTct ModelCsd ModelJumps ModelDistortions ModelSensor ModelSimulation ModelInstance
  ModelNoise ModelScanInstance ModelDefault ModelDefaultNoise ModelScanNoise SpecSupport SpecTct SpecCsd SpecSensor SpecSimulation SpecDistortions SpecInstance SpecNoise
  SpecScanInstance SpecScanNoise ProofsDistortions ProofsSimulation ProofsScanSensor ProofsSensorMore ProofsNoise ProofsScanInstance ProofsScanCsd.
Local Open Scope R_scope.

Section Lift.
Context {G : Type}.
Variable src : sources G.
Notation world := (scan_world G).
Definition set_rng (w : world) (g : G) : world := (mk_noise_world (w_sigma (fst w)) (w_jump (fst w)) g, snd w).

(** ** Occupation distortions *)
Definition lifts (gen : generator world lead_mask) (gen' : generator (noise_world G) lead_mask) : Prop :=
  forall l1 l2 res, gen l1 l2 res = on_noise (gen' l1 l2 res).
Lemma lifted_part gen gen' st : lifts gen gen' -> noise_part gen st = gen'.
Proof.
  intros H. unfold noise_part. do 4 (apply functional_extensionality; intro). rewrite H. unfold on_noise. cbn [fst snd].
  destruct (gen' _ _ _ _). reflexivity.
Qed.
Lemma lifted_noise gen gen' d : lifts gen gen' -> lifts (with_noise gen (scan_occ_object src d)) (with_noise gen' (occ_object src d)).
Proof.
  intros H l1 l2 res. apply functional_extensionality. intros [n st]. unfold with_noise, mbind. rewrite H. unfold on_noise at 1 2. cbn [fst snd].
  destruct (gen' l1 l2 res n) as [[ol|e] n1]; [|reflexivity]. cbn [scan_occ_object od_noise]. unfold on_noise. cbn [fst snd]. rewrite (lifted_part gen gen' st H).
  destruct (od_noise _ _ _ _ _ _ _ _) as [[r|e] n2]; reflexivity.
Qed.
Lemma lifted_loop ds : forall gen gen' l1 l2 ol, lifts gen gen' ->
  occupation_loop (map (scan_occ_object src) ds) gen l1 l2 ol = on_noise (occupation_loop (map (occ_object src) ds) gen' l1 l2 ol).
Proof.
  induction ds as [|d ds IH]; intros gen gen' l1 l2 ol H; apply functional_extensionality; intros [n st]; cbn [map occupation_loop]; [reflexivity|].
  unfold mbind. cbn [scan_occ_object od_noise]. unfold on_noise at 1 2. cbn [fst snd]. rewrite (lifted_part gen gen' st H).
  destruct (od_noise _ _ _ _ _ _ _ _) as [[r|e] n2]; [|reflexivity].
  rewrite (IH _ (with_noise gen' (occ_object src d))); [reflexivity|]. apply (lifted_noise gen gen' d H).
Qed.
Lemma csd_lifts label x : lifts (get_csd_data label x) (get_csd_data label x).
Proof. intros l1 l2 res. apply functional_extensionality. intros [n st]. reflexivity. Qed.

(** ** Images *)
Hypothesis Sok : sources_ok src.
Lemma object_spec d im l1 l2 (w : world) :
  match drawn src d (image_shape im) l1 l2 (w_rng (fst w)) with
  | Ok (z, g') => length z = shape_size (image_shape im) /\
      exists im', scan_image_object src d im l1 l2 w = (Ok im', set_rng w g') /\ image_shape im' = image_shape im /\ pixels im' = plus_pixels (pixels im) z
  | Err e => scan_image_object src d im l1 l2 w = (Err e, w)
  end.
Proof.
  pose proof (drawn_spec src Sok d im l1 l2 (w_rng (fst w))) as H. unfold scan_image_object, on_noise.
  destruct (drawn src d (image_shape im) l1 l2 (w_rng (fst w))) as [[z g']|e].
  - destruct H as (L & im' & -> & Sh & P). split; [exact L|]. exists im'. split; [reflexivity|]. auto.
  - rewrite H. destruct w; reflexivity.
Qed.
Lemma image_loop_spec l1 l2 ds : forall im (w : world),
  match drawn_all src ds (image_shape im) l1 l2 (w_rng (fst w)) with
  | Ok (z, g') => length z = shape_size (image_shape im) /\
      exists im', image_loop (map (scan_image_object src) ds) l1 l2 im w = (Ok im', set_rng w g') /\ image_shape im' = image_shape im /\
        pixels im' = plus_pixels (pixels im) z
  | Err e => fst (image_loop (map (scan_image_object src) ds) l1 l2 im w) = Err e
  end.
Proof.
  induction ds as [|d ds IH]; intros im w; cbn [drawn_all map image_loop].
  - split; [apply repeat_length|]. exists im. split; [destruct w as [[? ? ?] ?]; reflexivity|]. split; [reflexivity|]. symmetry. apply plus_zero. symmetry. apply length_pixels.
  - pose proof (object_spec d im l1 l2 w) as H. destruct (drawn src d (image_shape im) l1 l2 (w_rng (fst w))) as [[z g1]|e]; cbn [bind fst snd].
    + destruct H as (L & im1 & E1 & Sh1 & P1). unfold mbind. rewrite E1. specialize (IH im1 (set_rng w g1)). rewrite Sh1 in IH. cbn [set_rng fst w_rng] in IH.
      destruct (drawn_all src ds (image_shape im) l1 l2 g1) as [[z' g2]|e]; cbn [bind fst snd].
      * destruct IH as (L' & im2 & E2 & Sh2 & P2). split; [rewrite length_plus_pixels; congruence|]. exists im2. split; [exact E2|]. split; [exact Sh2|].
        rewrite P2, P1. apply plus_pixels_assoc.
      * exact IH.
    + unfold mbind. rewrite H. reflexivity.
Qed.
(** the three potentials *)
Definition drawn3 (d : image_noise G) (sh : shape) (l1 l2 : limits) (g : G) : result (list R * list R * list R * G) :=
  let? a := drawn src d sh l1 l2 g in let? b := drawn src d sh l1 l2 (snd a) in let? c := drawn src d sh l1 l2 (snd b) in
  Ok (fst a, fst b, fst c, snd c).
Fixpoint drawn3_all (ds : list (image_noise G)) (sh : shape) (l1 l2 : limits) (g : G) : result (list R * list R * list R * G) :=
  match ds with
  | [] => let z := repeat 0 (shape_size sh) in Ok (z, z, z, g)
  | d :: t =>
      let? r := drawn3 d sh l1 l2 g in
      let '(a, b, c, g1) := r in
      let? r' := drawn3_all t sh l1 l2 g1 in
      let '(a', b', c', g2) := r' in
      Ok (plus_pixels a a', plus_pixels b b', plus_pixels c c', g2)
  end.
Definition three_noisy (sh : shape) (a b c : image) (z0 z1 z2 : list R) (a' b' c' : image) : Prop :=
  (length z0 = shape_size sh /\ length z1 = shape_size sh /\ length z2 = shape_size sh) /\
  (image_shape a' = sh /\ image_shape b' = sh /\ image_shape c' = sh) /\
  pixels a' = plus_pixels (pixels a) z0 /\ pixels b' = plus_pixels (pixels b) z1 /\ pixels c' = plus_pixels (pixels c) z2.
Lemma each_spec d l1 l2 sh a b c (w : world) : image_shape a = sh -> image_shape b = sh -> image_shape c = sh ->
  match drawn3 d sh l1 l2 (w_rng (fst w)) with
  | Ok (z0, z1, z2, g') => exists a' b' c', each_image (scan_image_object src d) l1 l2 [a; b; c] w = (Ok [a'; b'; c'], set_rng w g') /\
      three_noisy sh a b c z0 z1 z2 a' b' c'
  | Err e => fst (each_image (scan_image_object src d) l1 l2 [a; b; c] w) = Err e
  end.
Proof.
  intros Sa Sb Sc. unfold drawn3, each_image, mbind.
  pose proof (object_spec d a l1 l2 w) as Ha. rewrite Sa in Ha. destruct (drawn src d sh l1 l2 (w_rng (fst w))) as [[z0 g0]|e]; cbn [bind fst snd]; [|rewrite Ha; reflexivity].
  destruct Ha as (La & a' & -> & Sa' & Pa).
  pose proof (object_spec d b l1 l2 (set_rng w g0)) as Hb. rewrite Sb in Hb. cbn [set_rng fst w_rng] in Hb. destruct (drawn src d sh l1 l2 g0) as [[z1 g1]|e]; cbn [bind fst snd]; [|rewrite Hb; reflexivity].
  destruct Hb as (Lb & b' & -> & Sb' & Pb).
  pose proof (object_spec d c l1 l2 (set_rng (set_rng w g0) g1)) as Hc. rewrite Sc in Hc. cbn [set_rng fst w_rng] in Hc.
  destruct (drawn src d sh l1 l2 g1) as [[z2 g2]|e]; cbn [bind fst snd]; [|rewrite Hc; reflexivity].
  destruct Hc as (Lc & c' & -> & Sc' & Pc). unfold ret. exists a', b', c'. split; [reflexivity|]. unfold three_noisy. repeat split; auto; congruence.
Qed.
Lemma images_loop_spec l1 l2 sh ds : forall a b c (w : world), image_shape a = sh -> image_shape b = sh -> image_shape c = sh ->
  match drawn3_all ds sh l1 l2 (w_rng (fst w)) with
  | Ok (z0, z1, z2, g') => exists a' b' c', images_loop (map (scan_image_object src) ds) l1 l2 [a; b; c] w = (Ok [a'; b'; c'], set_rng w g') /\
      three_noisy sh a b c z0 z1 z2 a' b' c'
  | Err e => fst (images_loop (map (scan_image_object src) ds) l1 l2 [a; b; c] w) = Err e
  end.
Proof.
  induction ds as [|d ds IH]; intros a b c w Sa Sb Sc; cbn [drawn3_all map images_loop].
  - exists a, b, c. split; [destruct w as [[? ? ?] ?]; reflexivity|]. unfold three_noisy. rewrite repeat_length. repeat (split; [auto; fail|]).
    repeat split; auto; symmetry; apply plus_zero; rewrite length_pixels; congruence.
  - pose proof (each_spec d l1 l2 sh a b c w Sa Sb Sc) as H. destruct (drawn3 d sh l1 l2 (w_rng (fst w))) as [[[[z0 z1] z2] g1]|e]; cbn [bind].
    + destruct H as (a1 & b1 & c1 & E & (L0 & L1 & L2) & (S0 & S1 & S2) & P0 & P1 & P2). unfold mbind. rewrite E.
      specialize (IH a1 b1 c1 (set_rng w g1) S0 S1 S2). cbn [set_rng fst w_rng] in IH.
      destruct (drawn3_all ds sh l1 l2 g1) as [[[[y0 y1] y2] g2]|e]; cbn [bind]; [|exact IH].
      destruct IH as (a' & b' & c' & E' & (K0 & K1 & K2) & Sh & Q0 & Q1 & Q2). exists a', b', c'. split; [exact E'|]. unfold three_noisy.
      split; [rewrite !length_plus_pixels by congruence; auto|]. split; [exact Sh|]. rewrite Q0, Q1, Q2, P0, P1, P2, !plus_pixels_assoc. auto.
    + unfold mbind. destruct (each_image _ _ _ _ _) as [[r|e'] w']; cbn [fst] in H; [discriminate|]. exact H.
Qed.

(** ** The potentials with their noise *)
Definition pot_shape (p : potentials) : shape := match p with Pot1 a => Shape1 (len1 a) | Pot2 a => Shape2 (rows a) (cols a) end.
Definition plus3 (q : three) (x y z : R) : three := mk_three (at_sensor q + x) (at_barrier1 q + y) (at_barrier2 q + z).
Definition noisy_pot (p : potentials) (z0 z1 z2 : list R) (p' : potentials) : Prop :=
  pot_shape p' = pot_shape p /\
  forall i j, (i < nrows p)%nat -> (j < ncols p)%nat -> let k := (i * ncols p + j)%nat in
    pcell p' i j = plus3 (pcell p i j) (nth k z0 0) (nth k z1 0) (nth k z2 0).
Lemma image_eq1 im n : image_shape im = Shape1 n -> exists a, im = Img1 a /\ len1 a = n.
Proof. destruct im; intros E; cbn in E; [injection E as E; eauto|discriminate]. Qed.
Lemma image_eq2 im r c : image_shape im = Shape2 r c -> exists a, im = Img2 a /\ rows a = r /\ cols a = c.
Proof. destruct im; intros E; cbn in E; [discriminate|injection E as E1 E2; eauto]. Qed.
Lemma split_shape p : exists a b c, split_potentials p = [a; b; c] /\ image_shape a = pot_shape p /\ image_shape b = pot_shape p /\ image_shape c = pot_shape p.
Proof. destruct p; cbn [split_potentials]; do 3 eexists; (split; [reflexivity|]); cbn; auto. Qed.
Lemma join_noisy p a b c z0 z1 z2 a' b' c' : split_potentials p = [a; b; c] -> three_noisy (pot_shape p) a b c z0 z1 z2 a' b' c' ->
  exists p', join_potentials [a'; b'; c'] = Ok p' /\ noisy_pot p z0 z1 z2 p'.
Proof.
  intros E ((L0 & L1 & L2) & (S0 & S1 & S2) & P0 & P1 & P2). destruct p as [q|q]; cbn [split_potentials pot_shape] in *.
  - injection E as <- <- <-. destruct (image_eq1 _ _ S0) as (x & -> & X), (image_eq1 _ _ S1) as (y & -> & Y), (image_eq1 _ _ S2) as (z & -> & Z).
    cbn [join_potentials]. rewrite X, Y, Z, !Nat.eqb_refl. cbn [andb negb]. unfold raise_if. eexists. split; [reflexivity|].
    split; [reflexivity|]. cbn [nrows ncols pcell cell1]. intros i j Hi Hj. replace i with 0%nat by lia. cbn [Nat.mul Nat.add].
    rewrite <- (nth_pixels1 x j), <- (nth_pixels1 y j), <- (nth_pixels1 z j) by lia. rewrite P0, P1, P2.
    cbn [shape_size] in *. rewrite !nth_plus_pixels by (rewrite length_pixels; cbn; congruence). rewrite !nth_pixels1 by exact Hj. reflexivity.
  - injection E as <- <- <-. destruct (image_eq2 _ _ _ S0) as (x & -> & X & X'), (image_eq2 _ _ _ S1) as (y & -> & Y & Y'), (image_eq2 _ _ _ S2) as (z & -> & Z & Z').
    cbn [join_potentials]. rewrite X, X', Y, Y', Z, Z', !Nat.eqb_refl. cbn [andb negb]. unfold raise_if. eexists. split; [reflexivity|].
    split; [reflexivity|]. cbn [nrows ncols pcell cell]. intros i j Hi Hj.
    rewrite <- (nth_pixels2 x i j), <- (nth_pixels2 y i j), <- (nth_pixels2 z i j) by lia. rewrite P0, P1, P2, X', Y', Z'.
    cbn [shape_size] in *. rewrite !nth_plus_pixels by (rewrite length_pixels; cbn; congruence).
    pose proof (nth_pixels2 (amap2 at_sensor q) i j Hi Hj) as A0. pose proof (nth_pixels2 (amap2 at_barrier1 q) i j Hi Hj) as A1.
    pose proof (nth_pixels2 (amap2 at_barrier2 q) i j Hi Hj) as A2. cbn [amap2 cols cell] in A0, A1, A2. unfold plus3.
    f_equal; f_equal; assumption.
Qed.
Lemma distort_spec l1 l2 ds occ p (w : world) : occ <> OccOther ->
  match drawn3_all ds (pot_shape p) l1 l2 (w_rng (fst w)) with
  | Ok (z0, z1, z2, g') => exists P p', distort_potential (Some (map (scan_image_object src) ds)) l1 l2 occ (PotMany (split_potentials p)) w = (Ok P, set_rng w g') /\
      joined P = Ok p' /\ noisy_pot p z0 z1 z2 p' /\ length z0 = shape_size (pot_shape p) /\ length z1 = shape_size (pot_shape p) /\ length z2 = shape_size (pot_shape p)
  | Err e => fst (distort_potential (Some (map (scan_image_object src) ds)) l1 l2 occ (PotMany (split_potentials p)) w) = Err e
  end.
Proof.
  intros No. destruct (split_shape p) as (a & b & c & E & Sa & Sb & Sc).
  assert (K : forall P, distort_potential (Some (map (scan_image_object src) ds)) l1 l2 occ (PotMany P) w = 
     (do ys <- images_loop (map (scan_image_object src) ds) l1 l2 P; ret (PotMany ys)) w) by (intros P; destruct occ; [reflexivity|reflexivity|contradiction]).
  rewrite K, E. pose proof (images_loop_spec l1 l2 (pot_shape p) ds a b c w Sa Sb Sc) as H.
  destruct (drawn3_all ds (pot_shape p) l1 l2 (w_rng (fst w))) as [[[[z0 z1] z2] g']|e].
  - destruct H as (a' & b' & c' & E' & T). destruct (join_noisy p a b c z0 z1 z2 a' b' c' E T) as (p' & J & N).
    exists (PotMany [a'; b'; c']), p'. unfold mbind. rewrite E'. split; [reflexivity|]. split; [exact J|]. split; [exact N|]. exact (proj1 T).
  - unfold mbind. destruct (images_loop _ _ _ _ _) as [[r|e'] w']; cbn [fst] in H; [discriminate|]. injection H as ->. reflexivity.
Qed.

(** The response of noisy potentials *)
Lemma noisy_nonempty p z0 z1 z2 p' : noisy_pot p z0 z1 z2 p' -> pot_nonempty p -> pot_nonempty p'.
Proof.
  intros [S _]. destruct p, p'; cbn in S; try discriminate; injection S as S; cbn; [rewrite S; auto|]. intros. lia.
Qed.
Lemma noisy_dims p z0 z1 z2 p' : noisy_pot p z0 z1 z2 p' -> nrows p' = nrows p /\ ncols p' = ncols p.
Proof. intros [S _]. destruct p, p'; cbn in S; try discriminate; injection S as S; cbn; auto. Qed.
Lemma response_value s off p z0 z1 z2 p' im im' zr k i j : noisy_pot p z0 z1 z2 p' ->
  combined s (fun i j => dot_value s off (at_sensor (pcell p' i j))) p' im ->
  image_shape im' = image_shape im -> length zr = shape_size (image_shape im) -> pixels im' = plus_pixels (pixels im) zr ->
  (i < nrows p)%nat -> (j < ncols p)%nat -> k = (i * ncols p + j)%nat ->
  image_shape im' = pot_shape p /\ noisy_value s off (pcell p i j) (nth k z0 0) (nth k z1 0) (nth k z2 0) (nth k zr 0) (nth k (pixels im') 0).
Proof.
  intros Np C Si Lr P Hi Hj Hk. destruct (noisy_dims _ _ _ _ _ Np) as [D1 D2]. destruct Np as [Sp Np]. destruct C as [Sh C].
  assert (Si' : image_shape im = pot_shape p).
  { rewrite <- Sp. destruct im as [x|x], p' as [y|y]; cbn in Sh |- *; try contradiction; [congruence|]. destruct Sh. congruence. }
  split; [congruence|]. rewrite P, nth_plus_pixels by (rewrite length_pixels; congruence).
  exists (nth k (pixels im) 0). split; [|reflexivity].
  specialize (C i j (nth k (pixels im) 0) (pcell p' i j)). rewrite (Np i j Hi Hj) in C. cbv zeta in C. rewrite <- Hk in C. cbn [plus3 at_sensor at_barrier1 at_barrier2] in C.
  apply C.
  - destruct im as [x|x], p as [y|y]; cbn in Si'; try discriminate; cbn [nrows ncols] in *.
    + injection Si' as Si'. cbn. split; [lia|]. split; [lia|]. subst k. replace i with 0%nat by lia. apply nth_pixels1. lia.
    + injection Si' as Si1 Si2. cbn. split; [lia|]. split; [lia|]. subst k. rewrite <- Si2. apply nth_pixels2; lia.
  - apply pot_pix_spec. split; [lia|]. split; [lia|]. rewrite (Np i j Hi Hj). subst k. reflexivity.
Qed.
End Lift.
