(** When scans of stacked total charge transitions succeed. *)
From Verif Require Import RPrelude Arr ModelSupport ModelTct ModelCsd SpecTct SpecCsd SpecOrder
  ProofsTct ProofsRegions ProofsMask ProofsDriver ProofsFine ProofsScan ProofsOrder.
Local Open Scope R_scope.

Lemma sqrt2_bounds : 1.41421 < sqrt 2 < 1.41422.
Proof.
  pose proof (sqrt_lt_R0 2 ltac:(lra)) as P. pose proof (sqrt_sqrt 2 ltac:(lra)) as E.
  split; [destruct (Rle_lt_dec (sqrt 2) 1.41421)|destruct (Rle_lt_dec 1.41422 (sqrt 2))]; auto; nra.
Qed.
Lemma rotate_quarter v : rotate_point (- (PI / 4)) v = ((fst v + snd v) / sqrt 2, (snd v - fst v) / sqrt 2).
Proof.
  unfold rotate_point. rewrite cos_neg, sin_neg, cos_PI4, sin_PI4. pose proof sqrt2_bounds. f_equal; field; lra.
Qed.

Lemma stacked_distinct L eps lut delta params n u l : 0 < delta -> Forall (bounded_tct L eps lut) params -> stacked delta params ->
  (1 <= n)%nat -> interdot_line params n u l -> u <> l.
Proof.
  intros Hd HB HS Hn (pu & cu & po & E1 & C1 & Eu & E2 & C2) E. subst l.
  destruct (HS n po pu Hn E2 E1) as (_ & (d0 & (cp & cq & Cp & Cq & ->) & [R1 R2]) & _).
  rewrite Forall_forall in HB.
  pose proof (proj1 (proj2 (HB po (nth_error_In _ _ E2)))) as P1. pose proof (proj1 (proj2 (HB pu (nth_error_In _ _ E1)))) as P2.
  rewrite (corner_unique po u P1 C2 cp Cp) in R1. rewrite (corner_unique pu cu P2 C1 cq Cq) in R1.
  unfold peak_point in R1. cbn [fst snd] in R1. change (INR 0) with 0 in R1. rewrite Eu in R1. cbn [fst snd] in R1.
  lra.
Qed.
Lemma stacked_config label L eps lut delta params kind gf : 0 < delta -> Forall (bounded_tct L eps lut) params -> stacked delta params ->
  (1 <= length params < 256)%nat -> kind <> UnknownCdf -> (forall m, is_labelling m (label m)) -> gamma_of kind gf <> 0 ->
  csd_config label params lut kind gf.
Proof.
  intros Hd HB HS Hl K Lab Gm. split; [eapply bounded_proper; eauto|]. split; [auto|]. split; [auto|]. split; [auto|]. split; [auto|].
  intros n u l Hn I. eapply stacked_distinct; eauto.
Qed.

(** ** when a 2D scan succeeds *)
Lemma sorted_order l : fst (np_sort l) <= snd (np_sort l).
Proof. destruct (Rle_lt_dec (fst l) (snd l)); [rewrite np_sort_asc by auto; auto|rewrite np_sort_desc by auto; simpl; lra]. Qed.
Lemma scan_covered label params a1 b1 a2 b2 nx ny rot lut kind gf :
  csd_config label params lut kind gf -> a1 <> b1 -> a2 <> b2 -> (2 <= nx)%nat -> (2 <= ny)%nat ->
  let xl := np_sort (a1, b1) in let yl := np_sort (a2, b2) in
  (forall a, ~ drawn params lut rot xl yl nx ny a (length params)) ->
  (forall v, fst xl <= fst v <= snd xl -> fst yl <= snd v <= snd yl -> ~ above_all params lut rot v) ->
  exists occ lead, ideal_csd_geometric label params [a1; b1] [a2; b2] (ResArray [Z.of_nat nx; Z.of_nat ny]) rot lut kind gf = Ok (Csd2 occ lead).
Proof.
  intros (P & Hl & K & Lab & _) N1 N2 Hx Hy xl yl ND NA.
  destruct (csd_2d label params a1 b1 a2 b2 nx ny rot lut kind gf _ P Hl K (gamma_of_ok kind gf K) N1 N2 Hx Hy Lab)
    as (lead & Rl & Cl & _ & SL & D).
  destruct D as [(occ & E & _)|[_ (a & Ha & W)]]; [eauto|exfalso].
  destruct W as [W|[_ (b & Cb & Ab)]].
  - destruct (SL a Ha) as [[Z _]|[Dr _]]; [lia|]. pose proof (drawn_range _ _ _ _ _ _ _ _ _ Dr).
    replace (value_at lead a) with (length params) in Dr by lia. exact (ND _ Dr).
  - destruct (connected_unlabelled _ _ _ Cb) as [_ [[I1 I2] _]]. rewrite Rl in I1. rewrite Cl in I2.
    eapply NA; [| |exact Ab]; cbn [fst snd].
    + rewrite (voltage_sorted (a1, b1)) by auto. apply voltage_in; auto; [apply sorted_lt; auto|apply flip_index_lt; auto].
    + rewrite (voltage_sorted (a2, b2)) by auto. apply voltage_in; auto; [apply sorted_lt; auto|apply flip_index_lt; auto].
Qed.
Lemma scan_not_drawn label params a1 b1 a2 b2 nx ny rot lut kind gf dd a :
  csd_config label params lut kind gf -> a1 < b1 -> a2 < b2 -> (2 <= nx)%nat -> (2 <= ny)%nat ->
  ideal_csd_geometric label params [a1; b1] [a2; b2] (ResArray [Z.of_nat nx; Z.of_nat ny]) rot lut kind gf = Ok dd ->
  (fst a < ny)%nat -> (snd a < nx)%nat -> ~ drawn params lut rot (a1, b1) (a2, b2) nx ny a (length params).
Proof.
  intros (P & Hl & K & Lab & _) N1 N2 Hx Hy E Ia1 Ia2 Dr.
  destruct (csd_2d label params a1 b1 a2 b2 nx ny rot lut kind gf _ P Hl K (gamma_of_ok kind gf K) ltac:(lra) ltac:(lra) Hx Hy Lab)
    as (lead & Rl & Cl & _ & SL & D).
  assert (Fx : flipped (a1, b1) = false) by (unfold flipped; simpl; destruct (Rltb_spec b1 a1); auto; lra).
  assert (Fy : flipped (a2, b2) = false) by (unfold flipped; simpl; destruct (Rltb_spec b2 a2); auto; lra).
  assert (Ha : in_image lead a) by (split; lia).
  assert (Nx : np_sort (a1, b1) = (a1, b1)) by (apply np_sort_asc; simpl; lra).
  assert (Ny : np_sort (a2, b2) = (a2, b2)) by (apply np_sort_asc; simpl; lra).
  destruct D as [(occ & _ & _ & _ & Q)|[E' _]]; [|congruence].
  destruct (Q a Ha) as (m & Hm & PN & _). pose proof (SL a Ha) as S. unfold scan_label in S. rewrite Nx, Ny, Fx, Fy in S.
  unfold flip_pixel, flip_index in S. cbn [fst snd] in S. rewrite <- surjective_pairing in S.
  destruct S as [[_ S]|[_ S]]; [exact (S _ Dr)|]. specialize (S _ Dr).
  destruct PN as [[_ PN]|[PN _]]; lia.
Qed.
Lemma point_drawn params lut xl yl nx ny x F q : fst xl < snd xl -> fst yl < snd yl -> (2 <= nx)%nat -> (2 <= ny)%nat ->
  (1 <= length params)%nat -> nth_error params (length params - 1) = Some q -> is_tct q lut (Some (length params)) F ->
  In x (mask_samples xl yl nx ny (- (PI / 4))) ->
  in_window xl nx ((x + F x) / sqrt 2) -> in_window yl ny ((F x - x) / sqrt 2) ->
  exists a, (fst a < ny)%nat /\ (snd a < nx)%nat /\ drawn params lut (- (PI / 4)) xl yl nx ny a (length params).
Proof.
  intros Sx Sy Hx Hy Hl E HF I W1 W2.
  destruct (pixel_id_nearest xl nx _ Sx Hx W1) as (j & Nj & _). destruct (pixel_id_nearest yl ny _ Sy Hy W2) as (i & Ni & _).
  exists (i, j). cbn [fst snd]. split; [apply Ni|]. split; [apply Nj|].
  exists x, q, (F x). split; [auto|]. split; [auto|]. split; [auto|]. split; [apply HF|].
  rewrite rotate_quarter. cbn [fst snd]. auto.
Qed.

(** A scan succeeds if the last TCT lies above everything it shows, ... *)
Lemma scan_below_ok label params q F a1 b1 a2 b2 nx ny lut kind gf :
  csd_config label params lut kind gf -> nth_error params (length params - 1) = Some q -> is_tct q lut (Some (length params)) F ->
  a1 <> b1 -> a2 <> b2 -> (2 <= nx)%nat -> (2 <= ny)%nat ->
  let xl := np_sort (a1, b1) in let yl := np_sort (a2, b2) in
  (forall q1 q2, q1 < snd xl + spacing xl nx / 2 -> q2 < snd yl + spacing yl ny / 2 ->
     fst xl - spacing xl nx / 2 < q1 -> fst yl - spacing yl ny / 2 < q2 -> (q1 + q2) / sqrt 2 < F ((q1 - q2) / sqrt 2)) ->
  exists occ lead, ideal_csd_geometric label params [a1; b1] [a2; b2] (ResArray [Z.of_nat nx; Z.of_nat ny]) (- (PI / 4)) lut kind gf = Ok (Csd2 occ lead).
Proof.
  intros C En HF N1 N2 Hx Hy xl yl Below.
  pose proof (sorted_lt (a1, b1) N1) as Sx. pose proof (sorted_lt (a2, b2) N2) as Sy. fold xl in Sx. fold yl in Sy.
  pose proof (spacing_pos xl nx Sx Hx) as Px. pose proof (spacing_pos yl ny Sy Hy) as Py. pose proof sqrt2_bounds as Q.
  assert (Sp : sqrt 2 * sqrt 2 = 2) by (apply sqrt_sqrt; lra).
  apply (scan_covered label params a1 b1 a2 b2 nx ny (- (PI / 4)) lut kind gf C N1 N2 Hx Hy); fold xl yl.
  - intros a (x & p & y & _ & _ & E & Ey & W). rewrite rotate_quarter in W. cbn [fst snd] in W. destruct W as (W1 & W2 & _).
    assert (p = q) by congruence. subst p.
    rewrite (HF x) in Ey. assert (Fy : y = F x) by congruence.
    specialize (Below ((x + y) / sqrt 2) ((y - x) / sqrt 2) ltac:(apply W1) ltac:(apply W2) ltac:(apply W1) ltac:(apply W2)).
    replace (((x + y) / sqrt 2 - (y - x) / sqrt 2) / sqrt 2) with x in Below by (transitivity (2 * x / (sqrt 2 * sqrt 2)); [rewrite Sp; field|field; lra]).
    replace (((x + y) / sqrt 2 + (y - x) / sqrt 2) / sqrt 2) with y in Below by (transitivity (2 * y / (sqrt 2 * sqrt 2)); [rewrite Sp; field|field; lra]).
    lra.
  - intros v V1 V2 A. destruct C as (_ & Hl & _). specialize (A (length params) ltac:(lia)). destruct A as (p & y & _ & E & Ey & Hy').
    rewrite view_quarter in Ey, Hy'. cbn [fst snd] in Ey, Hy'.
    assert (p = q) by congruence. subst p.
    rewrite HF in Ey. specialize (Below (fst v) (snd v) ltac:(lra) ltac:(lra) ltac:(lra) ltac:(lra)).
    assert (y = F ((fst v - snd v) / sqrt 2)) by congruence. lra.
Qed.
(** ... and fails if a sampled point of the last TCT lies in the scanned window. *)
Lemma scan_last_fails label params q F x a1 b1 a2 b2 nx ny lut kind gf :
  csd_config label params lut kind gf -> nth_error params (length params - 1) = Some q -> is_tct q lut (Some (length params)) F ->
  a1 < b1 -> a2 < b2 -> (2 <= nx)%nat -> (2 <= ny)%nat ->
  In x (mask_samples (a1, b1) (a2, b2) nx ny (- (PI / 4))) ->
  in_window (a1, b1) nx ((x + F x) / sqrt 2) -> in_window (a2, b2) ny ((F x - x) / sqrt 2) ->
  ideal_csd_geometric label params [a1; b1] [a2; b2] (ResArray [Z.of_nat nx; Z.of_nat ny]) (- (PI / 4)) lut kind gf = Err IndexError.
Proof.
  intros C En HF N1 N2 Hx Hy I W1 W2. pose proof C as (P & Hl & K & Lab & _).
  destruct (point_drawn params lut (a1, b1) (a2, b2) nx ny x F q N1 N2 Hx Hy ltac:(lia) En HF I W1 W2) as (a & A1 & A2 & Dr).
  destruct (csd_2d label params a1 b1 a2 b2 nx ny (- (PI / 4)) lut kind gf _ P Hl K (gamma_of_ok kind gf K) ltac:(lra) ltac:(lra) Hx Hy Lab)
    as (lead & _ & _ & _ & _ & [(occ & E & _)|[E _]]); [|exact E].
  exfalso. exact (scan_not_drawn label params a1 b1 a2 b2 nx ny (- (PI / 4)) lut kind gf _ a C N1 N2 Hx Hy E A1 A2 Dr).
Qed.
