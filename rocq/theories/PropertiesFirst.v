(** Properties of the number of electrons at the unlabelled pixels of 2D scans. *)
From Verif Require Import RPrelude Arr ModelSupport ModelTct ModelCsd ModelInstance ModelDefault SpecTct SpecCsd SpecInstance
  SpecFirst ProofsScan ProofsDefault ProofsFirst ProofsFlat.
Local Open Scope R_scope.

(** C147: all pixels of a connected unlabelled region get the number of electrons that belongs to the voltages of its first pixel:
    lowest second gate voltage and, among these, lowest first gate voltage, whatever the directions of the sweeps. *)
Theorem C147_first label params a1 b1 a2 b2 nx ny rot lut kind gf occ lead :
  csd_config label params lut kind gf ->
  ideal_csd_geometric label params [a1; b1] [a2; b2] (ResArray [nx; ny]) rot lut kind gf = Ok (Csd2 occ lead) ->
  forall a, unlabelled lead a -> exists b n, first_of_region (a1, b1) (a2, b2) lead a b /\
    electrons params lut rot (pixel_point (a1, b1) (a2, b2) (cols lead) (rows lead) b) n /\
    fst (cell occ (fst a) (snd a)) + snd (cell occ (fst a) (snd a)) = INR n.
Proof.
  intros C H a Ua. destruct (scan_first label params a1 b1 a2 b2 nx ny rot lut kind gf occ lead C H a Ua) as (b & n & F & E & T & _).
  exists b, n. auto.
Qed.
Print Assumptions C147_first.

(** In scans of the default configuration with pixels of at least 25 microvolts and an aspect ratio of at most 3 this is the number
    that belongs to the voltages of the pixel itself. *)
Theorem C147_default_partial label a1 b1 a2 b2 nx ny occ lead :
  (forall m, is_labelling m (label m)) -> (2 <= nx)%nat -> (2 <= ny)%nat ->
  0.000025 <= Rabs (b1 - a1) / INR (nx - 1) -> 0.000025 <= Rabs (b2 - a2) / INR (ny - 1) ->
  Rabs (b1 - a1) / INR (nx - 1) <= 3 * (Rabs (b2 - a2) / INR (ny - 1)) ->
  Rabs (b2 - a2) / INR (ny - 1) <= 3 * (Rabs (b1 - a1) / INR (nx - 1)) ->
  ideal_csd_geometric label default_tcts [a1; b1] [a2; b2] (ResArray [Z.of_nat nx; Z.of_nat ny]) (- (PI / 4)) (Some 1000%nat) Sigmoid None
    = Ok (Csd2 occ lead) ->
  forall v o, scan_pixel (Csd2 occ lead) (a1, b1) (a2, b2) v o 0%nat ->
  exists n, electrons default_tcts (Some 1000%nat) (- (PI / 4)) v n /\ fst o + snd o = INR n.
Proof. intros Lab. exact (default_unlabelled label Lab a1 b1 a2 b2 nx ny occ lead). Qed.
Print Assumptions C147_default_partial.

(** Finding: with any resolution there is a flat window within the limits of the gates whose scan shows no transition and no electron
    at all, although there is one electron at its right edge; the scan along its lower edge shows it. *)
Theorem C147_flat_refuted label nx ny : (forall m, is_labelling m (label m)) -> (2 <= nx)%nat -> (2 <= ny)%nat ->
  exists a1 b1 a2 b2 occ lead occ' lead',
  fst limits_g1 < a1 < b1 /\ b1 < snd limits_g1 /\ fst limits_g2 < a2 < b2 /\ b2 < snd limits_g2 /\
  ideal_csd_geometric label default_tcts [a1; b1] [a2; b2] (ResArray [Z.of_nat nx; Z.of_nat ny]) (- (PI / 4)) (Some 1000%nat) Sigmoid None
    = Ok (Csd2 occ lead) /\
  (forall v o lab, scan_pixel (Csd2 occ lead) (a1, b1) (a2, b2) v o lab -> lab = 0%nat /\ fst o + snd o = 0) /\
  (forall v2, a2 <= v2 <= b2 -> electrons default_tcts (Some 1000%nat) (- (PI / 4)) (a1, v2) 0 /\
                                electrons default_tcts (Some 1000%nat) (- (PI / 4)) (b1, v2) 1) /\
  ideal_csd_geometric label default_tcts [a1; b1] [a2; a2] (ResInt (Z.of_nat nx)) (- (PI / 4)) (Some 1000%nat) Sigmoid None
    = Ok (Csd1 occ' lead') /\
  (exists o o' lab lab', scan_pixel (Csd1 occ' lead') (a1, b1) (a2, a2) (a1, a2) o lab /\ fst o + snd o = 0 /\
     scan_pixel (Csd1 occ' lead') (a1, b1) (a2, a2) (b1, a2) o' lab' /\ fst o' + snd o' = 1).
Proof. intros Lab Hx Hy. exact (flat_window label Lab nx ny Hx Hy). Qed.
Print Assumptions C147_flat_refuted.

(** ** Examples *)
(** Swept from high to low voltages, the last pixel of an unlabelled image comes first. *)
Example C147_first_example :
  first_of_region (1, 0) (1, 0) (mk_arr2 2 2 (fun _ _ => 0%nat)) (0%nat, 0%nat) (1%nat, 1%nat).
Proof.
  split.
  - apply (conn_step _ _ (0%nat, 1%nat)).
    + apply (conn_step _ _ (0%nat, 0%nat)).
      * constructor. repeat split; simpl; lia.
      * left. simpl. lia.
      * repeat split; simpl; lia.
    + right. simpl. lia.
    + repeat split; simpl; lia.
  - intros c Hc. destruct (connected_unlabelled _ _ _ Hc) as [_ [[H1 H2] _]]. cbn [rows cols] in H1, H2.
    destruct c as [i j]. cbn [fst snd] in H1, H2. unfold not_after, pixel_point, pixel_voltage. cbn [cols rows fst snd INR Nat.sub].
    destruct i as [|[|i]], j as [|[|j]]; try lia; cbn [INR]; try (left; lra); right; split; lra.
Qed.

(** A scan of 100 x 100 pixels over the whole range of the gates. *)
Example C147_default_example label occ lead : (forall m, is_labelling m (label m)) ->
  ideal_csd_geometric label default_tcts [-0.2; -0.087] [-0.2; -0.047] (ResArray [100%Z; 100%Z]) (- (PI / 4)) (Some 1000%nat) Sigmoid None
    = Ok (Csd2 occ lead) ->
  forall v o, scan_pixel (Csd2 occ lead) (-0.2, -0.087) (-0.2, -0.047) v o 0%nat ->
  exists n, electrons default_tcts (Some 1000%nat) (- (PI / 4)) v n /\ fst o + snd o = INR n.
Proof.
  intros Lab. assert (E : INR (100 - 1) = 99) by (change (100 - 1)%nat with 99%nat; rewrite INR_IZR_INZ; reflexivity).
  apply (C147_default_partial label (-0.2) (-0.087) (-0.2) (-0.047) 100 100 occ lead Lab); try lia;
    rewrite E; rewrite ?(Rabs_pos_eq (-0.087 - -0.2)), ?(Rabs_pos_eq (-0.047 - -0.2)) by lra; lra.
Qed.
