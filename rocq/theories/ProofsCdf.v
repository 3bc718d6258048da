(** Proofs about requests with an unknown type of the distribution function. *)
From Verif Require Import RPrelude Arr ModelSupport ModelTct SpecTct ModelCsd SpecCsd ProofsTct ProofsCsd ProofsOcc ProofsRegions ProofsMask ProofsDriver ProofsScan.
Local Open Scope R_scope.

Lemma unknown_cdf label params l1 l2 res rot lut : proper_tcts params lut -> well_formed_request l1 l2 (res_list res) -> res_list res <> [] ->
  ideal_csd_geometric label params l1 l2 res rot lut UnknownCdf None = Err ValueError.
Proof.
  intros P (a1 & b1 & a2 & b2 & -> & -> & L & Q) N. destruct (res_list res) as [|x [|y [|z t]]] eqn:E; [congruence| | |cbn in L; lia].
  - unfold ideal_csd_geometric. rewrite E. rewrite check_request_ok by (cbn; try lia; intros; discriminate). cbn [bind]. unfold raise_if. destruct (x <? 0)%Z; reflexivity.
  - destruct (Q eq_refl) as (N1 & N2 & F). inversion F as [|? ? X F1]; subst. inversion F1 as [|? ? Y _]; subst.
    unfold ideal_csd_geometric. rewrite E. rewrite check_request_ok; [|cbn; lia|intros _; repeat split; assumption]. cbn [bind].
    assert (S : forall a b, a <> b -> fst (np_sort (a, b)) < snd (np_sort (a, b))).
    { intros a b D. unfold np_sort. cbn [fst snd]. destruct (Rleb_spec a b); cbn; lra. }
    destruct (lead_mask_2d_spec params lut rot (np_sort (a1, b1)) (np_sort (a2, b2)) (Z.to_nat x) (Z.to_nat y) P (S _ _ N1) (S _ _ N2)) as (m & -> & _); [lia|lia|].
    reflexivity.
Qed.
Lemma fill_empty kind coords g pixels : (forall v m, In (v, m) pixels -> m = 0%nat) -> fill_occupations kind coords g pixels = Ok (map (fun _ => (0, 0)) pixels).
Proof.
  intros H. unfold fill_occupations. assert (U : unique (map snd pixels) = [] \/ unique (map snd pixels) = [0%nat]).
  { assert (M : list_max (map snd pixels) = 0%nat).
    { destruct (list_max_le (map snd pixels) 0) as [_ K]. apply Nat.le_0_r, K. apply Forall_forall. intros n I. apply in_map_iff in I. destruct I as ([v m] & <- & I). cbn. rewrite (H v m I). lia. }
    unfold unique. rewrite M. cbn [seq filter]. destruct (existsb (Nat.eqb 0) (map snd pixels)); auto. }
  destruct U as [-> | ->]; reflexivity.
Qed.
Lemma both_sides {A B} (l : list A) (l' : list B) : forall i a b, nth_error (combine l l') i = Some (a, b) -> nth_error l i = Some a /\ nth_error l' i = Some b.
Proof.
  revert l'. induction l as [|x l IH]; intros [|y l'] [|i] a b H; try discriminate; cbn in *; [injection H as <- <-; auto|auto].
Qed.
Lemma unknown_empty label params a1 b1 a2 b2 res n rot lut g : proper_tcts params lut -> res_list res = [Z.of_nat n] ->
  (forall i, (i < n)%nat -> let v := (pixel_voltage (a1, b1) n i, pixel_voltage (a2, b2) n i) in electrons params lut rot v 0 \/ above_all params lut rot v) ->
  exists lead, ideal_csd_geometric label params [a1; b1] [a2; b2] res rot lut UnknownCdf (Some g) = Ok (Csd1 (repeat (0, 0) n) lead).
Proof.
  intros P Hr H. unfold ideal_csd_geometric. rewrite Hr.
  rewrite check_request_ok by (simpl; try lia; intros; lia). cbn [bind].
  rewrite (proj2 (Z.ltb_ge (Z.of_nat n) 0)) by lia. simpl raise_if. rewrite Nat2Z.id.
  assert (E : occupation_1d n (a1, b1) (a2, b2) (calculate_all_bezier_anchors params 1 rot) (initialize_tct_functions params 1) rot lut UnknownCdf (Some g) = Ok (repeat (0, 0) n)).
  { unfold occupation_1d. cbn [default_gamma_factor bind]. set (points := map (fun i => (grid (a1, b1) n i, grid (a2, b2) n i) : point) (seq 0 n)).
    assert (Lp : length points = n) by (unfold points; rewrite map_length, seq_length; auto).
    destruct (regions_1d_spec points params lut rot P) as (regs & Er & Lr & Q). rewrite Er. cbn [bind]. rewrite fill_empty.
    - f_equal. assert (Lc : length (combine points regs) = n) by (rewrite combine_length, Lr; transitivity (length points); [apply Nat.min_id|exact Lp]).
      rewrite <- Lc. generalize (combine points regs). intros l. induction l as [|x l IH]; [reflexivity|]. cbn. f_equal. exact IH.
    - intros v m I. apply In_nth_error in I. destruct I as [i Hi]. pose proof (both_sides _ _ _ _ _ Hi) as [Hv Hm].
      destruct (Q i v Hv) as (m' & Em & Hm'). assert (m' = m) by congruence. subst m'. destruct Hm' as [Hm'|[_ ->]]; [|reflexivity].
      unfold points in Hv. rewrite nth_error_map_seq in Hv. destruct (Nat.ltb_spec i n) as [Li|]; [|discriminate]. injection Hv as <-.
      destruct (H i Li) as [H0|H0]; [exact (electrons_unique _ _ _ _ _ _ Hm' H0)|]. exfalso. exact (electrons_not_above_all _ _ _ _ _ Hm' H0). }
  rewrite E. cbn [bind]. destruct (lead_mask_1d_spec (repeat (0, 0) n)) as (lead & -> & _). exists lead. reflexivity.
Qed.

(** The remaining requests *)
Lemma negative_rejected label params a1 b1 a2 b2 res n rot lut kind gf : res_list res = [n] -> (n < 0)%Z ->
  ideal_csd_geometric label params [a1; b1] [a2; b2] res rot lut kind gf = Err ValueError.
Proof. intros E N. unfold ideal_csd_geometric. rewrite E. cbn -[calculate_all_bezier_anchors initialize_tct_functions]. apply Z.ltb_lt in N. now rewrite N. Qed.
Lemma empty_rejected label params a1 b1 a2 b2 rot lut kind gf :
  ideal_csd_geometric label params [a1; b1] [a2; b2] (ResArray []) rot lut kind gf = Err UnboundLocalError.
Proof. reflexivity. Qed.
