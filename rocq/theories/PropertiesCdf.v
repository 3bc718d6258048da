(** Property theorems about requests with an unknown type of the distribution function, a negative or no
    resolution. *)
From Verif Require Import RPrelude Arr ModelSupport ModelTct SpecTct ModelCsd SpecCsd ProofsLabel ExamplesCsd ProofsCdf.
Local Open Scope R_scope.

(** C13: without a gamma factor, requests with an unknown distribution function are rejected, ... *)
Theorem C13_unknown_cdf label params l1 l2 res rot lut : proper_tcts params lut -> well_formed_request l1 l2 (res_list res) -> res_list res <> [] ->
  ideal_csd_geometric label params l1 l2 res rot lut UnknownCdf None = Err ValueError.
Proof. exact (unknown_cdf label params l1 l2 res rot lut). Qed.
Print Assumptions C13_unknown_cdf.

(** ... but with one they are computed if all pixels have 0 electrons (the distribution function is looked up when it is needed). *)
Theorem C13_unknown_empty label params a1 b1 a2 b2 res n rot lut g : proper_tcts params lut -> res_list res = [Z.of_nat n] ->
  (forall i, (i < n)%nat -> let v := (pixel_voltage (a1, b1) n i, pixel_voltage (a2, b2) n i) in electrons params lut rot v 0 \/ above_all params lut rot v) ->
  exists lead, ideal_csd_geometric label params [a1; b1] [a2; b2] res rot lut UnknownCdf (Some g) = Ok (Csd1 (repeat (0, 0) n) lead).
Proof. exact (unknown_empty label params a1 b1 a2 b2 res n rot lut g). Qed.
Print Assumptions C13_unknown_empty.

(** Negative resolutions of 1D scans are rejected, resolutions without entries raise UnboundLocalError. *)
Theorem C13_other_resolutions label params a1 b1 a2 b2 rot lut kind gf :
  (forall res n, res_list res = [n] -> (n < 0)%Z -> ideal_csd_geometric label params [a1; b1] [a2; b2] res rot lut kind gf = Err ValueError) /\
  ideal_csd_geometric label params [a1; b1] [a2; b2] (ResArray []) rot lut kind gf = Err UnboundLocalError.
Proof. exact (conj (fun res n => negative_rejected label params a1 b1 a2 b2 res n rot lut kind gf) (empty_rejected label params a1 b1 a2 b2 rot lut kind gf)). Qed.
Print Assumptions C13_other_resolutions.
Example C13_negative_example : ideal_csd_geometric component_label (couple 0) [0; 1] [0; 1] (ResInt (-3)) 0 None Sigmoid None = Err ValueError.
Proof. now apply (proj1 (C13_other_resolutions component_label (couple 0) 0 1 0 1 0 None Sigmoid None) (ResInt (-3)) (-3)%Z). Qed.

Example C13_unknown_example : ideal_csd_geometric component_label (couple 0) [0; 1] [0; 1] (ResArray [5%Z; 5%Z]) 0 None UnknownCdf None = Err ValueError.
Proof.
  apply C13_unknown_cdf; [apply couple_proper; lra| |discriminate]. exists 0, 1, 0, 1. split; [reflexivity|]. split; [reflexivity|]. split; [cbn; lia|]. intros _. split; [lra|]. split; [lra|]. cbn. repeat constructor; lia.
Qed.
Example C13_unknown_empty_example : exists params v lead, proper_tcts params None /\
  ideal_csd_geometric component_label params [fst v; fst v] [snd v; snd v] (ResInt 1) 0 None UnknownCdf (Some 1) = Ok (Csd1 [(0, 0)] lead).
Proof.
  destruct above_all_1d as (params & v & P & A & _). exists params, v.
  destruct (unknown_empty component_label params (fst v) (fst v) (snd v) (snd v) (ResInt 1) 1 0 None 1 P eq_refl) as [lead E]; [|exists lead; auto].
  intros i Hi. assert (i = 0%nat) by lia. subst i. right. unfold pixel_voltage. cbn. replace (fst v + 0 * ((fst v - fst v) / 0)) with (fst v) by ring.
  replace (snd v + 0 * ((snd v - snd v) / 0)) with (snd v) by ring. destruct v. exact A.
Qed.
