(** Property theorems about resolutions of other types. *)
From Flocq Require Import Core.
From Verif Require Import RPrelude Arr ModelSupport ModelTct ModelCsd ModelSensor ModelSimulation ModelInstance ModelResolution SpecSimulation SpecResolution
  ProofsResolution ExamplesSimulation.
Local Open Scope R_scope.

(** C162: sequences of integers of any kind give what the int or integer array gives, in the ideal data, ... *)
Theorem C162_ints_ideal label params l1 l2 res rot lut kind gf :
  ideal_any label params l1 l2 (embed res) rot lut kind gf = ideal_csd_geometric label params l1 l2 res rot lut kind gf.
Proof. exact (ideal_ints label params l1 l2 res rot lut kind gf). Qed.
Print Assumptions C162_ints_ideal.
(** ... at the beginning of measure ... *)
Theorem C162_ints_measure {W I K} label x (c : config W lead_mask I K) s1 s2 v1 v2 res w :
  ideal_data_any label x c s1 s2 v1 v2 (embed res) w =
  match check_measure c s1 s2 v1 v2 res with Ok (_, l1, l2) => get_csd_data label x l1 l2 res w | Err e => (Err e, w) end.
Proof. exact (data_ints label x c s1 s2 v1 v2 res w). Qed.
Print Assumptions C162_ints_measure.
(** ... and in sensor scans. *)
Theorem C162_ints_scan {W L I K} (c : config W L I K) s1 s2 v1 v2 res w :
  scan_any c s1 s2 v1 v2 (embed res) w =
  let (r, w') := measure_sensor_scan c s1 s2 v1 v2 res w in
  (let? m := r in Ok (sc_scan m, sc_labels m, embed (md_resolution (sc_meta m))), w').
Proof. exact (scan_ints c s1 s2 v1 v2 res w). Qed.
Print Assumptions C162_ints_scan.

(** C162: a number of another type, also an integer of numpy, is refused although the same int is accepted. *)
Theorem C162_number_refuted {W I K} label x (c : config W lead_mask I K) s1 s2 v1 v2 y w :
  (valid_request c s1 s2 v1 v2 (ResInt 1) -> ~ sensor_voltage_missing c v1 v2 ->
   ideal_data_any label x c s1 s2 v1 v2 (AnyNumber y) w = (Err TypeError, w)) /\
  (valid_scan c s1 s2 v1 v2 (ResInt 1) -> scan_any c s1 s2 v1 v2 (AnyNumber y) w = (Err TypeError, w)).
Proof. exact (conj (data_number label x c s1 s2 v1 v2 y w) (number_scan c s1 s2 v1 v2 y w)). Qed.
Print Assumptions C162_number_refuted.

(** C162: floats as entries are always refused by measure and by sensor scans with two entries, ... *)
Theorem C162_floats_partial {W I K} label x (c : config W lead_mask I K) s1 s2 v1 v2 l w : Exists is_float l ->
  (exists e, ideal_data_any label x c s1 s2 v1 v2 (AnySeq l) w = (Err e, w)) /\
  ((1 < length l)%nat -> forall m w', scan_any c s1 s2 v1 v2 (AnySeq l) w <> (Ok m, w')).
Proof. exact (fun H => conj (data_floats label x c s1 s2 v1 v2 l w H) (scan_floats c s1 s2 v1 v2 l w H)). Qed.
Print Assumptions C162_floats_partial.
(** ... but a sensor scan along a line with plunger voltages cuts off the decimals. *)
Theorem C162_truncated_refuted {W L I K} (c : config W L I K) s1 s2 x1 x2 x w : ideal_csd_config c <> None ->
  scan_any c s1 s2 (Some x1) (Some x2) (AnySeq [EFloat x]) w = scan_any c s1 s2 (Some x1) (Some x2) (AnySeq [EInt (Ztrunc x)]) w.
Proof. exact (truncated c s1 s2 x1 x2 x w). Qed.
Print Assumptions C162_truncated_refuted.

(** Two entries, one of them a float, for a scan of both gates: the values are compared with 1 first. *)
Theorem C162_floats_kind label params a1 b1 a2 b2 r1 r2 rot lut kind gf : a1 <> b1 -> a2 <> b2 -> Exists is_float [r1; r2] ->
  let out := ideal_any label params [a1; b1] [a2; b2] (AnySeq [r1; r2]) rot lut kind gf in
  (entry_value r1 <= 1 \/ entry_value r2 <= 1 -> out = Err ValueError) /\ (1 < entry_value r1 -> 1 < entry_value r2 -> out = Err TypeError).
Proof. exact (floats_kind label params a1 b1 a2 b2 r1 r2 rot lut kind gf). Qed.
Print Assumptions C162_floats_kind.
Example C162_example_kind label params rot lut kind gf :
  ideal_any label params [0; 1] [0; 1] (AnySeq [EFloat 1; EInt 3]) rot lut kind gf = Err ValueError /\
  ideal_any label params [0; 1] [0; 1] (AnySeq [EFloat 2; EInt 3]) rot lut kind gf = Err TypeError.
Proof.
  split; refine (_ (C162_floats_kind label params 0 1 0 1 _ (EInt 3) rot lut kind gf _ _ (Exists_cons_hd _ _ _ (ex_intro _ _ eq_refl)))); try lra;
    intros [H1 H2]; [apply H1; left|apply H2]; cbn [entry_value]; lra.
Qed.

Example C162_example_number : fst (scan_any (ex_config None None true) [0; 1] [0; 1] None None (AnyNumber (EInt 3)) []) = Err TypeError /\
  exists r w, scan_any (ex_config None None true) [0; 1] [0; 1] None None (AnyInt 3) [] = (Ok r, w).
Proof. split; [reflexivity|]. eexists. eexists. reflexivity. Qed.
Example C162_example_truncated : exists sc la w, scan_any (ex_config None None true) [0; 1] [0; 1] (Some 0) (Some 0) (AnySeq [EFloat 2.7]) [] = (Ok (sc, la, AnyInt 2), w).
Proof.
  rewrite C162_truncated_refuted by discriminate. replace (Ztrunc 2.7) with 2%Z; [do 3 eexists; reflexivity|].
  rewrite Ztrunc_floor by lra. symmetry. apply Zfloor_imp. split; simpl; lra.
Qed.
Example C162_example_floats : fst (ideal_data_any (fun a => a) (mk_geometric [] 0 None Sigmoid None) (plain_config (fun a => a) None None (mk_geometric [] 0 None Sigmoid None) default_sensor)
  [0; 1] [0; 1] None None (AnySeq [EFloat 10]) tt) = Err TypeError.
Proof. reflexivity. Qed.
