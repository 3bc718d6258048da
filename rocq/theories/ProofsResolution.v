(** Proofs about resolutions of other types. *)
From Flocq Require Import Core.
From Verif Require Import RPrelude Arr ModelSupport ModelTct ModelCsd ModelSensor ModelSimulation ModelInstance ModelResolution SpecSimulation SpecResolution ProofsSimulation.
Local Open Scope R_scope.

(** ** Integers *)
Lemma small_ints l : existsb at_most_one (map EInt l) = existsb (fun n => n <=? 1)%Z l.
Proof. induction l as [|n t IH]; [reflexivity|]. cbn. rewrite IH. reflexivity. Qed.
Lemma index_ints l : mapM index (map EInt l) = Ok l.
Proof. induction l as [|n t IH]; [reflexivity|]. cbn [map mapM index bind]. rewrite IH. reflexivity. Qed.
Lemma ideal_ints label params l1 l2 res rot lut kind gf :
  ideal_any label params l1 l2 (embed res) rot lut kind gf = ideal_csd_geometric label params l1 l2 res rot lut kind gf.
Proof.
  destruct res as [n|l]; [reflexivity|]. cbn [embed ideal_any]. rewrite map_length, small_ints, <- map_rev, index_ints. cbn [bind]. rewrite rev_involutive.
  unfold ideal_csd_geometric at 2, check_request. cbn [res_list].
  set (first := if (length l =? 2)%nat then _ else _).
  destruct first as [[]|e] eqn:F; [|reflexivity]. cbn [bind].
  destruct l1 as [|a1 [|b1 [|? ?]]]; try reflexivity. destruct l2 as [|a2 [|b2 [|? ?]]]; try reflexivity.
  unfold raise_if. destruct (2 <? length l)%nat eqn:Lg; [reflexivity|]. destruct ((length l =? 2)%nat && existsb (fun r => r <=? 1)%Z l)%bool eqn:Sm; [reflexivity|].
  cbn [bind]. unfold ideal_csd_geometric, check_request. cbn [res_list]. fold first. rewrite F. cbn [bind]. unfold raise_if. rewrite Lg, Sm. reflexivity.
Qed.
Section Any.
Context {W L I K : Type}.
Implicit Type c : config W L I K.
Lemma entries_long res : entries (embed res) (fun n => 2 <? n)%nat = Ok (too_long res).
Proof. destruct res as [n|l]; [reflexivity|]. cbn. rewrite map_length. reflexivity. Qed.
Lemma entries_two res : entries (embed res) (fun n => n =? 2)%nat = Ok (is_2d res).
Proof. destruct res as [n|l]; [reflexivity|]. cbn. rewrite map_length. reflexivity. Qed.
Lemma small_embed res : small (embed res) = too_small res.
Proof. destruct res as [n|l]; [reflexivity|]. cbn. apply small_ints. Qed.
Lemma bind_raise {A B} b e (x : result A) (f : A -> result B) : bind (raise_if b e x) f = raise_if b e (bind x f).
Proof. destruct b; reflexivity. Qed.
Lemma check_ints c s1 s2 v1 v2 res : check_any c s1 s2 v1 v2 (embed res) = let? _ := check_measure c s1 s2 v1 v2 res in Ok tt.
Proof.
  unfold check_any, check_measure. destruct (ideal_csd_config c) as [gen|]; [|reflexivity].
  destruct s1 as [|a1 [|b1 [|? ?]]]; try reflexivity. destruct s2 as [|a2 [|b2 [|? ?]]]; try reflexivity.
  rewrite entries_long, entries_two, small_embed. cbn [bind]. rewrite bind_raise. f_equal.
  destruct (sensor_volt_outside (volt_limits_sensor_g1 c) v1) as [o1|]; [|reflexivity]. cbn [bind].
  destruct (if o1 then Ok true else sensor_volt_outside (volt_limits_sensor_g2 c) v2) as [o2|]; [|reflexivity]. cbn [bind].
  rewrite !bind_raise. reflexivity.
Qed.
Lemma check_scan_ints c s1 s2 v1 v2 res : check_scan_any c s1 s2 v1 v2 (embed res) = check_sensor_scan c s1 s2 v1 v2 res.
Proof.
  unfold check_scan_any, check_sensor_scan. f_equal.
  destruct s1 as [|a1 [|b1 [|? ?]]]; try reflexivity. destruct s2 as [|a2 [|b2 [|? ?]]]; try reflexivity.
  rewrite entries_long, entries_two, small_embed. reflexivity.
Qed.
Lemma full_ints l o : full_any (map EInt l) o = full_entries l o.
Proof. destruct l as [|n [|k t]]; reflexivity. Qed.
Lemma occupations_ints c v1 v2 res w : scan_occupations_any c v1 v2 (embed res) w =
  let (r, w') := scan_occupations c v1 v2 res w in (let? p := r in Ok (fst p, embed (snd p)), w').
Proof.
  unfold scan_occupations_any, scan_occupations.
  assert (U : (match embed res with
               | AnyInt n => let? occ := full1 n (0, 0) in Ok (occ, embed res)
               | AnyNumber _ => Err TypeError
               | AnySeq l => let? occ := full_any l (0, 0) in Ok (occ, embed res) end, w) =
    (let? p := (match res with
                | ResInt n => let? occ := full1 n (0, 0) in Ok (occ, res)
                | ResArray l => let? occ := full_entries l (0, 0) in Ok (occ, res) end) in Ok (fst p, embed (snd p)), w)).
  { destruct res as [n|l]; cbn [embed]; [destruct (full1 n (0, 0))|rewrite full_ints; destruct (full_entries l (0, 0))]; reflexivity. }
  destruct (ideal_csd_config c) as [gen|]; [|exact U]. destruct v1 as [x1|]; [|exact U]. destruct v2 as [x2|]; [|exact U].
  unfold mbind. destruct (gen (x1, x1) (x2, x2) (ResInt 1) w) as [[ol|e] w1]; [|reflexivity].
  destruct res as [n|l]; [reflexivity|]. cbn [embed]. destruct (first_of (fst ol)) as [o|e] eqn:F.
  2:{ destruct l as [|n [|k t]]; reflexivity. }
  destruct l as [|n [|k t]]; cbn [map bind].
  - reflexivity.
  - cbn [py_int]. destruct (full1 n o); reflexivity.
  - change (EInt n :: EInt k :: map EInt t) with (map EInt (n :: k :: t)). rewrite full_ints. destruct (full_entries (n :: k :: t) o); reflexivity.
Qed.
Lemma scan_ints c s1 s2 v1 v2 res w : scan_any c s1 s2 v1 v2 (embed res) w =
  let (r, w') := measure_sensor_scan c s1 s2 v1 v2 res w in
  (let? m := r in Ok (sc_scan m, sc_labels m, embed (md_resolution (sc_meta m))), w').
Proof.
  unfold scan_any, measure_sensor_scan. rewrite check_scan_ints. destruct (check_sensor_scan c s1 s2 v1 v2 res) as [[l1 l2]|e]; [|reflexivity].
  unfold mbind at 1 8. rewrite occupations_ints. destruct (scan_occupations c v1 v2 res w) as [[[occ res']|e] w1]; [|reflexivity]. cbn [bind fst snd].
  unfold mbind. destruct (so_potential _ _ _ _ _ w1) as [[p|e] w2]; [|reflexivity]. destruct (so_potential _ _ _ _ _ w2) as [[pu|e] w3]; [|reflexivity].
  destruct (so_labels _ _ _ _ _ _ w3) as [[la|e] w4]; [|reflexivity]. destruct (distort_potential _ _ _ _ _ w4) as [[p'|e] w5]; [|reflexivity].
  destruct (so_response _ _ w5) as [[rr|e] w6]; [|reflexivity]. destruct (image_loop _ _ _ _ w6) as [[sc|e] w7]; reflexivity.
Qed.

(** ** Other numbers *)
Lemma number_checked c s1 s2 v1 v2 x : valid_request c s1 s2 v1 v2 (ResInt 1) -> ~ sensor_voltage_missing c v1 v2 ->
  check_any c s1 s2 v1 v2 (AnyNumber x) = Err TypeError.
Proof.
  intros V M. destruct (check_measure c s1 s2 v1 v2 (ResInt 1)) as [[[gen l1] l2]|e] eqn:E.
  2:{ apply check_measure_err in E. tauto. }
  revert E. unfold check_measure, check_any. destruct (ideal_csd_config c) as [g|]; [|discriminate].
  destruct s1 as [|a1 [|b1 [|? ?]]]; try discriminate. destruct s2 as [|a2 [|b2 [|? ?]]]; try discriminate.
  intros E. apply raise_if_ok in E. destruct E as [E1 E]. rewrite E1. unfold raise_if at 1.
  destruct (sensor_volt_outside (volt_limits_sensor_g1 c) v1) as [o1|]; [|discriminate]. cbn [bind] in *.
  destruct (if o1 then Ok true else sensor_volt_outside (volt_limits_sensor_g2 c) v2) as [o2|]; [|discriminate]. cbn [bind] in *.
  apply raise_if_ok in E. destruct E as [-> E]. apply raise_if_ok in E. destruct E as [-> E]. reflexivity.
Qed.
Lemma number_scan c s1 s2 v1 v2 x w : valid_scan c s1 s2 v1 v2 (ResInt 1) -> scan_any c s1 s2 v1 v2 (AnyNumber x) w = (Err TypeError, w).
Proof.
  intros V. destruct (check_sensor_scan c s1 s2 v1 v2 (ResInt 1)) as [[l1 l2]|e] eqn:E.
  2:{ apply check_scan_err in E. destruct E; contradiction. }
  revert E. unfold check_sensor_scan, scan_any, check_scan_any. intros E. apply raise_if_ok in E. destruct E as [-> E]. unfold raise_if at 1.
  destruct s1 as [|a1 [|b1 [|? ?]]]; try discriminate. destruct s2 as [|a2 [|b2 [|? ?]]]; try discriminate.
  apply raise_if_ok in E. destruct E as [-> E]. reflexivity.
Qed.

(** ** Floats *)
Lemma index_floats l : Exists is_float l -> mapM index l = Err TypeError.
Proof.
  induction 1 as [e t [x ->]|e t H IH]; [reflexivity|]. cbn [mapM]. destruct e as [n|x]; [|reflexivity]. cbn [index bind]. rewrite IH. reflexivity.
Qed.
Lemma ideal_floats label params a1 b1 a2 b2 l rot lut kind gf : Exists is_float l ->
  exists e, ideal_any label params [a1; b1] [a2; b2] (AnySeq l) rot lut kind gf = Err e /\ (e = TypeError \/ e = ValueError).
Proof.
  intros H. cbn [ideal_any]. rewrite (index_floats (rev l)) by (apply Exists_rev in H; exact H). cbn [bind fixed_voltage get_item nth_error].
  unfold raise_if. destruct (length l =? 2)%nat; cbn [andb].
  - destruct (2 <? length l)%nat, (existsb at_most_one l), (Reqb a1 b1), (Reqb a2 b2); cbn [bind]; eauto.
  - cbn [bind]. destruct (2 <? length l)%nat; eauto.
Qed.
Lemma single_float label params a1 b1 a2 b2 x rot lut kind gf :
  ideal_any label params [a1; b1] [a2; b2] (AnySeq [EFloat x]) rot lut kind gf = Err TypeError.
Proof. reflexivity. Qed.
Lemma truncated c s1 s2 x1 x2 x w : ideal_csd_config c <> None ->
  scan_any c s1 s2 (Some x1) (Some x2) (AnySeq [EFloat x]) w = scan_any c s1 s2 (Some x1) (Some x2) (AnySeq [EInt (Ztrunc x)]) w.
Proof. intros _. reflexivity. Qed.
Lemma full_floats l o : Exists is_float l -> length l = 2%nat -> full_any l o = Err TypeError.
Proof.
  destruct l as [|e0 [|e1 [|? ?]]]; try discriminate. intros H _. unfold full_any. cbn [get_item nth_error bind].
  destruct e1 as [k|x1]; [|reflexivity]. destruct e0 as [n|x0]; [|reflexivity]. exfalso.
  inversion H as [? ? [y E]|? ? H']; subst; [discriminate|]. inversion H' as [? ? [y E]|? ? H'']; subst; [discriminate|inversion H''].
Qed.
Lemma scan_floats c s1 s2 v1 v2 l w : Exists is_float l -> (1 < length l)%nat -> forall m w', scan_any c s1 s2 v1 v2 (AnySeq l) w <> (Ok m, w').
Proof.
  intros H Hl m w'. unfold scan_any. destruct (check_scan_any c s1 s2 v1 v2 (AnySeq l)) as [[l1 l2]|e] eqn:E; [|discriminate].
  assert (L2 : length l = 2%nat).
  { revert E. unfold check_scan_any. intros E. apply raise_if_ok in E. destruct E as [_ E].
    destruct s1 as [|a1 [|b1 [|? ?]]]; try discriminate. destruct s2 as [|a2 [|b2 [|? ?]]]; try discriminate.
    apply raise_if_ok in E. destruct E as [_ E]. cbn [entries len_of bind] in E.
    apply raise_if_ok in E. destruct E as [_ E]. apply raise_if_ok in E. destruct E as [_ E]. apply raise_if_ok in E. destruct E as [_ E].
    apply raise_if_ok in E. destruct E as [E _]. apply Nat.ltb_ge in E. lia. }
  intros M. apply mbind_ok in M. destruct M as (oc & w1 & M & _). revert M. unfold scan_occupations_any.
  assert (U : forall o (w0 r : W), (let? occ := full_any l o in Ok (occ, AnySeq l), w0) <> (Ok oc, r)) by (intros o w0 r; rewrite (full_floats l o H L2); discriminate).
  assert (NS : exists e0 e1 t, l = e0 :: e1 :: t) by (destruct l as [|e0 [|e1 t]]; try discriminate; eauto). destruct NS as (e0 & e1 & t & El).
  destruct (ideal_csd_config c) as [gen|]; [|apply U]. destruct v1 as [x1|]; [|apply U]. destruct v2 as [x2|]; [|apply U].
  unfold mbind. destruct (gen (x1, x1) (x2, x2) (ResInt 1) w) as [[ol|e] w2]; [|discriminate].
  destruct (first_of (fst ol)) as [o|e]; cbn [bind]; [|rewrite El; discriminate]. specialize (U o w2 w1). rewrite El in *. exact U.
Qed.
End Any.
Lemma data_floats {W I K} label x (c : config W lead_mask I K) s1 s2 v1 v2 l w : Exists is_float l ->
  exists e, ideal_data_any label x c s1 s2 v1 v2 (AnySeq l) w = (Err e, w).
Proof.
  intros H. unfold ideal_data_any. destruct (check_any c s1 s2 v1 v2 (AnySeq l)); [|eauto]. destruct s1 as [|a1 [|b1 [|? ?]]]; eauto. destruct s2 as [|a2 [|b2 [|? ?]]]; eauto.
  unfold get_csd_data_any. cbn [fst snd]. destruct (ideal_floats label (g_tcts x) a1 b1 a2 b2 l (g_rotation x) (g_lut x) (g_cdf x) (g_gamma x) H) as (e & -> & _). exists e. reflexivity.
Qed.
Lemma data_number {W I K} label x (c : config W lead_mask I K) s1 s2 v1 v2 y w : valid_request c s1 s2 v1 v2 (ResInt 1) -> ~ sensor_voltage_missing c v1 v2 ->
  ideal_data_any label x c s1 s2 v1 v2 (AnyNumber y) w = (Err TypeError, w).
Proof. intros V M. unfold ideal_data_any. rewrite (number_checked c s1 s2 v1 v2 y V M). reflexivity. Qed.
Lemma data_ints {W I K} label x (c : config W lead_mask I K) s1 s2 v1 v2 res w :
  ideal_data_any label x c s1 s2 v1 v2 (embed res) w =
  match check_measure c s1 s2 v1 v2 res with Ok (_, l1, l2) => get_csd_data label x l1 l2 res w | Err e => (Err e, w) end.
Proof.
  unfold ideal_data_any. rewrite check_ints. destruct (check_measure c s1 s2 v1 v2 res) as [[[gen l1] l2]|e] eqn:E; [|reflexivity]. cbn [bind].
  apply check_measure_iff in E. destruct E as (_ & _ & _ & -> & ->). unfold get_csd_data_any, get_csd_data. cbn [fst snd]. rewrite ideal_ints. reflexivity.
Qed.

(** ** Which exception *)
Lemma one_spec e : Bool.reflect (entry_value e <= 1)%R (at_most_one e).
Proof.
  destruct e as [n|x]; cbn [entry_value at_most_one]; [|apply Rleb_spec].
  destruct (n <=? 1)%Z eqn:H; constructor; [apply Z.leb_le in H|apply Z.leb_gt in H]; [apply (IZR_le _ 1), H|apply (IZR_lt 1) in H; lra].
Qed.
Lemma floats_kind label params a1 b1 a2 b2 r1 r2 rot lut kind gf : a1 <> b1 -> a2 <> b2 -> Exists is_float [r1; r2] ->
  let out := ideal_any label params [a1; b1] [a2; b2] (AnySeq [r1; r2]) rot lut kind gf in
  (entry_value r1 <= 1 \/ entry_value r2 <= 1 -> out = Err ValueError) /\ (1 < entry_value r1 -> 1 < entry_value r2 -> out = Err TypeError).
Proof.
  intros N1 N2 F out. unfold out. cbn [ideal_any]. rewrite (index_floats (rev [r1; r2])) by (apply Exists_rev in F; exact F).
  cbn [bind fixed_voltage get_item nth_error length Nat.eqb Nat.ltb Nat.leb]. rewrite !Reqb_false by assumption. cbn [bind andb existsb raise_if].
  destruct (one_spec r1) as [H1|H1], (one_spec r2) as [H2|H2]; cbn [orb raise_if]; split; intros; try reflexivity; lra.
Qed.
