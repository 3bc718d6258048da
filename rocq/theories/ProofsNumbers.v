(** Proofs about plunger voltages given as int or float. *)
From Coq Require Import FunctionalExtensionality.
From Verif Require Import RPrelude Arr ModelSupport ModelTct ModelCsd ModelDistortions ModelSensor ModelSimulation ModelInstance ModelScanInstance ModelNumbers ProofsSimulation.
Local Open Scope R_scope.

Lemma typed_labels_float s t1 t2 h v1 v2 w1 w2 p : none_or_float t1 && none_or_float t2 = true ->
  typed_labels s t1 t2 h v1 v2 w1 w2 p = get_sensor_scan_labels s h v1 v2 w1 w2 p.
Proof.
  intros H. unfold typed_labels. rewrite H. cbn [negb raise_if].
  destruct (first_occ (h_occ h)) as [o|e] eqn:E; [reflexivity|]. unfold get_sensor_scan_labels. rewrite E. reflexivity.
Qed.
Lemma typed_object_float s t1 t2 : none_or_float t1 && none_or_float t2 = true -> typed_object s t1 t2 = scan_object s.
Proof.
  intros H. unfold typed_object, scan_object. cbn [so_potential so_response]. f_equal.
  extensionality v1. extensionality v2. extensionality w1. extensionality w2. extensionality p. extensionality st.
  destruct st as [h|]; [|reflexivity]. destruct (joined p) as [q|e]; [|reflexivity]. cbn [bind].
  rewrite typed_labels_float by exact H. reflexivity.
Qed.
Lemma typed_float c s s1 s2 t1 t2 res : sensor c = scan_object s -> none_or_float t1 && none_or_float t2 = true ->
  typed_sensor_scan c s s1 s2 t1 t2 res = measure_sensor_scan c s1 s2 (option_map value t1) (option_map value t2) res.
Proof.
  intros Hs H. unfold typed_sensor_scan. rewrite typed_object_float by exact H. rewrite <- Hs. destruct c; reflexivity.
Qed.
(** a scan with an int returns nothing *)
Lemma typed_int c s s1 s2 t1 t2 res st m st' : sensor c = scan_object s -> none_or_float t1 && none_or_float t2 = false ->
  measure_sensor_scan c s1 s2 (option_map value t1) (option_map value t2) res st = (Ok m, st') ->
  fst (typed_sensor_scan c s s1 s2 t1 t2 res st) = Err ValueError.
Proof.
  intros Hs H E. unfold typed_sensor_scan. set (v1 := option_map value t1) in *. set (v2 := option_map value t2) in *.
  destruct c as [a b c d gen sn oc pd rd]. cbn [sensor] in Hs. subst sn.
  cbn [volt_limits_g1 volt_limits_g2 volt_limits_sensor_g1 volt_limits_sensor_g2 ideal_csd_config occupation_distortions
       sensor_potential_distortions sensor_response_distortions].
  unfold measure_sensor_scan in *.
  change (check_sensor_scan (mk_config a b c d gen (typed_object s t1 t2) oc pd rd) s1 s2 v1 v2 res)
    with (check_sensor_scan (mk_config a b c d gen (scan_object s) oc pd rd) s1 s2 v1 v2 res).
  destruct (check_sensor_scan (mk_config a b c d gen (scan_object s) oc pd rd) s1 s2 v1 v2 res) as [[l1 l2]|e]; [|discriminate].
  change (scan_occupations (mk_config a b c d gen (typed_object s t1 t2) oc pd rd) v1 v2 res)
    with (scan_occupations (mk_config a b c d gen (scan_object s) oc pd rd) v1 v2 res).
  rewrite ProofsSimulation.mbind_ok in E. destruct E as ([occ res'] & w1 & E1 & E). unfold mbind at 1. rewrite E1.
  rewrite ProofsSimulation.mbind_ok in E. destruct E as (p & w2 & E2 & E). unfold mbind at 1.
  cbn [sensor] in *. change (so_potential (typed_object s t1 t2)) with (so_potential (scan_object s)). rewrite E2.
  rewrite ProofsSimulation.mbind_ok in E. destruct E as (pu & w3 & E3 & E). unfold mbind at 1. rewrite E3.
  rewrite ProofsSimulation.mbind_ok in E. destruct E as (L & w4 & E4 & _). unfold mbind at 1.
  cbn [so_labels scan_object typed_object] in *. destruct w3 as [h|]; [|discriminate].
  destruct (joined pu) as [q|e]; [|discriminate]. cbn [bind] in *.
  unfold typed_labels. rewrite H. cbn [negb]. unfold get_sensor_scan_labels in E4.
  destruct (first_occ (h_occ h)) as [o|e]; [|discriminate]. reflexivity.
Qed.
