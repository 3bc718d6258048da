(** C149: infinities and not-a-number in the checks of voltages and parameters. *)
From Flocq Require Import IEEE754.BinarySingleNaN.
From Verif Require Import RPrelude ModelCsd ModelSimulation ModelSpecial SpecSpecial ProofsSpecial ExamplesSpecial.
Local Open Scope R_scope.

(** Finite numbers: the float64 checks of both measure functions end exactly like the checks on real numbers (C44, C80). *)
Theorem C149_exact {W L I K} (c : config W L I K) l s1 s2 v1 v2 res : same_limits c l ->
  limits_are finite (al_g1 l) -> limits_are finite (al_g2 l) -> limits_are finite (al_sensor_g1 l) -> limits_are finite (al_sensor_g2 l) ->
  all_finite s1 -> all_finite s2 -> option_is finite v1 -> option_is finite v2 ->
  check_measure64 (negb (is_none (ideal_csd_config c))) l s1 s2 v1 v2 res =
    verdict (check_measure c (map real_of s1) (map real_of s2) (option_map real_of v1) (option_map real_of v2) res) /\
  check_sensor_scan64 (so_scan (sensor c)) l s1 s2 v1 v2 res =
    verdict (check_sensor_scan c (map real_of s1) (map real_of s2) (option_map real_of v1) (option_map real_of v2) res).
Proof. intros; split; [apply measure_exact|apply scan_exact]; assumption. Qed.
Print Assumptions C149_exact.

(** Without not-a-number, an accepted request is inside the limits, even if voltages or limits are infinite. *)
Theorem C149_limits_partial conf scans l s1 s2 v1 v2 res :
  limits_are number (al_g1 l) -> limits_are number (al_g2 l) -> limits_are number (al_sensor_g1 l) -> limits_are number (al_sensor_g2 l) ->
  Forall number s1 -> Forall number s2 -> option_is number v1 -> option_is number v2 ->
  (check_measure64 conf l s1 s2 v1 v2 res = Ok tt ->
     Forall (inside (al_g1 l)) s1 /\ Forall (inside (al_g2 l)) s2 /\ option_is (inside (al_sensor_g1 l)) v1 /\ option_is (inside (al_sensor_g2 l)) v2) /\
  (check_sensor_scan64 scans l s1 s2 v1 v2 res = Ok tt ->
     Forall (inside (al_sensor_g1 l)) s1 /\ Forall (inside (al_sensor_g2 l)) s2 /\ option_is (inside (al_g1 l)) v1 /\ option_is (inside (al_g2 l)) v2).
Proof. intros; split; intros; [eapply measure_inside|eapply scan_inside]; eassumption. Qed.
Print Assumptions C149_limits_partial.

(** Between finite limits there are only finite numbers: an infinite voltage is refused. *)
Theorem C149_infinite lo hi x : finite lo -> finite hi -> inside (Some (lo, hi)) x -> finite x /\ real_of lo <= real_of x <= real_of hi.
Proof. exact (inside_real lo hi x). Qed.
Print Assumptions C149_infinite.

(** With not-a-number the limits are no protection: whatever the limits are, sweeps with a NaN and sensor voltages of NaN pass all checks of both
    functions, for one and for two dimensions, and limits of NaN refuse nothing. *)
Theorem C149_nan_refuted l s1 s2 res : In nan64 s1 -> In nan64 s2 -> length s1 = 2%nat -> length s2 = 2%nat -> too_long res = false -> too_small res = false ->
  check_measure64 true l s1 s2 (Some nan64) (Some nan64) res = Ok tt /\
  check_sensor_scan64 true l s1 s2 (Some nan64) (Some nan64) res = Ok tt /\
  ~ (forall a l' s1' s2' v1 v2 res', al_g1 l' = Some a -> limits_are finite (al_g1 l') -> check_measure64 true l' s1' s2' v1 v2 res' = Ok tt -> Forall (inside (al_g1 l')) s1').
Proof. exact (nan_passes l s1 s2 res). Qed.
Print Assumptions C149_nan_refuted.
Theorem C149_nan_limits s1 s2 v1 v2 res :
  let off := Some (nan64, nan64) in
  check_measure64 true (mk_all_limits off off off off) s1 s2 (Some v1) (Some v2) res =
  check_measure64 true (mk_all_limits None None None None) s1 s2 (Some v1) (Some v2) res.
Proof. exact (nan_limits s1 s2 v1 v2 res _ _ _ _ eq_refl eq_refl eq_refl eq_refl). Qed.
Print Assumptions C149_nan_limits.

(** The setters that refuse values [<= 0] keep exactly the positive numbers, infinity and NaN; the quality multiplier is in the interval from 0
    (excluded) to 1, and never NaN. *)
Theorem C149_parameters x : (set_positive64 x = Ok x <-> x = nan64 \/ lt64 (B754_zero false) x = true) /\
  (set_quality64 x = Ok x <-> finite x /\ 0 < real_of x <= 1).
Proof. split; [apply positive_spec|apply quality_spec]. Qed.
Print Assumptions C149_parameters.
Theorem C149_parameters_error x e : set_positive64 x = Err e \/ set_quality64 x = Err e -> e = ValueError.
Proof. exact (setters_kind x e). Qed.
Print Assumptions C149_parameters_error.
Example C149_ex_parameters : set_positive64 zero64 = Err ValueError /\ set_positive64 nan64 = Ok nan64 /\ set_quality64 nan64 = Err ValueError.
Proof. vm_compute. auto. Qed.

Example C149_ex_nan : check_measure64 true gates64 [nan64; half64] [half64; nan64] (Some nan64) (Some zero64) (ResArray [100; 100]%Z) = Ok tt.
Proof. vm_compute. reflexivity. Qed.
Example C149_ex_inf : check_measure64 true gates64 [zero64; inf64] [zero64; half64] (Some zero64) (Some zero64) (ResArray [100; 100]%Z) = Err ValueError.
Proof. vm_compute. reflexivity. Qed.
Example C149_ex_good : check_measure64 true gates64 [minus_half64; half64] [zero64; half64] (Some zero64) (Some zero64) (ResArray [100; 100]%Z) = Ok tt.
Proof. vm_compute. reflexivity. Qed.
Example C149_ex_missing : check_measure64 true gates64 [nan64; nan64] [nan64; nan64] None None (ResInt 100%Z) = Err TypeError.
Proof. vm_compute. reflexivity. Qed.
Example C149_ex_scan : check_sensor_scan64 true gates64 [nan64; half64] [half64; nan64] (Some nan64) (Some nan64) (ResInt 100%Z) = Ok tt.
Proof. vm_compute. reflexivity. Qed.
Example C149_ex_params : set_positive64 nan64 = Ok nan64 /\ set_positive64 inf64 = Ok inf64 /\ set_positive64 (B754_zero true) = Err ValueError /\ set_positive64 minus_half64 = Err ValueError /\
  set_quality64 nan64 = Err ValueError /\ set_quality64 half64 = Ok half64 /\ set_quality64 one64 = Ok one64 /\ set_quality64 inf64 = Err ValueError.
Proof. repeat split; vm_compute; reflexivity. Qed.
