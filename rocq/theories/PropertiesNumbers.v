(** Property theorems about plunger voltages given as int or float. *)
From Verif Require Import RPrelude Arr ModelSupport ModelTct ModelCsd ModelDistortions ModelSensor ModelSimulation ModelInstance ModelScanInstance ModelNumbers
  ExamplesSensor ExamplesScanInstance ProofsLabel ProofsNumbers.
Local Open Scope R_scope.

(** C151: sensor scans with plunger voltages given as floats (or without) are those of the other properties. *)
Theorem C151_float_partial label lim1 lim2 lims1 lims2 x s s1 s2 t1 t2 res st :
  (forall n, t1 = Some n \/ t2 = Some n -> exists v, n = PyFloat v) ->
  let c := scan_config label lim1 lim2 lims1 lims2 x s in
  typed_sensor_scan c s s1 s2 t1 t2 res st = measure_sensor_scan c s1 s2 (option_map value t1) (option_map value t2) res st.
Proof.
  intros F c. rewrite (typed_float c s); [reflexivity|reflexivity|].
  destruct t1 as [n1|], t2 as [n2|]; cbn; try (destruct (F n1 ltac:(auto)) as [? ->]); try (destruct (F n2 ltac:(auto)) as [? ->]); reflexivity.
Qed.
Print Assumptions C151_float_partial.

(** If one of them is an int, every scan that is possible with the same voltages as floats raises ValueError. *)
Theorem C151_int_refuted label lim1 lim2 lims1 lims2 x s s1 s2 t1 t2 res st m st' :
  (exists z, t1 = Some (PyInt z) \/ t2 = Some (PyInt z)) ->
  let c := scan_config label lim1 lim2 lims1 lims2 x s in
  let float_of t := option_map (fun n => PyFloat (value n)) t in
  typed_sensor_scan c s s1 s2 (float_of t1) (float_of t2) res st = (Ok m, st') ->
  fst (typed_sensor_scan c s s1 s2 t1 t2 res st) = Err ValueError.
Proof.
  intros [z I] c float_of E. assert (Ev : forall t, option_map value (float_of t) = option_map value t) by (intros [n|]; reflexivity).
  rewrite (typed_float c s) in E; [|reflexivity|destruct t1, t2; reflexivity]. rewrite !Ev in E.
  apply (typed_int c s s1 s2 t1 t2 res st m st'); [reflexivity| |exact E].
  destruct I as [->| ->]; cbn; [reflexivity|]. destruct (none_or_float t1); reflexivity.
Qed.
Print Assumptions C151_int_refuted.

(** 0.0 V on both plunger gates works, 0 V does not. *)
Example C151_example : exists m st',
  let run n := typed_sensor_scan (scan_config component_label None None None None None (rising 1)) (rising 1) [0; 3] [0; 0] (Some n) (Some n) (ResInt 4) None in
  run (PyFloat 0) = (Ok m, st') /\ fst (run (PyInt 0)) = Err ValueError.
Proof.
  destruct (rising_measured 0) as (m & st' & E). exists m, st'. split.
  - rewrite C151_float_partial; [exact E|]. intros n [I|I]; injection I as <-; eexists; reflexivity.
  - apply (C151_int_refuted _ _ _ _ _ _ _ _ _ _ _ _ _ m st'); [exists 0%Z; auto|]. cbn [option_map value].
    rewrite C151_float_partial; [exact E|]. intros n [I|I]; injection I as <-; eexists; reflexivity.
Qed.
