(** Property C160: two dot jump distortions along the same plunger gate. *)
From Verif Require Import RPrelude Arr ModelSupport ModelTct ModelCsd ModelJumps ModelDistortions ModelSensor ModelSimulation ModelInstance
  ModelNoise SpecSupport SpecTct SpecCsd SpecInstance SpecNoise SpecBoth ProofsBoth ProofsSame ExamplesNoise ExamplesBoth ExamplesSame.
Local Open Scope R_scope.

Theorem C160_first_gate_partial {G} (src : sources G) ka kb ratio1 scale1 lam1 ratio2 scale2 lam2 f (gen : generator (noise_world G) lead_mask) w l1 l2 c r :
  sources_ok src -> undistorted gen -> samples_2d f gen -> answers_lines gen ->
  ka <> kb -> fst l1 < snd l1 -> fst l2 < snd l2 -> (1 < c)%nat -> (1 < r)%nat ->
  exists ol res w', gen l1 l2 (ResArray [Z.of_nat c; Z.of_nat r]) w = (Ok ol, w) /\
    occupation_loop (map (occ_object src) [Jumps ka 1 ratio1 scale1 lam1; Jumps kb 1 ratio2 scale2 lam2]) gen l1 l2 ol w = (res, w') /\
    (too_short (w_jump w' ka) (w_jump w' kb) c r -> res = Err IndexError) /\
    (~ too_short (w_jump w' ka) (w_jump w' kb) c r ->
     exists ol', res = Ok ol' /\ shows f (twice_displaced l1 c (height_of (w_jump w' ka)) (height_of (w_jump w' kb))) (pixel_voltage l2 r) r c ol').
Proof. exact (same_1 src ka kb ratio1 scale1 lam1 ratio2 scale2 lam2 f gen w l1 l2 c r). Qed.
Print Assumptions C160_first_gate_partial.

Theorem C160_second_gate_partial {G} (src : sources G) ka kb ratio1 scale1 lam1 ratio2 scale2 lam2 f (gen : generator (noise_world G) lead_mask) w l1 l2 c r :
  sources_ok src -> undistorted gen -> samples_2d f gen -> answers_lines gen ->
  ka <> kb -> fst l1 < snd l1 -> fst l2 < snd l2 -> (1 < c)%nat -> (1 < r)%nat ->
  exists ol res w', gen l1 l2 (ResArray [Z.of_nat c; Z.of_nat r]) w = (Ok ol, w) /\
    occupation_loop (map (occ_object src) [Jumps ka 0 ratio1 scale1 lam1; Jumps kb 0 ratio2 scale2 lam2]) gen l1 l2 ol w = (res, w') /\
    (too_short (w_jump w' ka) (w_jump w' kb) r c -> res = Err IndexError) /\
    (~ too_short (w_jump w' ka) (w_jump w' kb) r c ->
     exists ol', res = Ok ol' /\ shows f (pixel_voltage l1 c) (twice_displaced l2 r (height_of (w_jump w' ka)) (height_of (w_jump w' kb))) r c ol').
Proof. exact (same_0 src ka kb ratio1 scale1 lam1 ratio2 scale2 lam2 f gen w l1 l2 c r). Qed.
Print Assumptions C160_second_gate_partial.

(** Two pixels per axis, jumps of three pixels in the second column. *)
Theorem C160_high_refuted : exists ol w',
  plane_data (0, 2) (0, 2) (ResArray [2; 2]%Z) fresh_world = (Ok ol, fresh_world) /\
  occupation_loop (map (occ_object (jump_src 3)) [first_jumps; more_jumps]) plane_data (0, 2) (0, 2) ol fresh_world = (Err IndexError, w').
Proof.
  destruct (same_1 (jump_src 3) 0 1 1 (fixed_param 1) (fixed_param 1) 1 (fixed_param 1) (fixed_param 1) plane plane_data fresh_world (0, 2) (0, 2) 2 2
    (jump_src_ok 3) plane_undistorted plane_samples plane_lines) as (ol & res & w' & E & Lp & H & _); [lia|cbn; lra|cbn; lra|lia|lia|].
  destruct (both_active 3 2 ol res w' ltac:(lia) ltac:(lia) E Lp) as [J0 J1]. rewrite J0, J1 in H. exists ol, w'. split; [exact E|]. rewrite <- H; [exact Lp|].
  split; [reflexivity|]. left. cbn. lia.
Qed.
Print Assumptions C160_high_refuted.

(** Two columns and three rows, jumps of a single pixel in the second column. *)
Theorem C160_single_refuted : exists ol w',
  plane_data (0, 2) (0, 2) (ResArray [2; 3]%Z) fresh_world = (Ok ol, fresh_world) /\
  occupation_loop (map (occ_object (jump_src 1)) [first_jumps; more_jumps]) plane_data (0, 2) (0, 2) ol fresh_world = (Err IndexError, w').
Proof.
  destruct (same_1 (jump_src 1) 0 1 1 (fixed_param 1) (fixed_param 1) 1 (fixed_param 1) (fixed_param 1) plane plane_data fresh_world (0, 2) (0, 2) 2 3
    (jump_src_ok 1) plane_undistorted plane_samples plane_lines) as (ol & res & w' & E & Lp & H & _); [lia|cbn; lra|cbn; lra|lia|lia|].
  destruct (both_active 1 3 ol res w' ltac:(lia) ltac:(lia) E Lp) as [J0 J1]. rewrite J0, J1 in H. exists ol, w'. split; [exact E|]. rewrite <- H; [exact Lp|].
  split; [reflexivity|]. right. cbn. lia.
Qed.
Print Assumptions C160_single_refuted.

(** Jumps of two pixels in the second of two columns: the second column of the result shows the second column of the
    strip of two columns from -2 to -1, which the first object displaces like the second column of the scan. *)
Example C160_example : exists ol w' o t,
  plane_data (0, 2) (0, 2) (ResArray [2; 2]%Z) fresh_world = (Ok ol, fresh_world) /\
  occupation_loop (map (occ_object (jump_src 2)) [first_jumps; more_jumps]) plane_data (0, 2) (0, 2) ol fresh_world = (Ok (Occ2 o, Lead2 t), w') /\
  cell o 0 0 = (0, 0) /\ fst (cell o 0 1) = - (5 / 2).
Proof.
  destruct (same_1 (jump_src 2) 0 1 1 (fixed_param 1) (fixed_param 1) 1 (fixed_param 1) (fixed_param 1) plane plane_data fresh_world (0, 2) (0, 2) 2 2
    (jump_src_ok 2) plane_undistorted plane_samples plane_lines) as (ol & res & w' & E & Lp & _ & H); [lia|cbn; lra|cbn; lra|lia|lia|].
  destruct (both_active 2 2 ol res w' ltac:(lia) ltac:(lia) E Lp) as [J0 J1]. rewrite J0, J1 in H. destruct H as (ol' & -> & o & t & -> & _ & _ & _ & V).
  { unfold too_short, highest. cbn. lia. }
  exists ol, w', o, t. split; [exact E|]. split; [exact Lp|]. rewrite !V by lia. unfold plane, twice_displaced, displaced, height_of, highest, pixel_voltage. cbn. split; [f_equal; lra|field].
Qed.
