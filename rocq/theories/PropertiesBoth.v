(** Property C159: dot jumps along both plunger gates. *)
From Verif Require Import RPrelude Arr ModelSupport ModelTct ModelCsd ModelJumps ModelDistortions ModelSensor ModelSimulation ModelInstance
  ModelNoise SpecSupport SpecTct SpecCsd SpecInstance SpecNoise SpecBoth ProofsBoth ExamplesNoise ExamplesBoth.
Local Open Scope R_scope.

Theorem C159_first_gate_first {G} (src : sources G) k1 k0 ratio1 scale1 lam1 ratio0 scale0 lam0 f (gen : generator (noise_world G) lead_mask) w l1 l2 c r :
  sources_ok src -> undistorted gen -> samples_2d f gen -> answers_lines gen ->
  k1 <> k0 -> fst l1 < snd l1 -> fst l2 < snd l2 -> (1 < c)%nat -> (1 < r)%nat ->
  exists ol ol' w', gen l1 l2 (ResArray [Z.of_nat c; Z.of_nat r]) w = (Ok ol, w) /\
    occupation_loop (map (occ_object src) [Jumps k1 1 ratio1 scale1 lam1; Jumps k0 0 ratio0 scale0 lam0]) gen l1 l2 ol w = (Ok ol', w') /\
    shows f (fun j => displaced l1 c (height_of (w_jump w' k1) j) j) (fun i => displaced l2 r (height_of (w_jump w' k0) i) i) r c ol'.
Proof. exact (loop_1_0 src k1 k0 ratio1 scale1 lam1 ratio0 scale0 lam0 f gen w l1 l2 c r). Qed.
Print Assumptions C159_first_gate_first.

Theorem C159_second_gate_first {G} (src : sources G) k1 k0 ratio1 scale1 lam1 ratio0 scale0 lam0 f (gen : generator (noise_world G) lead_mask) w l1 l2 c r :
  sources_ok src -> undistorted gen -> samples_2d f gen -> answers_lines gen ->
  k1 <> k0 -> fst l1 < snd l1 -> fst l2 < snd l2 -> (1 < c)%nat -> (1 < r)%nat ->
  exists ol ol' w', gen l1 l2 (ResArray [Z.of_nat c; Z.of_nat r]) w = (Ok ol, w) /\
    occupation_loop (map (occ_object src) [Jumps k0 0 ratio0 scale0 lam0; Jumps k1 1 ratio1 scale1 lam1]) gen l1 l2 ol w = (Ok ol', w') /\
    shows f (fun j => displaced l1 c (height_of (w_jump w' k1) j) j) (fun i => displaced l2 r (height_of (w_jump w' k0) i) i) r c ol'.
Proof. exact (loop_0_1 src k1 k0 ratio1 scale1 lam1 ratio0 scale0 lam0 f gen w l1 l2 c r). Qed.
Print Assumptions C159_second_gate_first.

(** Jumps of two pixels in the second of three columns and of three rows: the pixel in the middle shows the
    voltages one pixel below the swept ranges. *)
Example C159_example : exists ol ol' w' o t,
  plane_data (0, 3) (0, 6) (ResArray [3; 3]%Z) fresh_world = (Ok ol, fresh_world) /\
  occupation_loop (map (occ_object demo_src) [jumps_g1; jumps_g2]) plane_data (0, 3) (0, 6) ol fresh_world = (Ok ol', w') /\
  w_jump w' 0 = mk_jump_state (Some true) (Some [0; 2; 0]%nat) /\ w_jump w' 1 = mk_jump_state (Some true) (Some [0; 2; 0]%nat) /\
  ol' = (Occ2 o, Lead2 t) /\ cell o 0 0 = (0, 0) /\ cell o 1 1 = (- (1), - (2)) /\ cell o 1 2 = (3, - (2)) /\ cell o 2 2 = (3, 6).
Proof.
  destruct (C159_first_gate_first demo_src 0 1 1 (fixed_param 1) (fixed_param 1) 1 (fixed_param 1) (fixed_param 1) plane plane_data fresh_world (0, 3) (0, 6) 3 3
    demo_src_ok plane_undistorted plane_samples plane_lines) as (ol & ol' & w' & E & Lp & Sh); [lia|cbn; lra|cbn; lra|lia|lia|].
  destruct (demo_both ol ol' w' E Lp) as [J0 J1]. destruct Sh as (o & t & -> & Ro & Co & _ & V).
  exists ol, (Occ2 o, Lead2 t), w', o, t. split; [exact E|]. split; [exact Lp|]. split; [exact J0|]. split; [exact J1|]. split; [reflexivity|].
  rewrite !V by lia. rewrite J0, J1. unfold plane, displaced, height_of, pixel_voltage. cbn.
  repeat split; f_equal; lra.
Qed.
