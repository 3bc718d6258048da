(** A concrete measurement with two dot jump objects along the same plunger gate. *)
From Verif Require Import RPrelude Arr ModelSupport ModelTct ModelCsd ModelJumps ModelDistortions ModelSensor ModelSimulation ModelInstance
  ModelNoise SpecSupport SpecTct SpecCsd SpecInstance SpecNoise SpecBoth ProofsNoise ProofsReplay ProofsBoth ProofsSame ExamplesNoise ExamplesBoth.
Local Open Scope R_scope.

(** Like demo_src, with jumps of [h] pixels. *)
Definition jump_src (h : nat) : sources unit :=
  mk_sources (fun _ _ => (true, tt)) (fun _ n _ => (repeat 1%nat n, tt)) (fun _ _ => (h, tt)) (fun _ _ _ => (1, tt))
             (fun n _ => (repeat 1 n, tt)) (fun n _ _ => (repeat 1 n, tt)) (fun _ _ => None).
Lemma jump_src_ok h : sources_ok (jump_src h).
Proof.
  split; [|split].
  - intros p n g. cbn. split; [apply repeat_length|]. intros l Hl. apply repeat_spec in Hl. lia.
  - intros n g. apply repeat_length.
  - intros n f g. apply repeat_length.
Qed.
Definition first_jumps : occ_noise unit := Jumps 0 1 1 (fixed_param 1) (fixed_param 1).
Definition more_jumps : occ_noise unit := Jumps 1 1 1 (fixed_param 1) (fixed_param 1).
Lemma jump_src_state h k (gen : generator (noise_world unit) lead_mask) o t l1 l2 w res w1 : (h < 256)%nat -> keeps gen -> cols o = 2%nat -> fst l1 < snd l1 ->
  od_noise (occ_object (jump_src h) (Jumps k 1 1 (fixed_param 1) (fixed_param 1))) (Occ2 o) (Lead2 t) l1 l2 gen false w = (res, w1) ->
  w_jump w1 = set_key (w_jump w) k (mk_jump_state (Some true) (Some [0; h]%nat)) /\
  forall ab, res = Ok ab -> exists o' t', fst ab = (Occ2 o', Lead2 t') /\ cols o' = 2%nat.
Proof.
  intros Hh Kp Co H1. cbn [occ_object jumps_object od_noise jump_scan scan_shape]. unfold jump_draw. cbn [andb jump_src src_binomial negb fixed_param].
  change (rows (amap2 lift_occ o)) with (rows o). change (cols (amap2 lift_occ o)) with (cols o). rewrite Co.
  cbn [jump_px_per_volt Z.eqb Pos.eqb]. unfold div_range, volt_range. rewrite Reqb_false by (rewrite Rmax_right, Rmin_left by lra; lra). cbn [bind jump_size Z.eqb Pos.eqb].
  set (gd := generate_dot_jumps_blockwise _ _ _ _ _). assert (gd = ([uint8 0; uint8 h]%nat, tt)) as -> by reflexivity.
  unfold uint8. rewrite !Nat.mod_small by lia. unfold mbind.
  match goal with |- context [run_calls gen ?cs ?ww] => pose proof (run_calls_keeps gen cs ww Kp) as Sm; destruct (run_calls gen cs ww) as [[u|] w3] end; cbn [snd] in Sm; subst w3.
  2: { intros E. injection E as <- <-. split; [reflexivity|discriminate]. }
  destruct (jump_apply _ _ _ _ _ _ _ _ _ _) as [s'|] eqn:Ea; cbn [bind]; intros E; injection E as <- <-; (split; [reflexivity|]); [|discriminate].
  intros ab E. injection E as <-.
  apply jump_apply_shape in Ea. cbn [scan_shape amap2 rows cols] in Ea. rewrite Co in Ea. destruct s' as [s1 s1'|o' t']; [discriminate Ea|]. cbn [scan_shape] in Ea. injection Ea as Er Ec.
  cbn [fst scan_jump]. destruct t' as [t'|]; do 2 eexists; (split; [reflexivity|]); assumption.
Qed.
Lemma plane_keeps : keeps plane_data.
Proof. intros l1 l2 res w. reflexivity. Qed.
(** Both objects are active, with jumps of [h] pixels in the second of two columns. *)
Lemma both_active h r ol res w' : (h < 256)%nat -> (1 < r)%nat -> plane_data (0, 2) (0, 2) (ResArray [2%Z; Z.of_nat r]) fresh_world = (Ok ol, fresh_world) ->
  occupation_loop (map (occ_object (jump_src h)) [first_jumps; more_jumps]) plane_data (0, 2) (0, 2) ol fresh_world = (res, w') ->
  w_jump w' 0%nat = mk_jump_state (Some true) (Some [0; h]%nat) /\ w_jump w' 1%nat = mk_jump_state (Some true) (Some [0; h]%nat).
Proof.
  intros Hh Hr E Lp. injection E as <-. cbn [map occupation_loop] in Lp. unfold mbind in Lp. cbn [fst snd] in Lp.
  destruct (od_noise _ _ _ _ _ _ _ _) as [ra w1] eqn:E1 in Lp.
  pose proof (fun A B => jump_src_state h 0 plane_data _ _ _ _ _ _ _ Hh plane_keeps A B E1) as D.
  destruct (D eq_refl ltac:(cbn; lra)) as (S1 & Q). destruct ra as [ab|e].
  2: { exfalso. destruct (loop_1_0 (jump_src h) 0 1 1 (fixed_param 1) (fixed_param 1) 1 (fixed_param 1) (fixed_param 1) plane plane_data fresh_world (0, 2) (0, 2) 2 r
      (jump_src_ok h) plane_undistorted plane_samples plane_lines) as (ol & ol' & w'' & Eo & Lq & _); [lia|cbn; lra|cbn; lra|lia|lia|].
    injection Eo as <-. cbn [map occupation_loop] in Lq. unfold mbind in Lq. cbn [fst snd] in Lq.
    change (occ_object (jump_src h) (Jumps 0 1 1 (fixed_param 1) (fixed_param 1))) with (occ_object (jump_src h) first_jumps) in Lq. rewrite E1 in Lq. discriminate Lq. }
  destruct (Q ab eq_refl) as (o' & t' & Eo & Co). rewrite Eo in Lp. cbn [fst snd] in Lp.
  destruct (od_noise _ _ _ _ _ _ _ _) as [cd w2] eqn:E2 in Lp.
  pose proof (fun A => jump_src_state h 1 _ _ _ _ _ _ _ _ Hh (with_noise_keeps (jump_src h) 0 1 1 (fixed_param 1) (fixed_param 1) plane_data plane_keeps) Co A E2) as D2.
  destruct (D2 ltac:(cbn; lra)) as (S2 & _).
  assert (w' = w2) as ->. { destruct cd as [x|e]; unfold ret in Lp; injection Lp as _ <-; reflexivity. }
  rewrite S2, S1. split; reflexivity.
Qed.
