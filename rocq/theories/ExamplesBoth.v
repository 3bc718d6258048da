(** A concrete measurement with dot jumps along both plunger gates. *)
From Verif Require Import RPrelude Arr ModelSupport ModelTct ModelCsd ModelJumps ModelDistortions ModelSensor ModelSimulation ModelInstance
  ModelNoise SpecSupport SpecTct SpecCsd SpecInstance SpecNoise SpecBoth ProofsNoise ProofsReplay ExamplesNoise.
Local Open Scope R_scope.

(** The occupations are the two voltages themselves. *)
Definition plane (v1 v2 : R) : R * R := (v1, v2).
Definition plane_data : generator (noise_world unit) lead_mask :=
  fun l1 l2 res w =>
    (match res with
     | ResInt n => Ok (Occ1 (mk_arr1 (Z.to_nat n) (fun i => plane (pixel_voltage l1 (Z.to_nat n) i) (pixel_voltage l2 (Z.to_nat n) i))), Lead1 (repeat 0%nat (Z.to_nat n)))
     | ResArray [c; r] => Ok (Occ2 (mk_arr2 (Z.to_nat r) (Z.to_nat c) (fun i j => plane (pixel_voltage l1 (Z.to_nat c) j) (pixel_voltage l2 (Z.to_nat r) i))), Lead2 (mk_arr2 (Z.to_nat r) (Z.to_nat c) (fun _ _ => 0%nat)))
     | _ => Err ValueError
     end, w).
Lemma plane_undistorted : undistorted plane_data.
Proof. intros l1 l2 res w. split; reflexivity. Qed.
Lemma plane_samples : samples_2d plane plane_data.
Proof.
  intros l1 l2 c r w _ _ _ _. do 2 eexists. split; [reflexivity|]. cbn [rows cols cell]. rewrite !Nat2Z.id. repeat split.
Qed.
Lemma plane_lines : answers_lines plane_data.
Proof.
  intros l1 l2 n w _ _ _. do 2 eexists. split; [reflexivity|]. cbn [len1]. rewrite !Nat2Z.id. split; [reflexivity|apply repeat_length].
Qed.
Definition jumps_g1 : occ_noise unit := Jumps 0 1 1 (fixed_param 1) (fixed_param 1).
Definition jumps_g2 : occ_noise unit := Jumps 1 0 1 (fixed_param 1) (fixed_param 1).
(** After a call that succeeded, the object keeps one jump of two pixels, and the shape is the same. *)
Lemma demo_state k axis ks (gen : generator (noise_world unit) lead_mask) o t l1 l2 w ab w1 : (axis = 0 \/ axis = 1)%Z -> reads ks gen -> rows o = 3%nat -> cols o = 3%nat ->
  od_noise (occ_object demo_src (Jumps k axis 1 (fixed_param 1) (fixed_param 1))) (Occ2 o) (Lead2 t) l1 l2 gen false w = (Ok ab, w1) ->
  w_jump w1 = set_key (w_jump w) k (mk_jump_state (Some true) (Some [0; 2; 0]%nat)) /\
  exists o' t', fst ab = (Occ2 o', Lead2 t') /\ rows o' = 3%nat /\ cols o' = 3%nat.
Proof.
  intros Ax Rd Ro Co. cbn [occ_object jumps_object od_noise jump_scan scan_shape]. unfold jump_draw. cbn [andb demo_src src_binomial negb fixed_param].
  change (rows (amap2 lift_occ o)) with (rows o). change (cols (amap2 lift_occ o)) with (cols o). rewrite Ro, Co.
  destruct (jump_px_per_volt _ _ _ _) as [kk|]; [|discriminate]. cbn [bind].
  replace (jump_size axis (Shape2 3 3)) with (@Ok nat 3%nat) by (destruct Ax as [-> | ->]; reflexivity). cbn [bind].
  set (gd := generate_dot_jumps_blockwise _ _ _ _ _). assert (gd = ([0; 2; 0]%nat, tt)) as -> by reflexivity. unfold mbind.
  match goal with |- context [run_calls gen ?cs ?ww] => pose proof (proj2 (run_calls_same ks gen Rd cs ww ww (agree_refl ks ww))) as Sm; destruct (run_calls gen cs ww) as [[u|] w3] end; [|discriminate].
  rewrite (Sm u w3 eq_refl). destruct (jump_apply _ _ _ _ _ _ _ _ _ _) as [s'|] eqn:Ea; [|discriminate]. cbn [bind]. intros E. injection E as <- <-. split; [reflexivity|].
  apply jump_apply_shape in Ea. cbn [scan_shape amap2 rows cols] in Ea. rewrite Ro, Co in Ea. destruct s' as [s1 s1'|o' t']; [discriminate Ea|]. cbn [scan_shape] in Ea. injection Ea as Er Ec.
  cbn [fst scan_jump]. destruct t' as [t'|]; do 2 eexists; (split; [reflexivity|]); split; assumption.
Qed.
Lemma demo_both : forall ol ol' w', plane_data (0, 3) (0, 6) (ResArray [3; 3]%Z) fresh_world = (Ok ol, fresh_world) ->
  occupation_loop (map (occ_object demo_src) [jumps_g1; jumps_g2]) plane_data (0, 3) (0, 6) ol fresh_world = (Ok ol', w') ->
  w_jump w' 0%nat = mk_jump_state (Some true) (Some [0; 2; 0]%nat) /\ w_jump w' 1%nat = mk_jump_state (Some true) (Some [0; 2; 0]%nat).
Proof.
  intros ol ol' w' E Lp. injection E as <-. cbn [map occupation_loop] in Lp. unfold mbind in Lp. cbn [fst snd] in Lp.
  destruct (od_noise _ _ _ _ _ _ _ _) as [[ab|] w1] eqn:E1 in Lp; [|discriminate].
  pose proof (undistorted_reads plane_data plane_undistorted) as Rd.
  pose proof (fun A B => demo_state 0 1 [] plane_data _ _ _ _ _ _ _ (or_intror eq_refl) Rd A B E1) as D.
  destruct (D eq_refl eq_refl) as (S1 & o' & t' & Eo & Ro & Co). rewrite Eo in Lp. cbn [fst snd] in Lp.
  destruct (od_noise _ _ _ _ _ _ _ _) as [[cd|] w2] eqn:E2 in Lp; [|discriminate]. unfold ret in Lp. injection Lp as _ <-.
  assert (Rd1 : reads [0%nat] (with_noise plane_data (occ_object demo_src jumps_g1))) by (apply (with_noise_reads demo_src jumps_g1 [] plane_data Rd)).
  destruct (demo_state 1 0 [0%nat] _ _ _ _ _ _ _ _ (or_introl eq_refl) Rd1 Ro Co E2) as (S2 & _).
  rewrite S2, S1. split; reflexivity.
Qed.
