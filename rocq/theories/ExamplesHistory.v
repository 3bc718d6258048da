(** A simulation that has measured before. *)
From Verif Require Import RPrelude Arr ModelSupport ModelTct ModelCsd ModelJumps ModelDistortions ModelSensor ModelSimulation ModelInstance
  ModelNoise ModelDefault ModelDefaultNoise SpecCsd SpecDistortions SpecNoise SpecDefaultNoise SpecHistory ProofsLabel ProofsHistory ExamplesNoise ExamplesDefaultNoise.
Local Open Scope R_scope.

(** Blurring of width 5 was drawn, and jumps by 7 pixels in a diagram of two pixels. *)
Definition used_world : noise_world unit := mk_noise_world (fun _ => Some 5) (fun _ => mk_jump_state (Some true) (Some [7; 7]%nat)) tt.
Lemma used_whole_range :
  let c := default_noisy demo_src component_label gaussian_kernel gaussian_radius (fixed_param 0.00005) (fixed_param 0.001) in
  used_world <> fresh_world /\ exists m w m' w',
  measure c [-0.2; -0.087] [-0.2; -0.047] None None (ResArray [100; 100]%Z) fresh_world = (Ok m, w) /\
  measure c [-0.2; -0.087] [-0.2; -0.047] None None (ResArray [100; 100]%Z) used_world = (Ok m', w') /\
  m_csd m' = m_csd m /\ m_occ m' = m_occ m /\ m_lead m' = m_lead m.
Proof.
  intros c. split.
  - intros E. apply (f_equal (fun w => w_sigma w 0%nat)) in E. discriminate.
  - pose proof whole_range as H. fold c in H.
    pose proof (measure_twin demo_src component_label (Some limits_g1) (Some limits_g2) default_csd default_sensor_v1 (default_occupation gaussian_kernel gaussian_radius)
      (default_potential (fixed_param 0.00005)) (default_response (fixed_param 0.001)) [-0.2; -0.087] [-0.2; -0.047] None None (ResArray [100; 100]%Z) fresh_world used_world eq_refl) as T.
    cbv zeta in T. fold (default_noisy demo_src component_label gaussian_kernel gaussian_radius (fixed_param 0.00005) (fixed_param 0.001)) in T. fold c in T.
    destruct H as (m & im & w & H & _). rewrite H in T |- *.
    destruct (measure c _ _ _ _ _ used_world) as [[m'|e] w']; [|contradiction].
    destruct T as (T1 & T2 & T3 & _). exists m, w, m', w'. repeat split; auto.
Qed.
