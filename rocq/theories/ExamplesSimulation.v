(** A small simulation whose objects note when they were called. *)
From Verif Require Import RPrelude Arr ModelCsd ModelSensor ModelSimulation SpecSimulation ProofsSimulation.
Local Open Scope R_scope.

Definition noting {A} (n : nat) (a : A) : action (list nat) A := fun w => (Ok a, w ++ [n]).
Definition ones : occupation := Occ1 (mk_arr1 3 (fun _ => (1, 1))).
Definition ex_generator : generator (list nat) nat := fun _ _ _ => noting 0 (ones, 0%nat).
(** notes 1, or 11 if frozen, and adds 1 to the mask *)
Definition ex_first : occ_distortion (list nat) nat :=
  mk_occ_distortion (fun o l _ _ _ freeze => noting (if freeze then 11 else 1)%nat ((o, l + 1)%nat, (o, l))).
(** generates data and adds ten times its mask *)
Definition ex_second : occ_distortion (list nat) nat :=
  mk_occ_distortion (fun o l l1 l2 g _ => do ol <- g l1 l2 (ResInt 1); noting 2 ((o, l + 10 * snd ol)%nat, (o, l))).
Definition ex_sensor (scan : bool) : sensor_object (list nat) nat nat :=
  mk_sensor_object scan (fun _ _ _ _ => noting 3 (PotOne 5%nat))
    (fun p => noting 4 (match p with PotOne x => 2 * x | _ => 0 end)%nat)
    (fun _ _ _ _ _ => noting 7 0%nat).
Definition ex_config (limits sensor_limits : option (R * R)) (scan : bool) : config (list nat) nat nat nat :=
  mk_config limits None sensor_limits None (Some ex_generator) (ex_sensor scan) (Some [ex_first; ex_second])
    (Some [fun x _ _ => noting 5 (x + 1)%nat]) (Some [fun x _ _ => noting 6 (x * x)%nat]).

Lemma ex_outside : forall w,
  measure (ex_config (Some (0, 1)) None false) [0; 2] [0; 1] None None (ResInt 3) w = (Err ValueError, w).
Proof.
  intros w. destruct (measure_invalid (ex_config (Some (0, 1)) None false) [0; 2] [0; 1] None None (ResInt 3) w) as (e & E & [->|[_ M]]).
  - intros V. pose proof (vr_limits1 _ _ _ _ _ _ V) as H. inversion H as [|? ? _ H1]; subst. inversion H1 as [|? ? H2 _]; subst.
    cbn in H2. lra.
  - exact E.
  - destruct M as [[M _]|[M _]]; cbn in M; congruence.
Qed.

(** A sensor scan with a response distortion that returns the ranges it is given. *)
Definition ranges_config : config unit nat ((R * R) * (R * R)) nat :=
  mk_config None None None None None
    (mk_sensor_object true (fun _ _ _ _ => ret (PotOne ((0, 0), (0, 0)))) (fun _ => ret ((0, 0), (0, 0))) (fun _ _ _ _ _ => ret 0%nat))
    None None (Some [fun _ r1 r2 => ret (r1, r2)]).
