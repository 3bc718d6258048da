(** The simulation with SensorScanSensorGeneric as sensor: the world is what the sensor remembers of the
    latest sensor_potential call (attributes _volt_limits_* and _occupations; None before the first
    call). The peak list is part of the sensor, since every response restores it (C34). If
    sensor_potential raises, the remembered values are left as they are (in the code they may already be
    overwritten; nothing is measured in this case). *)
From Verif Require Import RPrelude Arr ModelSupport ModelTct ModelCsd ModelDistortions ModelSensor ModelSimulation ModelInstance.
Local Open Scope R_scope.

(** The array of shape (3, ...) as list of its three images and back; images of different shapes cannot
    be assigned to the array (line 530; broadcasting is left out). *)
Definition split_potentials (p : potentials) : list image :=
  match p with
  | Pot1 a => [Img1 (amap1 at_sensor a); Img1 (amap1 at_barrier1 a); Img1 (amap1 at_barrier2 a)]
  | Pot2 a => [Img2 (amap2 at_sensor a); Img2 (amap2 at_barrier1 a); Img2 (amap2 at_barrier2 a)]
  end.
Definition join_potentials (l : list image) : result potentials :=
  match l with
  | [Img1 a; Img1 b; Img1 c] =>
      raise_if (negb ((len1 a =? len1 b) && (len1 a =? len1 c))%nat) ValueError
      (Ok (Pot1 (mk_arr1 (len1 a) (fun i => mk_three (cell1 a i) (cell1 b i) (cell1 c i)))))
  | [Img2 a; Img2 b; Img2 c] =>
      raise_if (negb ((rows a =? rows b) && (rows a =? rows c) && (cols a =? cols b) && (cols a =? cols c))%nat) ValueError
      (Ok (Pot2 (mk_arr2 (rows a) (cols a) (fun i j => mk_three (cell a i j) (cell b i j) (cell c i j)))))
  | _ => Err ValueError
  end.
Definition joined (p : potential image) : result potentials :=
  match p with PotMany l => join_potentials l | _ => Err ValueError end.

Definition scan_object (s : scan_sensor) : sensor_object (option hidden) image labels :=
  mk_sensor_object true
    (fun occ v1 v2 w st =>
       let '(w1, w2) := match w with Some x => x | None => (VNone, VNone) end in
       match scan_potential s occ v1 v2 w1 w2 with
       | Ok (p, h) => (Ok (PotMany (split_potentials p)), Some h)
       | Err e => (Err e, st)
       end)
    (fun p st =>
       match st with
       | None => (Err AttributeError, st)
       | Some h => match (let? q := joined p in scan_response s h q) with
                   | Ok (im, _, h') => (Ok im, Some h')
                   | Err e => (Err e, st)
                   end
       end)
    (fun v1 v2 w1 w2 p st =>
       match st with
       | None => (Err AttributeError, st)
       | Some h => match (let? q := joined p in get_sensor_scan_labels s h v1 v2 w1 w2 q) with
                   | Ok (L, h') => (Ok L, Some h')
                   | Err e => (Err e, st)
                   end
       end).

(** A simulation without distortions; [x] is the ideal CSD object, if there is one. *)
Definition scan_config (label : arr2 nat -> arr2 nat) (lim1 lim2 lims1 lims2 : option (R * R)) (x : option geometric) (s : scan_sensor)
  : config (option hidden) lead_mask image labels :=
  mk_config lim1 lim2 lims1 lims2 (option_map (get_csd_data label) x) (scan_object s) None None None.
