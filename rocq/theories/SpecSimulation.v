(** What measure and measure_sensor_scan promise: which requests are valid, and in which order the
    objects of a simulation act on which data. Independent of the loops of the model. *)
From Verif Require Import RPrelude Arr ModelCsd ModelSensor ModelSimulation.
Local Open Scope R_scope.

Section Spec.
Context {W L I K : Type}.
Notation config := (config W L I K).
Notation occ_distortion := (occ_distortion W L).
Notation generator := (generator W L).

Definition within_limits (lims : option (R * R)) (x : R) : Prop :=
  match lims with None => True | Some (lo, hi) => lo <= x <= hi end.

(** The documented preconditions of measure. *)
Record valid_request (c : config) (s1 s2 : list R) (v1 v2 : option R) (res : resolution) : Prop := {
  vr_csd : ideal_csd_config c <> None;
  vr_pair1 : length s1 = 2%nat;
  vr_pair2 : length s2 = 2%nat;
  vr_limits1 : Forall (within_limits (volt_limits_g1 c)) s1;
  vr_limits2 : Forall (within_limits (volt_limits_g2 c)) s2;
  vr_sensor1 : forall x, v1 = Some x -> within_limits (volt_limits_sensor_g1 c) x;
  vr_sensor2 : forall x, v2 = Some x -> within_limits (volt_limits_sensor_g2 c) x;
  vr_both : v1 = None <-> v2 = None;
  vr_axes : forall l, res = ResArray l -> (length l <= 2)%nat;
  vr_2d : forall m n, res = ResArray [m; n] -> NoDup s1 /\ NoDup s2 /\ (1 < m)%Z /\ (1 < n)%Z }.
(** Limits for a sensor gate are configured, but no voltage is given for it. *)
Definition sensor_voltage_missing (c : config) (v1 v2 : option R) : Prop :=
  (volt_limits_sensor_g1 c <> None /\ v1 = None) \/ (volt_limits_sensor_g2 c <> None /\ v2 = None).

(** The documented preconditions of measure_sensor_scan. *)
Record valid_scan (c : config) (s1 s2 : list R) (v1 v2 : option R) (res : resolution) : Prop := {
  vs_sensor : so_scan (sensor c) = true;
  vs_pair1 : length s1 = 2%nat;
  vs_pair2 : length s2 = 2%nat;
  vs_limits1 : Forall (within_limits (volt_limits_sensor_g1 c)) s1;
  vs_limits2 : Forall (within_limits (volt_limits_sensor_g2 c)) s2;
  vs_volt1 : forall x, v1 = Some x -> within_limits (volt_limits_g1 c) x;
  vs_volt2 : forall x, v2 = Some x -> within_limits (volt_limits_g2 c) x;
  vs_both : v1 = None <-> v2 = None;
  vs_axes : forall l, res = ResArray l -> (length l <= 2)%nat;
  vs_2d : forall m n, res = ResArray [m; n] -> NoDup s1 /\ NoDup s2 /\ (1 < m)%Z /\ (1 < n)%Z }.

(** No object raises. *)
Definition total {A} (m : action W A) : Prop := forall w, exists a w', m w = (Ok a, w').
Record objects_total (c : config) : Prop := {
  ot_gen : forall g, ideal_csd_config c = Some g -> forall l1 l2 r, total (g l1 l2 r);
  ot_occ : forall d, In d (opt_list (occupation_distortions c)) ->
             forall o l l1 l2 g b, total (od_noise d o l l1 l2 g b);
  ot_pot : forall d, In d (opt_list (sensor_potential_distortions c)) -> forall x l1 l2, total (d x l1 l2);
  ot_res : forall d, In d (opt_list (sensor_response_distortions c)) -> forall x l1 l2, total (d x l1 l2);
  ot_potential : forall o v1 v2 s, total (so_potential (sensor c) o v1 v2 s);
  ot_response : forall p, total (so_response (sensor c) p);
  ot_labels : forall v1 v2 s1 s2 p, total (so_labels (sensor c) v1 v2 s1 s2 p) }.

(** The elements of [ds] act one after the other, each on what its predecessor left: [step k d] is
    what the k-th element does. *)
Definition in_order {A D} (step : nat -> D -> A -> W -> A -> W -> Prop) (ds : list D) (x : A) (w : W) (y : A) (w' : W) : Prop :=
  exists st : nat -> A * W, st 0%nat = (x, w) /\ st (length ds) = (y, w') /\
    forall k d, nth_error ds k = Some d -> step k d (fst (st k)) (snd (st k)) (fst (st (S k))) (snd (st (S k))).

(** The ideal generator followed by the (reversed) list of distortions, each frozen and given the
    generator of the ones before it. *)
Fixpoint replaying (gen : generator) (rds : list occ_distortion) : generator :=
  match rds with
  | [] => gen
  | d :: earlier => fun l1 l2 res w =>
      match replaying gen earlier l1 l2 res w with
      | (Ok ol, w1) =>
          match od_noise d (fst ol) (snd ol) l1 l2 (replaying gen earlier) true w1 with
          | (Ok r, w2) => (Ok (fst r), w2)
          | (Err e, w2) => (Err e, w2)
          end
      | (Err e, w1) => (Err e, w1)
      end
  end.
Definition generator_with (gen : generator) (ds : list occ_distortion) : generator := replaying gen (rev ds).

(** One distortion acting in place; [ds] is the whole list. *)
Definition acts_in_place (gen : generator) (ds : list occ_distortion) (l1 l2 : R * R) (freeze : bool)
  (k : nat) (d : occ_distortion) (ol : occupation * L) (w : W) (ol' : occupation * L) (w' : W) : Prop :=
  exists returned, od_noise d (fst ol) (snd ol) l1 l2 (generator_with gen (firstn k ds)) freeze w = (Ok (ol', returned), w').
Definition image_step (l1 l2 : R * R) (k : nat) (d : img_distortion W I) (x : I) (w : W) (y : I) (w' : W) : Prop :=
  d x l1 l2 w = (Ok y, w').
(** One distortion acting on several potentials, from the first to the last. *)
Definition images_step (l1 l2 : R * R) (k : nat) (d : img_distortion W I) (xs : list I) (w : W) (ys : list I) (w' : W) : Prop :=
  length ys = length xs /\
  exists ws : nat -> W, ws 0%nat = w /\ ws (length xs) = w' /\
    forall i x y, nth_error xs i = Some x -> nth_error ys i = Some y -> d x l1 l2 (ws i) = (Ok y, ws (S i)).
Definition potential_distorted (ds : list (img_distortion W I)) (l1 l2 : R * R) (occ : occupation)
  (p : potential I) (w : W) (p' : potential I) (w' : W) : Prop :=
  match occ, p with
  | OccOther, _ | _, PotOther _ => p' = p /\ w' = w
  | _, PotOne x => exists y, p' = PotOne y /\ in_order (image_step l1 l2) ds x w y w'
  | _, PotMany xs => exists ys, p' = PotMany ys /\ in_order (images_step l1 l2) ds xs w ys w'
  end.

Definition given_to_sensor (v : option R) : volts := match v with None => VNone | Some x => VFix x end.
Definition swept (s : R * R) : volts := VSweep (fst s) (snd s).
Definition the_list {A} (o : option (list A)) : list A := match o with None => [] | Some l => l end.

(** measure returns [m]: ideal data, occupation distortions, potential, potential distortions,
    response, response distortions. *)
Definition measured (c : config) (gen : generator) (l1 l2 : R * R) (v1 v2 : option R) (res : resolution)
  (w : W) (m : @measurement W L I K) (w' : W) : Prop :=
  exists ideal w1 w2 p w3 p' w4 r w5,
    gen l1 l2 res w = (Ok ideal, w1) /\
    in_order (acts_in_place gen (the_list (occupation_distortions c)) l1 l2 false)
      (the_list (occupation_distortions c)) ideal w1 (m_occ m, m_lead m) w2 /\
    so_potential (sensor c) (m_occ m) (swept l1) (swept l2)
      (if so_scan (sensor c) then Some (given_to_sensor v1, given_to_sensor v2) else None) w2 = (Ok p, w3) /\
    potential_distorted (the_list (sensor_potential_distortions c)) l1 l2 (m_occ m) p w3 p' w4 /\
    so_response (sensor c) p' w4 = (Ok r, w5) /\
    in_order (image_step l1 l2) (the_list (sensor_response_distortions c)) r w5 (m_csd m) w' /\
    m_meta m = mk_metadata l1 l2 v1 v2 res c w'.

(** The same occupation in every pixel of a scan with the given resolution. *)
Definition constant_scan (res : resolution) (o : R * R) (occ : occupation) : Prop :=
  match res with
  | ResInt n | ResArray [n] => (0 <= n)%Z /\ exists a, occ = Occ1 a /\ Z.of_nat (len1 a) = n /\ forall i, (i < len1 a)%nat -> cell1 a i = o
  | ResArray [n; m] => (0 <= n)%Z /\ (0 <= m)%Z /\
      exists a, occ = Occ2 a /\ Z.of_nat (rows a) = m /\ Z.of_nat (cols a) = n /\ forall i j, (i < rows a)%nat -> (j < cols a)%nat -> cell a i j = o
  | ResArray _ => False
  end.
(** The occupation of the dots at the plunger voltages; (0, 0) if it is not known. *)
Definition scan_occupation (c : config) (v1 v2 : option R) (w : W) (o : R * R) (w' : W) : Prop :=
  match ideal_csd_config c, v1, v2 with
  | Some gen, Some x1, Some x2 =>
      exists a l, gen (x1, x1) (x2, x2) (ResInt 1) w = (Ok (Occ1 a, l), w') /\ (0 < len1 a)%nat /\ o = cell1 a 0%nat
  | _, _, _ => o = (0, 0) /\ w' = w
  end.
Definition knows_occupation (c : config) (v1 v2 : option R) : Prop :=
  ideal_csd_config c <> None /\ v1 <> None /\ v2 <> None.
(** measure_sensor_scan returns [m]; [r1] and [r2] are the ranges given to the response distortions. *)
Definition scanned (c : config) (l1 l2 r1 r2 : R * R) (v1 v2 : option R) (res : resolution)
  (w : W) (m : @sensor_scan W L I K) (w' : W) : Prop :=
  exists o w1 occ p w2 pu w3 w4 p' w5 r w6,
    scan_occupation c v1 v2 w o w1 /\ constant_scan res o occ /\
    so_potential (sensor c) occ (given_to_sensor v1) (given_to_sensor v2) (Some (swept l1, swept l2)) w1 = (Ok p, w2) /\
    so_potential (sensor c) occ (given_to_sensor v1) (given_to_sensor v2) (Some (swept l1, swept l2)) w2 = (Ok pu, w3) /\
    so_labels (sensor c) (given_to_sensor v1) (given_to_sensor v2) (swept l1) (swept l2) pu w3 = (Ok (sc_labels m), w4) /\
    potential_distorted (the_list (sensor_potential_distortions c)) l1 l2 occ p w4 p' w5 /\
    so_response (sensor c) p' w5 = (Ok r, w6) /\
    in_order (image_step r1 r2) (the_list (sensor_response_distortions c)) r w6 (sc_scan m) w' /\
    sc_meta m = mk_metadata l1 l2 v1 v2 (match res with ResArray [n] => ResInt n | _ => res end) c w'.
(** Resolutions for which measure_sensor_scan does not fail on its own. *)
Definition plain_resolution (c : config) (v1 v2 : option R) (res : resolution) : Prop :=
  match res with
  | ResInt _ => ~ knows_occupation c v1 v2
  | ResArray [_] => knows_occupation c v1 v2
  | ResArray l => length l = 2%nat
  end.
(** Every point of the ideal data yields an occupation. *)
Definition point_data (c : config) : Prop :=
  forall gen x1 x2 w r w', ideal_csd_config c = Some gen -> gen (x1, x1) (x2, x2) (ResInt 1) w = (Ok r, w') ->
    exists a, fst r = Occ1 a /\ (0 < len1 a)%nat.
Definition nonnegative (res : resolution) : Prop :=
  match res with ResInt n => (0 <= n)%Z | ResArray l => Forall (fun n => (0 <= n)%Z) l end.
(** Distortions that do not depend on the state, the frozen flag or their generator. *)
Definition pure_noise (d : occ_distortion) (f : occupation * L -> R * R -> R * R -> occupation * L) : Prop :=
  forall o l l1 l2 g b w, exists returned, od_noise d o l l1 l2 g b w = (Ok (f (o, l) l1 l2, returned), w).
End Spec.
