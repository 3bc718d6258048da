(** The simulation with the distortion objects of the package plugged in: transition blurring and dot
    jumps as occupation distortions, pink, white and random telegraph noise as potential and response
    distortions, together with IdealCSDGeometric and SensorGeneric.

    The world of such a simulation are the attributes of the distortion objects and the random generators
    (one abstract state [G] for all of them). Occupation distortion objects are identified by numbers. *)
From Verif Require Import RPrelude Arr ModelSupport ModelTct ModelCsd ModelJumps ModelDistortions ModelSensor ModelSimulation ModelInstance.
Local Open Scope R_scope.

Section Noise.
Context {G : Type}.

(** Random numbers and library functions. *)
Record sources := mk_sources {
  src_binomial : R -> G -> bool * G;                      (* rng.binomial(1, ratio) *)
  src_geometric : R -> nat -> G -> list nat * G;          (* rng.geometric(p, size) *)
  src_poisson : R -> G -> nat * G;                        (* rng.poisson(lam) *)
  src_normal : R -> R -> G -> R * G;                      (* rng.normal(loc, scale) *)
  src_standard : nat -> G -> list R * G;                  (* standard normal draws *)
  src_powerlaw : nat -> R -> G -> list R * G;             (* cn.powerlaw_psd_gaussian *)
  src_empty : nat -> nat -> option R }.                   (* contents of np.empty *)
(** A number or a parameter sampler. *)
Definition param := G -> R * G.

(** SensorPotentialPinkNoise, SensorResponseWhiteNoise, SensorPotentialRTN and SensorResponseRTN; the two
    telegraph classes have the same code. *)
Inductive image_noise :=
| Pink (sigma : param) (fmin : R)
| White (sigma : param)
| Telegraph (ratio : R) (scale std height : param).
(** OccupationTransitionBlurringFermiDirac / Gaussian (which differ in the kernel) and
    OccupationDotJumps. *)
Inductive occ_noise :=
| Blur (key : nat) (sigma : param) (kernel : R -> Z -> R) (radius : R -> nat)
| Jumps (key : nat) (axis : Z) (ratio : R) (scale lam : param).
Definition key_of (d : occ_noise) : nat := match d with Blur k _ _ _ => k | Jumps k _ _ _ _ => k end.

(** latest_sigma of the blurring objects, activation and recorded noise of the jump objects, random
    generators *)
Record noise_world := mk_noise_world { w_sigma : nat -> option R; w_jump : nat -> jump_state; w_rng : G }.
Definition set_key {X} (f : nat -> X) (k : nat) (x : X) : nat -> X := fun i => if (i =? k)%nat then x else f i.

Variable src : sources.

(** ** Potential and response distortions *)
Definition image_noise_function (d : image_noise) (im : image) (l1 l2 : R * R) (g : G) : result (image * G) :=
  match d with
  | Pink sigma fmin =>
      let '(im', _, g') := pink_noise_function sigma (src_powerlaw src) im fmin g in Ok (im', g')
  | White sigma =>
      let? r := white_noise_function (src_standard src) sigma im g in Ok (fst (fst r), snd r)
  | Telegraph ratio scale std height =>
      let? r := rtn_noise_function (src_geometric src) (src_normal src) (src_binomial src ratio) scale std height im l1 l2 g in
      Ok (fst (fst r), snd r)
  end.
(** A number instead of an array has no shape (AttributeError). *)
Definition image_object (d : image_noise) : img_distortion noise_world response :=
  fun x l1 l2 w =>
    match x with
    | RNumber _ => (Err AttributeError, w)
    | RImage im =>
        match image_noise_function d im l1 l2 (w_rng w) with
        | Ok (im', g') => (Ok (RImage im'), mk_noise_world (w_sigma w) (w_jump w) g')
        | Err e => (Err e, w)
        end
    end.

(** ** Occupation distortions *)
(** The lead transitions are not touched by the blurring. *)
Definition occ_scan (occ : occupation) : option (scan R) :=
  match occ with Occ1 a => Some (Scan1 a None) | Occ2 a => Some (Scan2 a None) | OccOther => None end.
Definition occ_part (s : scan R) : occupation := match s with Scan1 a _ => Occ1 a | Scan2 a _ => Occ2 a end.
(** Other dimensions do not occur with geometric ideal data and are left out (ValueError). *)
Definition blur_object (k : nat) (sigma : param) (kernel : R -> Z -> R) (radius : R -> nat) : occ_distortion noise_world lead_mask :=
  mk_occ_distortion (fun occ lead l1 l2 _ freeze w =>
    match occ_scan occ with
    | None => (Err ValueError, w)
    | Some s =>
        match blur_noise_function sigma kernel radius freeze (w_sigma w k) (w_rng w) s l1 l2 with
        | Ok (s', st, g') => (Ok ((occ_part s', lead), (occ_part s', lead)), mk_noise_world (set_key (w_sigma w) k st) (w_jump w) g')
        | Err e => (Err e, w)
        end
    end).

(** Arrays with NaN entries ([None]) for the dot jumps; the lead transitions are numbers, too. *)
Definition lift_occ (o : R * R) : option R * option R := (Some (fst o), Some (snd o)).
Definition jump_scan (occ : occupation) (lead : lead_mask) : option (scan (option R)) :=
  match occ, lead with
  | Occ1 a, Lead1 l => Some (Scan1 (amap1 lift_occ a) (Some (amap1 (fun n => Some (INR n)) (of_list1 0%nat l))))
  | Occ2 a, Lead2 l => Some (Scan2 (amap2 lift_occ a) (Some (amap2 (fun n => Some (INR n)) l)))
  | _, _ => None
  end.
(** Back to numbers: remaining NaN entries are left out (0); lead labels are cut to integers. *)
Definition number (x : option R) : R := match x with Some v => v | None => 0 end.
Definition drop_occ (o : option R * option R) : R * R := (number (fst o), number (snd o)).
Definition drop_lead (x : option R) : nat := Z.to_nat (Int_part (number x)).
Definition scan_jump (s : scan (option R)) (lead : lead_mask) : occupation * lead_mask :=
  match s with
  | Scan1 a l => (Occ1 (amap1 drop_occ a), match l with Some t => Lead1 (to_list1 (amap1 drop_lead t)) | None => lead end)
  | Scan2 a l => (Occ2 (amap2 drop_occ a), match l with Some t => Lead2 (amap2 drop_lead t) | None => lead end)
  end.

(** What the (pure) calls of generate_csd return in the world [w]; only used after the calls have
    succeeded with arrays of the requested dimension. *)
Definition generated1 (gen : generator noise_world lead_mask) (w : noise_world) (l1 l2 : limits) (n : nat)
  : arr1 (option R * option R) * arr1 (option R) :=
  match fst (gen l1 l2 (ResInt (Z.of_nat n)) w) with
  | Ok (occ, lead) => match jump_scan occ lead with Some (Scan1 o (Some t)) => (o, t) | _ => (mk_arr1 0 (fun _ => (None, None)), mk_arr1 0 (fun _ => None)) end
  | Err _ => (mk_arr1 0 (fun _ => (None, None)), mk_arr1 0 (fun _ => None))
  end.
Definition generated2 (gen : generator noise_world lead_mask) (w : noise_world) (l1 l2 : limits) (res : nat * nat)
  : arr2 (option R * option R) * arr2 (option R) :=
  match fst (gen l1 l2 (ResArray [Z.of_nat (fst res); Z.of_nat (snd res)]) w) with
  | Ok (occ, lead) => match jump_scan occ lead with Some (Scan2 o (Some t)) => (o, t) | _ => (mk_arr2 0 0 (fun _ _ => (None, None)), mk_arr2 0 0 (fun _ _ => None)) end
  | Err _ => (mk_arr2 0 0 (fun _ _ => (None, None)), mk_arr2 0 0 (fun _ _ => None))
  end.

(** The calls of generate_csd for a noise, in order (_dot_jumps.py:318-355, 464-494); limits sorted. *)
Definition jump_calls (axis : Z) (noise : list nat) (sh : shape) (lim1 lim2 : limits) : list (limits * limits * resolution) :=
  let m := list_max noise in
  let l1 := sort_limits lim1 in
  let l2 := sort_limits lim2 in
  if (0 <? m)%nat then
    match sh with
    | Shape1 n =>
        let step := (snd l1 - fst l1) / INR n in
        if (axis =? 1)%Z then map (fun i => (shifted_limits l1 (i + 1) step, l2, ResInt (Z.of_nat n))) (seq 0 m)
        else if (axis =? 0)%Z then map (fun i => (l1, shifted_limits l2 (i + 1) step, ResInt (Z.of_nat n))) (seq 0 m)
        else []
    | Shape2 r c =>
        if (axis =? 1)%Z then
          let step := (snd l1 - fst l1) / INR c in
          [((fst l1 - INR m * step, fst l1 - step), l2,
            if (1 <? m)%nat then ResArray [Z.of_nat m; Z.of_nat r] else ResInt (Z.of_nat r))]
        else if (axis =? 0)%Z then
          let step := (snd l2 - fst l2) / INR r in
          [(l1, (fst l2 - INR m * step, fst l2 - step),
            if (1 <? m)%nat then ResArray [Z.of_nat c; Z.of_nat m] else ResInt (Z.of_nat c))]
        else []
    end
  else [].
Fixpoint run_calls (gen : generator noise_world lead_mask) (calls : list (limits * limits * resolution)) : action noise_world unit :=
  match calls with
  | [] => ret tt
  | (l1, l2, res) :: t => do _ <- gen l1 l2 res; run_calls gen t
  end.

(** The drawing part of OccupationDotJumps.noise_function (_dot_jumps.py:113-201, 310-314 / 458-462):
    the noise to be applied, or None if the distortion is not active. *)
Definition jump_draw (axis : Z) (ratio : R) (scale lam : param) (freeze : bool) (st : jump_state) (g : G)
    (sh : shape) (lim1 lim2 : limits) : result (option (list nat) * jump_state * G) :=
  let active := match js_activated st with Some true => true | _ => false end in
  if (freeze && negb active)%bool then Ok (None, st, g)
  else if freeze then
    match js_noise st with None => Err AttributeError | Some noise => Ok (Some noise, st, g) end
  else
    let '(act, g1) := src_binomial src ratio g in
    if negb act then Ok (None, mk_jump_state (Some false) (js_noise st), g1)
    else
      let '(scale_v, g2) := scale g1 in
      let '(lam_v, g3) := lam g2 in
      let? k := jump_px_per_volt axis sh lim1 lim2 in
      let scale := if Rltb (scale_v * k) 1 then 1 else scale_v * k in
      let? size := jump_size axis sh in
      let '(noise, g4) := generate_dot_jumps_blockwise (src_poisson src (lam_v * k)) false (src_geometric src (1 / scale)) size g3 in
      Ok (Some noise, mk_jump_state (Some true) (Some noise), g4).
Definition is_nan (x : option R) : bool := match x with None => true | Some _ => false end.
Definition jumps_object (k : nat) (axis : Z) (ratio : R) (scale lam : param) : occ_distortion noise_world lead_mask :=
  mk_occ_distortion (fun occ lead l1 l2 gen freeze w =>
    match jump_scan occ lead with
    | None => (Err ValueError, w)
    | Some s =>
        match jump_draw axis ratio scale lam freeze (w_jump w k) (w_rng w) (scan_shape s) l1 l2 with
        | Err e => (Err e, w)
        | Ok (noise, st, g') =>
            let w1 := mk_noise_world (w_sigma w) (set_key (w_jump w) k st) g' in
            match noise with
            | None => (Ok ((occ, lead), (occ, lead)), w1)
            | Some noise =>
               (do _ <- run_calls gen (jump_calls axis noise (scan_shape s) l1 l2);
                fun w2 => (let? s' := jump_apply is_nan None (src_empty src) true (generated1 gen w1) (generated2 gen w1) axis noise s l1 l2 in
                           Ok (scan_jump s' lead, scan_jump s' lead), w2)) w1
            end
        end
    end).
Definition occ_object (d : occ_noise) : occ_distortion noise_world lead_mask :=
  match d with
  | Blur k sigma kernel radius => blur_object k sigma kernel radius
  | Jumps k axis ratio scale lam => jumps_object k axis ratio scale lam
  end.

(** A simulation with distortions. *)
Definition noisy_config (label : arr2 nat -> arr2 nat) (lim1 lim2 : option (R * R)) (x : geometric) (s : generic_sensor)
    (occs : list occ_noise) (pots resps : list image_noise) : config noise_world lead_mask response unit :=
  mk_config lim1 lim2 None None (Some (get_csd_data label x)) (generic_object s)
    (Some (map occ_object occs)) (Some (map image_object pots)) (Some (map image_object resps)).
End Noise.
Arguments sources : clear implicits. Arguments image_noise : clear implicits. Arguments occ_noise : clear implicits.
Arguments noise_world : clear implicits. Arguments param : clear implicits.
