(** Property theorems about ideal charge stability diagrams. *)
From Verif Require Import RPrelude Arr ModelSupport SpecSupport ModelTct SpecTct ModelCsd SpecCsd
  ProofsSupport ProofsTct ProofsCsd ProofsOcc ProofsRegions ProofsMask ProofsDriver ProofsFine ProofsScan ProofsLabel ExamplesCsd.
Local Open Scope R_scope.

(** C01: at every pixel of every scan the two occupations add up to the electron number assigned to
    the pixel. *)
Theorem C01_total_occupation label params l1 l2 res rot lut kind gf d a1 b1 a2 b2 v o lab :
  csd_config label params lut kind gf -> l1 = [a1; b1] -> l2 = [a2; b2] ->
  ideal_csd_geometric label params l1 l2 res rot lut kind gf = Ok d ->
  scan_pixel d (a1, b1) (a2, b2) v o lab ->
  exists n, (n < length params)%nat /\ assigned params lut rot d (a1, b1) (a2, b2) v lab n /\ fst o + snd o = INR n.
Proof. exact (scan_total label params l1 l2 res rot lut kind gf d a1 b1 a2 b2 v o lab). Qed.
Print Assumptions C01_total_occupation.

Example C01_example_1d : exists o o' l l',
  ideal_csd_geometric component_label (couple (1/4)) [-3/4; 3/4] [1; 1] (ResInt 2) 0 None Sigmoid None
    = Ok (Csd1 [o; o'] [l; l']) /\ fst o + snd o = 1 /\ fst o' + snd o' = 1.
Proof.
  destruct (couple_scan (1/4) ltac:(lra) None (22/10) eq_refl ltac:(lra)) as (o & o' & l & l' & E & _ & _ & S).
  exists o, o', l, l'. auto.
Qed.
Example C01_example_2d : exists occ lead,
  ideal_csd_geometric component_label (couple (1/4)) [-1/4; 1/4] [9/10; 11/10] (ResArray [2%Z; 2%Z]) 0 None Cauchy None
    = Ok (Csd2 occ lead) /\ rows occ = 2%nat /\ cols occ = 2%nat /\
  forall i j, (i < 2)%nat -> (j < 2)%nat -> cell lead i j = 0%nat /\ fst (cell occ i j) + snd (cell occ i j) = 1.
Proof. apply couple_scan_2d; [lra|discriminate|simpl; lra]. Qed.
Example C01_config_exists : csd_config component_label (couple (1/4)) None Sigmoid None.
Proof. apply couple_config; [lra|discriminate|simpl; lra]. Qed.

(** C02: no dot has a negative occupation or more electrons than the region holds. *)
Theorem C02_occupation_bounds label params l1 l2 res rot lut kind gf d a1 b1 a2 b2 v o lab :
  csd_config label params lut kind gf -> l1 = [a1; b1] -> l2 = [a2; b2] ->
  ideal_csd_geometric label params l1 l2 res rot lut kind gf = Ok d ->
  scan_pixel d (a1, b1) (a2, b2) v o lab ->
  0 <= fst o <= fst o + snd o /\ 0 <= snd o <= fst o + snd o.
Proof. exact (scan_bounds label params l1 l2 res rot lut kind gf d a1 b1 a2 b2 v o lab). Qed.
Print Assumptions C02_occupation_bounds.

Example C02_example : exists l l',
  ideal_csd_geometric component_label (couple 0) [-3/4; 3/4] [1; 1] (ResInt 2) 0 None Sigmoid None
    = Ok (Csd1 [(1, 0); (0, 1)] [l; l']).
Proof. exact zero_swapped. Qed.

(** C03: among pixels with the same electron number n, moving in the direction from the left to the
    right end of the interdot transition (as seen across the reference line) never lowers the
    occupation of dot 1 and never raises that of dot 2. *)
Theorem C03_occupation_monotone label params rot lut kind gf res d a1 b1 a2 b2 v o lab res' d' a1' b1' a2' b2' v' o' lab' n u l po :
  csd_config label params lut kind gf ->
  ideal_csd_geometric label params [a1; b1] [a2; b2] res rot lut kind gf = Ok d ->
  scan_pixel d (a1, b1) (a2, b2) v o lab -> fst o + snd o = INR n ->
  ideal_csd_geometric label params [a1'; b1'] [a2'; b2'] res' rot lut kind gf = Ok d' ->
  scan_pixel d' (a1', b1') (a2', b2') v' o' lab' -> fst o' + snd o' = INR n ->
  (1 <= n)%nat -> interdot_line params n u l -> nth_error params (n - 1) = Some po ->
  0 < gamma_of kind gf ->
  1 / 100000000 * gamma_of kind gf * dist2 u l < Rabs (cross (vec u l) (coupling_vector po)) ->
  0 <= cross (vec u l) (vec (tct_view rot v) (tct_view rot v')) * cross (vec u l) (coupling_vector po) ->
  fst o <= fst o' /\ snd o' <= snd o.
Proof. exact (scan_mono label params rot lut kind gf res d a1 b1 a2 b2 v o lab res' d' a1' b1' a2' b2' v' o' lab' n u l po). Qed.
Print Assumptions C03_occupation_monotone.

(** ... and with widths that are not negative, growing signed distance to the reference line does. *)
Theorem C03_signed_distance label params rot lut kind gf res d a1 b1 a2 b2 v o lab res' d' a1' b1' a2' b2' v' o' lab' n u l po :
  csd_config label params lut kind gf ->
  ideal_csd_geometric label params [a1; b1] [a2; b2] res rot lut kind gf = Ok d ->
  scan_pixel d (a1, b1) (a2, b2) v o lab -> fst o + snd o = INR n ->
  ideal_csd_geometric label params [a1'; b1'] [a2'; b2'] res' rot lut kind gf = Ok d' ->
  scan_pixel d' (a1', b1') (a2', b2') v' o' lab' -> fst o' + snd o' = INR n ->
  (1 <= n)%nat -> interdot_line params n u l -> nth_error params (n - 1) = Some po ->
  0 <= - cross (vec u l) (coupling_vector po) / gamma_of kind gf ->
  line_distance u l (tct_view rot v) <= line_distance u l (tct_view rot v') ->
  fst o <= fst o' /\ snd o' <= snd o.
Proof. exact (scan_mono_signed label params rot lut kind gf res d a1 b1 a2 b2 v o lab res' d' a1' b1' a2' b2' v' o' lab' n u l po). Qed.
Print Assumptions C03_signed_distance.

Example C03_example : exists o o' l l',
  ideal_csd_geometric component_label (couple (1/100)) [-3/4; 3/4] [1; 1] (ResInt 2) 0 None Sigmoid None
    = Ok (Csd1 [o; o'] [l; l']) /\ fst o <= 1/10 /\ 9/10 <= fst o'.
Proof.
  destruct (couple_scan (1/100) ltac:(lra) None (22/10) eq_refl ltac:(lra)) as (o & o' & l & l' & E & _).
  exists o, o', l, l'. split; [exact E|]. exact (narrow_right (1/100) ltac:(lra) o o' l l' E).
Qed.

(** C04: with fine enough sampling, an unlabelled pixel of a 2D scan has exactly the occupations a 1D
    scan gives at the same voltages. *)
Theorem C04_scans_agree label params a1 b1 a2 b2 nx ny rot lut kind gf occ lead L eps c1 e1 c2 e2 res d v o o' lab :
  csd_config label params lut kind gf -> 0 <= eps -> Forall (bounded_tct L eps lut) params ->
  fine_sampling (np_sort (a1, b1)) (np_sort (a2, b2)) (Z.to_nat nx) (Z.to_nat ny) rot L eps ->
  ideal_csd_geometric label params [a1; b1] [a2; b2] (ResArray [nx; ny]) rot lut kind gf = Ok (Csd2 occ lead) ->
  scan_pixel (Csd2 occ lead) (a1, b1) (a2, b2) v o 0%nat ->
  ideal_csd_geometric label params [c1; e1] [c2; e2] res rot lut kind gf = Ok d ->
  length (res_list res) = 1%nat -> scan_pixel d (c1, e1) (c2, e2) v o' lab -> o = o'.
Proof. exact (scans_agree label params a1 b1 a2 b2 nx ny rot lut kind gf occ lead L eps c1 e1 c2 e2 res d v o o' lab). Qed.
Print Assumptions C04_scans_agree.

(** A 2D scan fails, with IndexError, exactly when it shows the last TCT or an unlabelled pixel above
    all TCTs. *)
Theorem C04_scan_2d_fails label params xl yl nx ny rot lut kind gf L eps lead :
  csd_config label params lut kind gf -> 0 <= eps -> Forall (bounded_tct L eps lut) params ->
  fst xl < snd xl -> fst yl < snd yl -> (2 <= nx)%nat -> (2 <= ny)%nat ->
  fine_sampling xl yl nx ny rot L eps ->
  lead_mask_2d ny nx xl yl (initialize_tct_functions params 1) rot lut = Ok lead ->
  let r := ideal_csd_geometric label params [fst xl; snd xl] [fst yl; snd yl] (ResArray [Z.of_nat nx; Z.of_nat ny]) rot lut kind gf in
  let volt (a : nat * nat) : point := (pixel_voltage xl nx (snd a), pixel_voltage yl ny (fst a)) in
  ((exists occ, r = Ok (Csd2 occ lead)) \/ r = Err IndexError) /\
  (r = Err IndexError <-> exists a, in_image lead a /\
     (value_at lead a = length params \/ (value_at lead a = 0%nat /\ above_all params lut rot (volt a)))).
Proof. exact (scan_2d_fails label params xl yl nx ny rot lut kind gf L eps lead). Qed.
Print Assumptions C04_scan_2d_fails.

(** 1D scans never fail: above all TCTs they report an empty system. *)
Theorem C04_scan_1d label params a1 b1 a2 b2 res n rot lut kind gf g :
  proper_tcts params lut -> kind <> UnknownCdf -> default_gamma_factor kind gf = Ok g -> res_list res = [Z.of_nat n] ->
  exists occ lead, ideal_csd_geometric label params [a1; b1] [a2; b2] res rot lut kind gf = Ok (Csd1 occ lead) /\
  length occ = n /\
  forall i o, nth_error occ i = Some o ->
    let v := (pixel_voltage (a1, b1) n i, pixel_voltage (a2, b2) n i) in
    exists m, (electrons params lut rot v m \/ (above_all params lut rot v /\ m = 0%nat)) /\ fst o + snd o = INR m.
Proof. exact (scan_1d_numbers label params a1 b1 a2 b2 res n rot lut kind gf g). Qed.
Print Assumptions C04_scan_1d.

Theorem C04_above_all_1d_refuted :
  exists params v, proper_tcts params None /\ above_all params None 0 v /\
  ideal_csd_geometric component_label params [fst v; fst v] [snd v; snd v] (ResInt 1) 0 None Sigmoid None = Ok (Csd1 [(0, 0)] [0%nat]).
Proof. exact above_all_1d. Qed.
Print Assumptions C04_above_all_1d_refuted.

(** C05: reversed sweeps only reverse the result. *)
Theorem C05_reverse_gate_1 label params a1 b1 l2 nx ny rot lut kind gf :
  eq_result (ideal_csd_geometric label params [b1; a1] l2 (ResArray [nx; ny]) rot lut kind gf)
            (mirror_g1 (ideal_csd_geometric label params [a1; b1] l2 (ResArray [nx; ny]) rot lut kind gf)).
Proof. exact (reverse_g1 label params a1 b1 l2 nx ny rot lut kind gf). Qed.
Print Assumptions C05_reverse_gate_1.

Theorem C05_reverse_gate_2 label params l1 a2 b2 nx ny rot lut kind gf :
  eq_result (ideal_csd_geometric label params l1 [b2; a2] (ResArray [nx; ny]) rot lut kind gf)
            (mirror_g2 (ideal_csd_geometric label params l1 [a2; b2] (ResArray [nx; ny]) rot lut kind gf)).
Proof. exact (reverse_g2 label params l1 a2 b2 nx ny rot lut kind gf). Qed.
Print Assumptions C05_reverse_gate_2.

(** In 1D both gates are reversed together; a single pixel is measured at the start of the sweep. *)
Theorem C05_reverse_1d label params a1 b1 a2 b2 res n rot lut kind gf :
  proper_tcts params lut -> kind <> UnknownCdf -> res_list res = [n] -> n <> 1%Z ->
  eq_result (ideal_csd_geometric label params [b1; a1] [b2; a2] res rot lut kind gf)
            (mirror_1d (ideal_csd_geometric label params [a1; b1] [a2; b2] res rot lut kind gf)).
Proof. exact (reverse_1d label params a1 b1 a2 b2 res n rot lut kind gf). Qed.
Print Assumptions C05_reverse_1d.

Example C05_example : exists l l',
  eq_result (ideal_csd_geometric component_label (couple 0) [3/4; -3/4] [1; 1] (ResInt 2) 0 None Sigmoid None)
            (Ok (Csd1 [(0, 1); (1, 0)] [l; l'])).
Proof.
  destruct zero_swapped as (l & l' & E). exists l', l.
  pose proof (C05_reverse_1d component_label (couple 0) (-3/4) (3/4) 1 1 (ResInt 2) 2 0 None Sigmoid None
                (couple_proper 0 ltac:(lra)) ltac:(discriminate) eq_refl ltac:(lia)) as H.
  rewrite E in H. exact H.
Qed.

(** C06: a transition point inside the window (extended by half a pixel) gets the index of an existing
    pixel, the nearest one. *)
Theorem C06_pixel_index lims n v :
  fst lims < snd lims -> (2 <= n)%nat ->
  fst lims - spacing lims n / 2 < v < snd lims + spacing lims n / 2 ->
  exists i, (i < n)%nat /\ - (spacing lims n / 2) <= v - pixel_voltage lims n i < spacing lims n / 2 /\
    pixel_id lims (pixel_step lims n) v = Z.of_nat i.
Proof. exact (pixel_index lims n v). Qed.
Print Assumptions C06_pixel_index.

(** The mask shows exactly the transitions with a sampled point in the pixel's cell; where several
    meet, the last one. *)
Theorem C06_mask_labels params lut rot xl yl nx ny :
  proper_tcts params lut -> (length params < 256)%nat ->
  fst xl < snd xl -> fst yl < snd yl -> (2 <= nx)%nat -> (2 <= ny)%nat ->
  exists m, lead_mask_2d ny nx xl yl (initialize_tct_functions params 1) rot lut = Ok m /\ rows m = ny /\ cols m = nx /\
  forall a, in_image m a ->
  (value_at m a = 0%nat /\ forall k, ~ drawn params lut rot xl yl nx ny a k) \/
  (drawn params lut rot xl yl nx ny a (value_at m a) /\
   forall k, drawn params lut rot xl yl nx ny a k -> (k <= value_at m a)%nat).
Proof. exact (mask_exists params lut rot xl yl nx ny). Qed.
Print Assumptions C06_mask_labels.

(** The same for the lead transitions returned with a scan. *)
Theorem C06_scan_labels label params a1 b1 a2 b2 nx ny rot lut kind gf occ lead :
  csd_config label params lut kind gf -> a1 < b1 -> a2 < b2 -> (2 <= nx)%nat -> (2 <= ny)%nat ->
  ideal_csd_geometric label params [a1; b1] [a2; b2] (ResArray [Z.of_nat nx; Z.of_nat ny]) rot lut kind gf = Ok (Csd2 occ lead) ->
  rows lead = ny /\ cols lead = nx /\ forall a, in_image lead a ->
  (value_at lead a = 0%nat /\ forall k, ~ drawn params lut rot (a1, b1) (a2, b2) nx ny a k) \/
  (drawn params lut rot (a1, b1) (a2, b2) nx ny a (value_at lead a) /\
   forall k, drawn params lut rot (a1, b1) (a2, b2) nx ny a k -> (k <= value_at lead a)%nat).
Proof. exact (scan_labels label params a1 b1 a2 b2 nx ny rot lut kind gf occ lead). Qed.
Print Assumptions C06_scan_labels.

Example C06_example : pixel_id (0, 1) (pixel_step (0, 1) 3) (7/10) = 1%Z.
Proof.
  destruct (C06_pixel_index (0, 1) 3 (7/10)) as (i & Hi & Hv & E); try (simpl; lra); try lia.
  { unfold spacing; simpl; lra. }
  rewrite E. unfold pixel_voltage, spacing in Hv. simpl in Hv. destruct i as [|[|[|]]]; simpl in Hv; try lra; try lia.
Qed.

(** C07: 1D labels mark exactly the pixels with more electrons than a neighbour. *)
Theorem C07_mask_1d label params a1 b1 a2 b2 res rot lut kind gf occ lead :
  csd_config label params lut kind gf ->
  ideal_csd_geometric label params [a1; b1] [a2; b2] res rot lut kind gf = Ok (Csd1 occ lead) ->
  length lead = length occ /\
  forall i o l, nth_error occ i = Some o -> nth_error lead i = Some l ->
    (l <> 0%nat <-> exists j o', (S j = i \/ S i = j) /\ nth_error occ j = Some o' /\ fst o' + snd o' < fst o + snd o) /\
    (l <> 0%nat -> INR l = fst o + snd o).
Proof. exact (scan_1d_mask label params a1 b1 a2 b2 res rot lut kind gf occ lead). Qed.
Print Assumptions C07_mask_1d.

Theorem C07_any_trace occ :
  Forall (fun o : R * R => exists n, (n < 256)%nat /\ fst o + snd o = INR n) occ ->
  exists lead, lead_mask_1d occ = Ok lead /\ length lead = length occ /\
  forall i o l, nth_error occ i = Some o -> nth_error lead i = Some l ->
    (l <> 0%nat <-> exists j o', (S j = i \/ S i = j) /\ nth_error occ j = Some o' /\ fst o' + snd o' < fst o + snd o) /\
    (l <> 0%nat -> INR l = fst o + snd o).
Proof. exact (lead_mask_1d_labels occ). Qed.
Print Assumptions C07_any_trace.

Example C07_example : exists lead, lead_mask_1d [(0, 0); (1, 0); (1/2, 1/2); (1, 1)] = Ok lead /\
  nth_error lead 0 = Some 0%nat /\ nth_error lead 1 = Some 1%nat /\ nth_error lead 2 = Some 0%nat /\ nth_error lead 3 = Some 2%nat.
Proof. exact mask_1d_example. Qed.

(** C11: in the region of n electrons the occupation of dot 1 is the sum of n transition functions,
    centred at the n peaks of TCT n, ... *)
Theorem C11_n_transitions label params l1 l2 res rot lut kind gf d a1 b1 a2 b2 v o lab n u l po f :
  csd_config label params lut kind gf -> l1 = [a1; b1] -> l2 = [a2; b2] ->
  ideal_csd_geometric label params l1 l2 res rot lut kind gf = Ok d ->
  scan_pixel d (a1, b1) (a2, b2) v o lab -> fst o + snd o = INR n -> (1 <= n)%nat ->
  interdot_line params n u l -> nth_error params (n - 1) = Some po -> cdf_of kind f ->
  fst o = Rsum (map (fun k => f (line_distance u l (tct_view rot v)) (line_distance u l (peak_point po l k))
     (- cross (vec u l) (coupling_vector po) / sqrt (fst (vec u l) ^ 2 + snd (vec u l) ^ 2) / gamma_of kind gf)) (seq 0 n)).
Proof. exact (scan_dot1 label params l1 l2 res rot lut kind gf d a1 b1 a2 b2 v o lab n u l po f). Qed.
Print Assumptions C11_n_transitions.

(** ... and runs from 0 to n. *)
Theorem C11_range label params rot lut kind gf n u l po :
  csd_config label params lut kind gf -> (1 <= n)%nat -> interdot_line params n u l -> nth_error params (n - 1) = Some po ->
  0 < gamma_of kind gf ->
  1 / 100000000 * gamma_of kind gf * dist2 u l < Rabs (cross (vec u l) (coupling_vector po)) ->
  forall eps, 0 < eps -> exists D, forall res d a1 b1 a2 b2 v o lab,
  ideal_csd_geometric label params [a1; b1] [a2; b2] res rot lut kind gf = Ok d ->
  scan_pixel d (a1, b1) (a2, b2) v o lab -> fst o + snd o = INR n ->
  let s := cross (vec u l) (vec l (tct_view rot v)) * cross (vec u l) (coupling_vector po) in
  (D <= s -> INR n - eps <= fst o) /\ (s <= - D -> fst o <= eps).
Proof. exact (scan_limits label params rot lut kind gf n u l po). Qed.
Print Assumptions C11_range.

Example C11_example : interdot_line (couple (1/4)) 1 (0, 2) (0, 0) /\
  exists o o' l l', ideal_csd_geometric component_label (couple (1/4)) [-3/4; 3/4] [1; 1] (ResInt 2) 0 None Sigmoid None
    = Ok (Csd1 [o; o'] [l; l']) /\ fst o = sigmoid_cdf (3/4) 0 (- (2 * (1/4)) / (22/10)).
Proof.
  split; [apply couple_line; lra|].
  destruct (couple_scan (1/4) ltac:(lra) None (22/10) eq_refl ltac:(lra)) as (o & o' & l & l' & E & E1 & _).
  exists o, o', l, l'. auto.
Qed.

(** C13: malformed requests are rejected - with ValueError, except for 2D requests with too short
    limits - and well-formed ones are computed. *)
Theorem C13_malformed_rejected label params l1 l2 res rot lut kind gf :
  ~ well_formed_request l1 l2 (res_list res) ->
  ideal_csd_geometric label params l1 l2 res rot lut kind gf = Err ValueError \/
  (ideal_csd_geometric label params l1 l2 res rot lut kind gf = Err IndexError /\
   length (res_list res) = 2%nat /\ (length l1 < 2 \/ length l2 < 2)%nat).
Proof. exact (malformed_rejected label params l1 l2 res rot lut kind gf). Qed.
Print Assumptions C13_malformed_rejected.

Theorem C13_well_formed_accepted label params l1 l2 res rot lut kind gf :
  csd_config label params lut kind gf ->
  well_formed_request l1 l2 (res_list res) -> res_list res <> [] -> Forall (fun r => (0 <= r)%Z) (res_list res) ->
  (exists d, ideal_csd_geometric label params l1 l2 res rot lut kind gf = Ok d) \/
  (length (res_list res) = 2%nat /\ ideal_csd_geometric label params l1 l2 res rot lut kind gf = Err IndexError).
Proof. exact (well_formed_accepted label params l1 l2 res rot lut kind gf). Qed.
Print Assumptions C13_well_formed_accepted.

Example C13_fixed_gate : ideal_csd_geometric component_label (couple 0) [1; 1] [0; 1] (ResArray [5%Z; 5%Z]) 0 None Sigmoid None = Err ValueError.
Proof.
  destruct (C13_malformed_rejected component_label (couple 0) [1; 1] [0; 1] (ResArray [5%Z; 5%Z]) 0 None Sigmoid None) as [H|(_ & _ & H)]; auto.
  - intros (a1 & b1 & a2 & b2 & E & _ & _ & Q). inversion E; subst. destruct (Q eq_refl) as (N & _). congruence.
  - simpl in H; lia.
Qed.
(** an empty resolution array passes the checks and fails later *)
Example C13_empty_resolution : ideal_csd_geometric component_label (couple 0) [0; 1] [0; 1] (ResArray []) 0 None Sigmoid None = Err UnboundLocalError.
Proof. reflexivity. Qed.

(** C65: with the default rotation, explicit evaluation and slopes between -1 and 1, raising gate
    voltages never lowers the electron number. *)
Theorem C65_raising_voltages params lut v v' n n' :
  Forall (bounded_tct 1 0 lut) params -> explicit lut -> fst v <= fst v' -> snd v <= snd v' ->
  electrons params lut (- (PI / 4)) v n -> electrons params lut (- (PI / 4)) v' n' -> (n <= n')%nat.
Proof. exact (raise_electrons params lut v v' n n'). Qed.
Print Assumptions C65_raising_voltages.
Theorem C65_stays_above_all params lut v v' :
  Forall (bounded_tct 1 0 lut) params -> explicit lut -> fst v <= fst v' -> snd v <= snd v' ->
  above_all params lut (- (PI / 4)) v -> above_all params lut (- (PI / 4)) v'.
Proof. exact (raise_above_all params lut v v'). Qed.
Print Assumptions C65_stays_above_all.
Example C65_example : Forall (bounded_tct 1 0 None) (couple (1/4)).
Proof. apply couple_bounded; lra. Qed.

(** C66: with fine enough sampling, adjacent unlabelled pixels are on the same side of every TCT (the
    drawn transitions are gap-free). *)
Theorem C66_gap_free params lut rot L eps xl yl nx ny m a b k :
  fst xl < snd xl -> fst yl < snd yl -> (2 <= nx)%nat -> (2 <= ny)%nat -> (length params < 256)%nat -> 0 <= eps ->
  Forall (bounded_tct L eps lut) params -> fine_sampling xl yl nx ny rot L eps ->
  lead_mask_2d ny nx xl yl (initialize_tct_functions params 1) rot lut = Ok m ->
  connected m a b ->
  let volt (c : nat * nat) : point := (pixel_voltage xl nx (snd c), pixel_voltage yl ny (fst c)) in
  (on_or_above params lut rot (volt a) k <-> on_or_above params lut rot (volt b) k).
Proof. exact (fun H1 H2 H3 H4 H5 H6 H7 H8 H9 => connected_same params lut rot L eps xl yl nx ny m H1 H2 H3 H4 H5 H6 H7 H8 H9 a b k). Qed.
Print Assumptions C66_gap_free.

(** The default rotation with slopes between -1 and 1 is fine enough for all pixels with an aspect
    ratio of at most 3. *)
Theorem C66_default params lut xl yl nx ny m a b k :
  Forall (bounded_tct 1 0 lut) params -> (length params < 256)%nat ->
  fst xl < snd xl -> fst yl < snd yl -> (2 <= nx)%nat -> (2 <= ny)%nat ->
  spacing xl nx <= 3 * spacing yl ny -> spacing yl ny <= 3 * spacing xl nx ->
  lead_mask_2d ny nx xl yl (initialize_tct_functions params 1) (- (PI / 4)) lut = Ok m ->
  unlabelled m a -> unlabelled m b -> adjacent a b ->
  let volt (c : nat * nat) : point := (pixel_voltage xl nx (snd c), pixel_voltage yl ny (fst c)) in
  (on_or_above params lut (- (PI / 4)) (volt a) k <-> on_or_above params lut (- (PI / 4)) (volt b) k).
Proof. exact (default_neighbours params lut xl yl nx ny m a b k). Qed.
Print Assumptions C66_default.
Example C66_example : fine_sampling (0, 1) (0, 2) 100 100 (- (PI / 4)) 1 0.
Proof.
  apply fine_default; simpl; try lra; try lia; unfold spacing; simpl fst; simpl snd; change (100 - 1)%nat with 99%nat;
    assert (0 < / INR 99) by (apply Rinv_0_lt_compat, lt_0_INR; lia); unfold Rdiv; nra.
Qed.

(** C67: zero interdot coupling is not the limit of narrow coupling: the dots are exchanged. *)
Theorem C67_zero_coupling_refuted :
  (forall e, 1/10000000 <= e <= 1/100 -> exists o o' l l',
     ideal_csd_geometric component_label (couple e) [-3/4; 3/4] [1; 1] (ResInt 2) 0 None Sigmoid None = Ok (Csd1 [o; o'] [l; l']) /\
     fst o <= 1/10 /\ 9/10 <= fst o') /\
  exists l l', ideal_csd_geometric component_label (couple 0) [-3/4; 3/4] [1; 1] (ResInt 2) 0 None Sigmoid None
     = Ok (Csd1 [(1, 0); (0, 1)] [l; l']).
Proof. exact zero_coupling. Qed.
Print Assumptions C67_zero_coupling_refuted.
