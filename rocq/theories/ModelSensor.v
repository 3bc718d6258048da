(** Model of simcats/sensor: peak, rise and barrier functions, peak deformations, the generic sensor and
    the sensor-scan sensor, and support_functions/_reset_offset_mu_sens.py. Real numbers stand for
    float64 (a division by zero, which numpy turns into inf or nan, has no meaning here; the theorems
    exclude it). Warnings are not modelled; a call that raises is modelled without
    the attributes it may have set before. *)
From Verif Require Import RPrelude Arr ModelSupport ModelTct ModelCsd ModelDistortions.
Local Open Scope R_scope.

(** ** Coulomb peaks *)

(** A SensorPeakInterface object: its position and its response as a function of position and
    potential. *)
Record peak := mk_peak { mu0 : R; peak_fun : R -> R -> R }.
Definition sensor_function (p : peak) (mu : R) : R := peak_fun p (mu0 p) mu.
Definition set_mu0 (p : peak) (m : R) : peak := mk_peak m (peak_fun p).

(** _sensor_peak_gaussian.py:104, one entry *)
Definition sensor_response_gauss (sigma height off m mu : R) : R :=
  off + height * exp (- ((mu - m) / sigma) ^ 2).
(** _sensor_peak_lorentzian.py:105 *)
Definition sensor_response_lorentz (gamma height off m mu : R) : R :=
  off + height * gamma ^ 2 / (gamma ^ 2 + (mu - m) ^ 2).
(** Constructors: the width setters reject non-positive widths (_sensor_peak_gaussian.py:45-49,
    _sensor_peak_lorentzian.py:45-48). *)
Definition sensor_peak_gaussian (m sigma height off : R) : result peak :=
  raise_if (Rleb sigma 0) ValueError (Ok (mk_peak m (sensor_response_gauss sigma height off))).
Definition sensor_peak_lorentzian (m gamma height off : R) : result peak :=
  raise_if (Rleb gamma 0) ValueError (Ok (mk_peak m (sensor_response_lorentz gamma height off))).

(** ** Final rise, _sensor_rise_glf.py *)
(** The glf parameters (without the shift), mu0 and the percentage; the asymmetry setter rejects
    non-positive values. *)
Record rise_params := { rise_glf : glf_params; rise_mu0 : R; rise_percentage : R }.
Definition with_offset (p : glf_params) (o : R) : glf_params :=
  {| asymptote_left := asymptote_left p; asymptote_right := asymptote_right p; growth_rate := growth_rate p;
     asymmetry := asymmetry p; shape_factor := shape_factor p; denominator_offset := denominator_offset p;
     offset := o |}.
(** lines 190-199 *)
Definition rise_fully_conductive (r : rise_params) : R :=
  let p := rise_glf r in
  inverse_glf (with_offset p (rise_mu0 r))
              ((asymptote_right p - asymptote_left p) * rise_percentage r + asymptote_left p).
(** lines 212-219 *)
Definition rise_function (r : rise_params) (mu off : R) : R :=
  glf (with_offset (rise_glf r) (- rise_fully_conductive r + off)) mu.

(** ** Barriers *)
(** A BarrierFunctionInterface object. *)
Record barrier := mk_barrier { pinch_off : R; fully_conductive : R; get_value : R -> R }.
(** barrier_function/_barrier_function_glf.py: value at a percentage of the height, lines 87-97 and
    117-127 *)
Definition glf_percentage (p : glf_params) (pct : R) : R :=
  inverse_glf p (Rabs (asymptote_right p - asymptote_left p) * pct + Rmin (asymptote_left p) (asymptote_right p)).
Definition barrier_glf (p : glf_params) (pinch full : R) : result barrier :=
  raise_if (Rleb (asymmetry p) 0) ValueError
    (Ok (mk_barrier (glf_percentage p pinch) (glf_percentage p full) (glf p))).
(** barrier_function/_barrier_function_multi_glf.py:63-77, 149-151 (the
    assertion of multi_glf itself cannot fail then) *)
Definition barrier_multi_glf (pinch full : R) (params : list R) : result barrier :=
  raise_if (negb (length params mod 7 =? 0)%nat) ValueError
    (Ok (mk_barrier pinch full (fun x => multi_glf_sum x params))).

(** ** Peak deformations: calc_mu as a function of distance and mu0 *)
(** np.sign *)
Definition Rsign (x : R) : R := if Rltb 0 x then 1 else if Rltb x 0 then -1 else 0.
Definition norm2 (a : R * R) : R := sqrt (fst a ^ 2 + snd a ^ 2).
Definition clip (lo hi x : R) : R := Rmin hi (Rmax lo x).
(** deformation/_sensor_peak_deformation_circle.py:81-104; [a] is row 0 of the sensor's
    alpha_sensor_gate. Radius 0 (nan at distance 0) is excluded by the theorems. *)
Definition circle_calc_mu (a : R * R) (radius : R) (dist m : R) : R :=
  let dist := Rabs dist in
  let radius_volt := radius / norm2 a in
  let radius_abs := Rabs radius_volt in
  let cos_angle := cos (asin (clip (-1) 1 (dist / radius_abs))) in
  let temp1 := m - (radius_abs - cos_angle * radius_abs) * Rsign radius in
  let temp2 := m - radius_volt * Rsign radius_volt in
  if Rleb dist radius_abs then temp1 else temp2.
(** deformation/_sensor_peak_deformation_linear.py:68-72 *)
Definition linear_calc_mu (a : R * R) (angle : R) (dist m : R) : R :=
  m + 1 / tan angle * dist * norm2 a.

(** ** Occupations, potentials, voltages *)
Inductive occupation := Occ1 (a : arr1 (R * R)) | Occ2 (a : arr2 (R * R)) | OccOther.
Definition dot2 (a b : R * R) : R := fst a * fst b + snd a * snd b.
(** voltages of a pixel: np.linspace along the axes *)
Definition volts1 (l1 l2 : R * R) (n i : nat) : R * R := (grid l1 n i, grid l2 n i).
Definition volts2 (l1 l2 : R * R) (nr nc i j : nat) : R * R := (grid l1 nc j, grid l2 nr i).

(** ** _sensor_generic.py *)
Record generic_sensor := mk_generic {
  gs_peaks : option (list peak); gs_dot : R * R; gs_gate : R * R; gs_offset : R }.

(** sensor_potential, lines 201-216. An empty voltage array cannot be multiplied with the lever arms
    (ValueError); occupations of another dimension leave [voltages] unassigned. *)
Definition generic_potential (s : generic_sensor) (occ : occupation) (l1 l2 : R * R) : result image :=
  let mu (o v : R * R) := dot2 o (gs_dot s) + dot2 v (gs_gate s) + gs_offset s in
  match occ with
  | Occ1 a => raise_if (len1 a =? 0)%nat ValueError
                (Ok (Img1 (mk_arr1 (len1 a) (fun i => mu (cell1 a i) (volts1 l1 l2 (len1 a) i)))))
  | Occ2 a => raise_if ((rows a =? 0)%nat || (cols a =? 0)%nat) ValueError
                (Ok (Img2 (mk_arr2 (rows a) (cols a) (fun i j => mu (cell a i j) (volts2 l1 l2 (rows a) (cols a) i j)))))
  | OccOther => Err UnboundLocalError
  end.

Definition map_image (f : R -> R) (im : image) : image :=
  match im with Img1 a => Img1 (amap1 f a) | Img2 a => Img2 (amap2 f a) end.
(** np.sum([...], axis=0) of an empty list is the number 0.0, not an array. *)
Inductive response := RImage (im : image) | RNumber (x : R).
(** sensor_response, lines 176-179 *)
Definition sum_peaks (ps : list peak) (mu : R) : R := Rsum (map (fun p => sensor_function p mu) ps).
Definition generic_response (s : generic_sensor) (mu : image) : response :=
  match gs_peaks s with
  | None => RImage mu
  | Some [] => RNumber 0
  | Some ps => RImage (map_image (sum_peaks ps) mu)
  end.

(** ** _sensor_scan_sensor_generic.py *)
Record rows3 := mk_rows3 { row0 : R * R; row1 : R * R; row2 : R * R }.
Record three := mk_three { at_sensor : R; at_barrier1 : R; at_barrier2 : R }.

(** Lever-arm setters, lines 240-253 and 291-304 (alpha_dot, alpha_gate) and 341-348
    (alpha_sensor_gate); [AlphaOther] is everything else. *)
Inductive alpha_arg := AlphaNone | AlphaPair (a : R * R) | AlphaRows (r : rows3) | AlphaOther.
Definition set_alpha (a : alpha_arg) : result rows3 :=
  match a with
  | AlphaPair p => Ok (mk_rows3 p p p)
  | AlphaRows r => Ok r
  | AlphaNone => Ok (mk_rows3 (0, 0) (0, 0) (0, 0))
  | AlphaOther => Err ValueError
  end.
Definition set_alpha_sensor (a : alpha_arg) : result rows3 :=
  match a with AlphaRows r => Ok r | _ => Err ValueError end.

(** The sensor. Deformations: a dictionary from peak number to calc_mu (dist, mu0). *)
Record scan_sensor := mk_scan_sensor {
  ss_barrier1 : barrier; ss_barrier2 : barrier; ss_peaks : option (list peak);
  ss_sensor : rows3; ss_gate : rows3; ss_dot : rows3; ss_offset : three;
  ss_rise : option (R -> R -> R);                     (* mu_sens, offset *)
  ss_deform : list (nat * (R -> R -> R)) }.

(** What sensor_potential remembers for later calls, lines 710-714. *)
Record hidden := mk_hidden { h_g1 : R * R; h_g2 : R * R; h_s1 : R * R; h_s2 : R * R; h_occ : occupation }.

(** None, a number (a Python float) or an array of two numbers. *)
Inductive volts := VNone | VFix (v : R) | VSweep (a b : R).
Definition as_limits (v : volts) : R * R :=
  match v with VNone => (0, 0) | VFix x => (x, x) | VSweep a b => (a, b) end.
Definition is_sweep (v : volts) : bool := match v with VSweep _ _ => true | _ => false end.

(** The array of shape (3, ...) as an array of triples. *)
Inductive potentials := Pot1 (a : arr1 three) | Pot2 (a : arr2 three).

(** sensor_potential, lines 688-758 *)
Definition pixel_potential (s : scan_sensor) (o v w : R * R) : three :=
  let mu d g a off := dot2 o d + dot2 v g + dot2 w a + off in
  mk_three (mu (row0 (ss_dot s)) (row0 (ss_gate s)) (row0 (ss_sensor s)) (at_sensor (ss_offset s)))
           (mu (row1 (ss_dot s)) (row1 (ss_gate s)) (row1 (ss_sensor s)) (at_barrier1 (ss_offset s)))
           (mu (row2 (ss_dot s)) (row2 (ss_gate s)) (row2 (ss_sensor s)) (at_barrier2 (ss_offset s))).
Definition scan_potential (s : scan_sensor) (occ : occupation) (v1 v2 w1 w2 : volts)
  : result (potentials * hidden) :=
  match occ with
  | OccOther => Err ValueError
  | _ =>
    raise_if ((is_sweep v1 || is_sweep v2) && (is_sweep w1 || is_sweep w2)) ValueError
    (let h := mk_hidden (as_limits v1) (as_limits v2) (as_limits w1) (as_limits w2) occ in
     match occ with
     | Occ1 a => raise_if (len1 a =? 0)%nat ValueError
         (Ok (Pot1 (mk_arr1 (len1 a) (fun i =>
                pixel_potential s (cell1 a i) (volts1 (h_g1 h) (h_g2 h) (len1 a) i) (volts1 (h_s1 h) (h_s2 h) (len1 a) i))), h))
     | Occ2 a => raise_if ((rows a =? 0)%nat || (cols a =? 0)%nat) ValueError
         (Ok (Pot2 (mk_arr2 (rows a) (cols a) (fun i j =>
                pixel_potential s (cell a i j) (volts2 (h_g1 h) (h_g2 h) (rows a) (cols a) i j)
                                               (volts2 (h_s1 h) (h_s2 h) (rows a) (cols a) i j))), h))
     | OccOther => Err ValueError
     end)
  end.

(** occupations[0, 0] / occupations[0, 0, 0] etc., lines 534-542, 599-607, 810-817 *)
Definition first_occ (occ : occupation) : result (R * R) :=
  match occ with Occ1 a => get1 a 0 | Occ2 a => get2 a 0 0 | OccOther => Err ValueError end.

(** _calc_point_from_barrier_potentials, lines 599-649. Line 616 takes the first sensor voltage twice
    and line 623 the occupation of dot 1 twice. sys.float_info.epsilon is 2^-52. *)
Definition calc_point (s : scan_sensor) (h : hidden) (pot1 pot2 : R) (sensor_swept : bool) : result point :=
  let? occ := first_occ (h_occ h) in
  let gate_offset :=
    if sensor_swept
    then let v := (fst (h_g1 h), fst (h_g2 h)) in (dot2 (row1 (ss_gate s)) v, dot2 (row2 (ss_gate s)) v)
    else let v := (fst (h_s1 h), fst (h_s1 h)) in (dot2 (row1 (ss_sensor s)) v, dot2 (row2 (ss_sensor s)) v) in
  let offset1 := fst gate_offset + at_barrier1 (ss_offset s)
                 + fst (row1 (ss_dot s)) * fst occ + snd (row1 (ss_dot s)) * fst occ in
  let offset2 := snd gate_offset + at_barrier2 (ss_offset s)
                 + fst (row2 (ss_dot s)) * fst occ + snd (row2 (ss_dot s)) * snd occ in
  let p1 := pot1 - offset1 in
  let p2 := pot2 - offset2 in
  let a10 := fst (row1 (ss_sensor s)) in let a11 := snd (row1 (ss_sensor s)) in
  let a20 := fst (row2 (ss_sensor s)) in let a21 := snd (row2 (ss_sensor s)) in
  if Rltb (Rabs a11) (1 / 4503599627370496) then
    let v1 := p1 / a10 in Ok (v1, (- a20 * v1 + p2) / a21)
  else
    let v1 := (p2 * a11 - p1 * a21) / (a20 * a11 - a10 * a21) in Ok (v1, (- a10 * v1 + p1) / a11).

(** Signed distance to the middle line, lines 430-436: through [mid] in the direction (1, m). *)
Definition middle_dist (s : scan_sensor) (mid w : point) : R :=
  let m := snd (row0 (ss_sensor s)) / fst (row0 (ss_sensor s)) in
  signed_dist w mid (fst mid + 1, snd mid + m).

(** The loop of _peak_func, lines 438-445: mu0 is changed for the evaluation and restored. Returns the
    sum and the peak list afterwards. *)
Fixpoint peak_loop (deform : list (nat * (R -> R -> R))) (dist mu : R) (idx : nat) (ps : list peak) (sum : R)
  : R * list peak :=
  match ps with
  | [] => (sum, [])
  | p :: t =>
      let old := mu0 p in
      let '(p', sum') :=
        match dict_get deform idx with
        | Ok calc_mu =>
            let p1 := set_mu0 p (calc_mu dist (mu0 p)) in
            let sum1 := sum + sensor_function p1 mu in
            (set_mu0 p1 old, sum1)
        | Err _ => (p, sum + sensor_function p mu)
        end in
      let '(r, t') := peak_loop deform dist mu (S idx) t sum' in (r, p' :: t')
  end.
(** _peak_func, lines 427-447 (one pixel) *)
Definition peak_func (s : scan_sensor) (ps : option (list peak)) (mid : point) (mu : R) (w : point)
  : R * option (list peak) :=
  match ps with
  | None => (mu, None)
  | Some l => let '(r, l') := peak_loop (ss_deform s) (middle_dist s mid w) mu 0 l 0 in (r, Some l')
  end.
(** The pixel loops of lines 481-513: potentials and sensor voltages in row-major order, peak list
    passed from pixel to pixel. *)
Fixpoint peak_scan (s : scan_sensor) (mid : point) (px : list (R * point)) (ps : option (list peak))
  : list R * option (list peak) :=
  match px with
  | [] => ([], ps)
  | (mu, w) :: t =>
      let '(r, ps1) := peak_func s ps mid mu w in
      let '(rs, ps2) := peak_scan s mid t ps1 in (r :: rs, ps2)
  end.
(** pixel_to_volt_1d fails for a single pixel (division by pixel_num = 0). *)
Definition px_volt (lim : R * R) (n i : nat) : result R := pixel_to_volt_1d i (n - 1) (fst lim) (snd lim).
Definition scan_pixels (h : hidden) (p : potentials) : result (list (R * point)) :=
  match p with
  | Pot1 a => mapM (fun i => let? y := px_volt (h_s2 h) (len1 a) i in
                             let? x := px_volt (h_s1 h) (len1 a) i in
                             Ok (at_sensor (cell1 a i), (x, y))) (seq 0 (len1 a))
  | Pot2 a =>
      let? rows_ := mapM (fun i =>
          let? y := px_volt (h_s2 h) (rows a) i in
          mapM (fun j => let? x := px_volt (h_s1 h) (cols a) j in
                         Ok (at_sensor (cell a i j), (x, y))) (seq 0 (cols a))) (seq 0 (rows a)) in
      Ok (concat rows_)
  end.

Definition equal_ends (l : R * R) : bool := Reqb (fst l) (snd l).

(** Response of the sensor dot itself, lines 463-560: image (as row-major list), peak list and hidden
    state afterwards. *)
Definition pot_list (p : potentials) : list three :=
  match p with
  | Pot1 a => to_list1 a
  | Pot2 a => concat (to_list2 a)
  end.
Definition dot_response (s : scan_sensor) (h : hidden) (p : potentials)
  : result (list R * option (list peak) * hidden) :=
  let apply := negb (length (ss_deform s) =? 0)%nat in
  let only_sensor := equal_ends (h_g1 h) && equal_ends (h_g2 h) in
  let sensor_swept := equal_ends (h_g1 h) || equal_ends (h_g2 h) in
  if apply && only_sensor then
    let? mid := calc_point s h (pinch_off (ss_barrier1 s)) (pinch_off (ss_barrier2 s)) sensor_swept in
    let? px := scan_pixels h p in
    let '(rs, ps) := peak_scan s mid px (ss_peaks s) in
    Ok (rs, ps, h)
  else
    let base mu := match ss_peaks s with None => mu | Some ps => sum_peaks ps mu end in
    match ss_rise s with
    | None => Ok (map (fun q => base (at_sensor q)) (pot_list p), ss_peaks s, h)
    | Some rise =>
        let? occ := first_occ (h_occ h) in
        let? pt := calc_point s h (fully_conductive (ss_barrier1 s)) (fully_conductive (ss_barrier2 s)) sensor_swept in
        let? ph := scan_potential s (Occ1 (mk_arr1 1 (fun _ => occ))) (VFix (fst (h_g1 h))) (VFix (fst (h_g2 h)))
                                  (VFix (fst pt)) (VFix (snd pt)) in
        match fst ph with
        | Pot1 a =>
            let off := at_sensor (cell1 a 0) in
            Ok (map (fun q => Rmax (base (at_sensor q)) (rise (at_sensor q) off)) (pot_list p), ss_peaks s, snd ph)
        | Pot2 _ => Err TypeError    (* not reachable: the occupations are one-dimensional *)
        end
    end.

(** Series combination, lines 572-574 *)
Definition series (s b1 b2 : R) : R :=
  let num := s * b1 * b2 in
  let den := b1 * b2 + s * b1 + s * b2 in
  if Reqb den 0 then 0 else num / den.

(** A row-major list as an array of the shape of the potentials. *)
Definition reshape (p : potentials) (l : list R) : image :=
  match p with
  | Pot1 a => Img1 (mk_arr1 (len1 a) (fun i => nth i l 0))
  | Pot2 a => Img2 (mk_arr2 (rows a) (cols a) (fun i j => nth (i * cols a + j) l 0))
  end.
(** sensor_response, lines 460-574: response, peak list and hidden state afterwards. np.min of an empty
    array raises ValueError. *)
Definition scan_response (s : scan_sensor) (h : hidden) (p : potentials)
  : result (image * option (list peak) * hidden) :=
  let? r := dot_response s h p in
  let '(dots, ps, h') := r in
  raise_if (length (pot_list p) =? 0)%nat ValueError
  (let out := map (fun dq : R * three => series (fst dq) (get_value (ss_barrier1 s) (at_barrier1 (snd dq)))
                                                         (get_value (ss_barrier2 s) (at_barrier2 (snd dq))))
                  (combine dots (pot_list p)) in
   Ok (reshape p out, ps, h')).

(** *** get_sensor_scan_labels, lines 808-929 *)
(** sorted(zip(peaks, range(len))), key mu0: stable *)
Fixpoint insert_peak (x : peak * nat) (l : list (peak * nat)) : list (peak * nat) :=
  match l with
  | [] => [x]
  | y :: t => if Rleb (mu0 (fst x)) (mu0 (fst y)) then x :: y :: t else y :: insert_peak x t
  end.
Definition sort_peaks (ps : list peak) : list (peak * nat) :=
  fold_right insert_peak [] (combine ps (seq 0 (length ps))).

(** np.abs(np.mean(np.diff(...))): nan (None) if there are no differences *)
Definition mean_diff (rows_ : list (list R)) : option R :=
  let diffs := flat_map (fun r => map (fun ab => snd ab - fst ab) (combine r (tl r))) rows_ in
  match diffs with [] => None | _ => Some (Rabs (Rsum diffs / INR (length diffs))) end.

(** One row (or the 1D scan), one peak: index of the pixel to be marked, if any; lines 893-920. *)
Definition peak_pixel (row : list R) (m : R) (threshold : option R) : option nat :=
  let d := map (fun x => Rabs (x - m)) row in
  let j := argmin d in
  let boundary := ((j =? 0) || (j =? length row - 1))%nat in
  if negb boundary then Some j
  else match threshold with
       | Some t => if Rltb (nth j d 0) t then Some j else None
       | None => None
       end.

Definition mark (row : list nat) (j : option nat) (v : nat) : list nat :=
  match j with
  | None => row
  | Some j => map (fun ix => if (fst ix =? j)%nat then v else snd ix) (combine (seq 0 (length row)) row)
  end.

(** Sensor voltages of all pixels (lines 844-853); the sensor limits are subscripted, which fails for
    numbers and None. *)
Definition subscript (v : volts) : result (R * R) :=
  match v with VSweep a b => Ok (a, b) | _ => Err TypeError end.
(** rows of a scan: a 1D scan is a single row *)
Definition pot_rows (p : potentials) : list (list three) :=
  match p with Pot1 a => [to_list1 a] | Pot2 a => to_list2 a end.
Definition volt_rows (p : potentials) (l1 l2 : R * R) : list (list point) :=
  match p with
  | Pot1 a => [map (fun i => volts1 l1 l2 (len1 a) i) (seq 0 (len1 a))]
  | Pot2 a => map (fun i => map (fun j => volts2 l1 l2 (rows a) (cols a) i j) (seq 0 (cols a))) (seq 0 (rows a))
  end.

(** The loop body of lines 883-920 for one peak: idx is the position in the sorted list. np.argmin of an
    empty row raises ValueError. Labels are stored as uint8, so at most 255 peaks are assumed. *)
Definition label_peak (s : scan_sensor) (peaks : list peak) (pots : list (list R)) (dists : list (list R))
  (idx : nat) (pk : peak) (id : nat) (mask : list (list nat)) : result (list (list nat)) :=
  let? shift :=
    match dict_get (ss_deform s) idx with
    | Ok calc_mu => let? q := get_item peaks idx in
                    Ok (fun d => mu0 pk - calc_mu d (mu0 q))
    | Err _ => Ok (fun _ => 0)
    end in
  let threshold := mean_diff pots in
  mapM (fun rdm : (list R * list R) * list nat =>
          let '((r, d), mrow) := rdm in
          raise_if (length r =? 0)%nat ValueError
            (let distorted := map (fun xd : R * R => fst xd + shift (snd xd)) (combine r d) in
             Ok (mark mrow (peak_pixel distorted (mu0 pk) threshold) (id + 1))))
       (combine (combine pots dists) mask).

Record labels := mk_labels { conductive : list (list nat); coulomb : list (list nat) }.

Definition float_or_none (v : volts) : bool := negb (is_sweep v).

(** Both masks as lists of rows, with the hidden state afterwards (line 830 calls sensor_potential,
    with the g1 voltage for both gates). *)
Definition get_sensor_scan_labels (s : scan_sensor) (h : hidden) (v1 v2 w1 w2 : volts) (p : potentials)
  : result (labels * hidden) :=
  let? occ := first_occ (h_occ h) in
  raise_if (negb (float_or_none v1 && float_or_none v2)) ValueError
  (let? pt := calc_point s h (fully_conductive (ss_barrier1 s)) (fully_conductive (ss_barrier2 s)) true in
   let? ph := scan_potential s (Occ1 (mk_arr1 1 (fun _ => occ))) v1 v1 (VFix (fst pt)) (VFix (snd pt)) in
   let h' := snd ph in
   let? full := match fst ph with Pot1 a => Ok (at_sensor (cell1 a 0)) | Pot2 _ => Err TypeError end in
   let? l1 := subscript w1 in
   let? l2 := subscript w2 in
   let prow := pot_rows p in
   let pots := map (map at_sensor) prow in
   let? dists :=
     (if (length (ss_deform s) =? 0)%nat then Ok (map (map (fun _ => 0)) prow)
      else let? mid := calc_point s h' (pinch_off (ss_barrier1 s)) (pinch_off (ss_barrier2 s)) true in
           Ok (map (map (middle_dist s mid)) (volt_rows p l1 l2))) in
   match ss_peaks s with
   | None => Err TypeError
   | Some peaks =>
       let sorted := combine (seq 0 (length peaks)) (sort_peaks peaks) in
       let? mask := foldM (fun m x => let '(idx, (pk, id)) := x in label_peak s peaks pots dists idx pk id m)
                          (rev sorted) (map (map (fun _ => 0%nat)) prow) in
       let area (q : three) : nat :=
         let open := Rltb (pinch_off (ss_barrier1 s)) (at_barrier1 q) && Rltb (pinch_off (ss_barrier2 s)) (at_barrier2 q) in
         if open then if Rltb full (at_sensor q) then 2%nat else 1%nat else 0%nat in
       let cond := map (map area) prow in
       let coul := map (fun rc => map (fun qc => if (area (fst qc) =? 1)%nat then snd qc else 0%nat) (combine (fst rc) (snd rc)))
                       (combine prow mask) in
       Ok (mk_labels cond coul, h')
   end).

(** ** _reset_offset_mu_sens.py:38-43: the new offset. [csd] is the occupations get_csd_data returns for
    a resolution of 2. *)
Definition reset_offset (s : generic_sensor) (csd : R * R -> R * R -> result occupation) (target : R) (l1 l2 : R * R)
  : result generic_sensor :=
  let? occ := csd l1 l2 in
  let? pot := generic_potential s occ l1 l2 in
  match pot with
  | Img1 a => let? p0 := get1 a 0 in
              Ok (mk_generic (gs_peaks s) (gs_dot s) (gs_gate s) (target - (p0 - gs_offset s)))
  | Img2 _ => Err ValueError   (* potentials[0] is a row; the offset setter rejects arrays *)
  end.
(** ... for a sensor-scan sensor: potentials[0] is the array of sensor potentials (one per pixel),
    current offset an array of three numbers. numpy can subtract these only for one or three pixels, so
    never for the two pixels requested here. *)
Definition reset_offset_scan (s : scan_sensor) (csd : R * R -> R * R -> result occupation) (l1 l2 : R * R)
  : result unit :=
  let? occ := csd l1 l2 in
  let? ph := scan_potential s occ (VSweep (fst l1) (snd l1)) (VSweep (fst l2) (snd l2)) VNone VNone in
  match fst ph with
  | Pot1 a => if ((len1 a =? 1) || (len1 a =? 3))%nat then Ok tt else Err ValueError
  | Pot2 a => if ((cols a =? 1) || (cols a =? 3))%nat then Ok tt else Err ValueError
  end.
