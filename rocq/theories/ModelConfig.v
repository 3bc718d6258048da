(** Model of simcats/config_samplers/_GaAs_v1_random_variations_v3_config_sampler.py, except for the
    ideal CSD (ModelConfigCsd.v). Line numbers refer to this file.

    All random generators together are one abstract state [G]. numpy's uniform raises ValueError for a
    negative range. Rejection loops get a bound [fuel] on the number of draws and end with OutOfFuel;
    a call that never returns does so for every bound. *)
From Verif Require Import RPrelude Arr ModelSupport ModelCsd ModelDistortions ModelSampling ModelSensor ModelSimulation.
Local Open Scope R_scope.

(** A SensorPeakLorentzian object; the setter rejects widths that are not positive
    (_sensor_peak_lorentzian.py:45-48). *)
Record lorentz := mk_lorentz { lz_mu0 : R; lz_gamma : R; lz_height : R; lz_offset : R }.
Definition new_lorentz (m gam h off : R) : result lorentz :=
  raise_if (Rleb gam 0) ValueError (Ok (mk_lorentz m gam h off)).
Definition lorentz_peak (p : lorentz) : peak :=
  mk_peak (lz_mu0 p) (sensor_response_lorentz (lz_gamma p) (lz_height p) (lz_offset p)).

(** np.gradient of n samples (spacing 1) and np.argmax (first index of a maximum) of n + 1 samples *)
Definition np_gradient (f : nat -> R) (n i : nat) : R :=
  if (i =? 0)%nat then f 1%nat - f 0%nat
  else if (i =? n - 1)%nat then f (n - 1)%nat - f (n - 2)%nat
  else (f (i + 1)%nat - f (i - 1)%nat) / 2.
Fixpoint np_argmax (f : nat -> R) (n : nat) : nat :=
  match n with
  | O => O
  | S k => let m := np_argmax f k in if Rltb (f m) (f n) then n else m
  end.

Section Config.
Context {G : Type}.
Variable r : rng G.
Variable choice : nat -> nat -> G -> nat * G.     (* rng.choice(np.arange(a, b + 1)) *)
Variable fuel : nat.

Definition lift {A} (x : result A) : action G A := fun g => (x, g).
Definition uniform (lo hi : R) : action G R := fun g =>
  if Rltb hi lo then (Err ValueError, g) else let '(v, g1) := r_uniform r lo hi g in (Ok v, g1).
Definition choose (a b : nat) : action G nat := fun g => let '(n, g1) := choice a b g in (Ok n, g1).
(** A new range sampler, used once; the uniform sampler raises ValueError for a negative range, too. *)
Definition sample (a : sampler_args) (total : R * R) : action G R := fun g =>
  let '(s, _, g1) := new_sampler r a total None g in
  match sample_parameter r fuel s g1 with
  | None => (Err OutOfFuel, g1)
  | Some (v, _, g2) => (Ok v, g2)
  end.
Definition sample_uniform (total : R * R) : action G R := fun g =>
  if Rltb (snd total) (fst total) then (Err ValueError, g) else sample AUniform total g.
(** NormalSamplingRange with total_range (lo, np.inf) and given mean: no number is above infinity. *)
Fixpoint normal_above_loop (n : nat) (lo std mean : R) : action G R := fun g =>
  match n with
  | O => (Err OutOfFuel, g)
  | S k => let '(v, g1) := r_normal r mean std g in
           if Rltb v lo then normal_above_loop k lo std mean g1 else (Ok v, g1)
  end.
Definition normal_above := normal_above_loop fuel.

(** ** Lever arms of the plunger gates and dots, lines 267-313 and 728-787 (the same code): gates, dots *)
Definition sample_lever_arms (q : R) (compensated : bool) : action G ((R * R) * (R * R)) :=
  let '(gate_1_min, gate_1_max) := if compensated then (0.0001, 0.0005) else (0.02805, 0.15093) in
  let dot_1_min := -0.0007994 in
  let dot_1_max := dot_1_min + q * (-0.0000961 - dot_1_min) in
  let dot_2_min := -0.0005214 in
  let dot_2_max := dot_2_min + q * (-0.0000630 - dot_2_min) in
  do gate_1 <- uniform gate_1_min gate_1_max;
  do gate_2 <- uniform (0.5 * gate_1) (2 * gate_1);
  let temp_1_max := Rmin (2 * gate_1 * -0.03 / 100) dot_1_max in
  do dot_1 <- uniform dot_1_min temp_1_max;
  let temp_2_max := Rmin (Rmin (0.5 * dot_1) (2 * gate_2 * -0.03 / 100)) dot_2_max in
  let temp_2_max' := if Rltb temp_2_max dot_2_min then dot_2_max else temp_2_max in
  let temp_2_min := Rmax (2 * dot_1) dot_2_min in
  do dot_2 <- uniform temp_2_min temp_2_max';
  ret ((gate_1, gate_2), (dot_1, dot_2)).

(** ** sample_SensorGeneric, lines 233-386 *)
(** np.min of a non-empty list *)
Fixpoint min_list (x : R) (l : list R) : R :=
  match l with [] => x | y :: t => Rmin x (min_list y t) end.
Definition nearest_distance (x : R) (ps : list R) : R :=
  match map (fun p => Rabs (x - p)) ps with [] => 0 | y :: t => min_list y t end.
(** The placement loop, lines 344-352; [tries] further draws are allowed, [counter] is the variable of
    that name *)
Fixpoint place (tries counter : nat) (lo hi : R) (n : nat) (earlier : list R) (x : R) : action G R :=
  if (Rleb (nearest_distance x earlier) ((hi - lo) / (INR n * 1.5)) && (counter <? 1000)%nat)
     || Rleb (nearest_distance x earlier) ((hi - lo) / (INR n * 2))
  then match tries with
       | O => fail OutOfFuel
       | S k => do y <- uniform lo hi; place k (S counter) lo hi n earlier y
       end
  else ret x.
(** One iteration of the loop over the peaks, lines 335-374. *)
Definition add_generic_peak (lo hi scale : R) (n : nat) (ps : list lorentz) : action G (list lorentz) :=
  do gam <- uniform 0.0009636 0.0029509;
  do x <- uniform lo hi;
  do m <- match ps with [] => ret x | _ => place fuel 0 lo hi n (map lz_mu0 ps) x end;
  do off <- match ps with
            | [] => uniform (-0.42275) (-0.0838)
            | p :: _ => uniform (lz_offset p * 1.2) (lz_offset p * 0.8)
            end;
  do h <- match ps with
          | [] => sample (AExponential scale) (0.19204, 0.02245)
          | p :: _ => uniform (lz_height p * 0.8) (lz_height p * 1.2)
          end;
  do p <- lift (new_lorentz m gam h off);
  ret (ps ++ [p]).
Fixpoint add_generic_peaks (lo hi scale : R) (n todo : nat) (ps : list lorentz) : action G (list lorentz) :=
  match todo with
  | O => ret ps
  | S k => do ps' <- add_generic_peak lo hi scale n ps; add_generic_peaks lo hi scale n k ps'
  end.
(** Lines 315-320: the two potentials between which the peaks are placed *)
Definition potential_range (gates dots : R * R) : result (R * R) :=
  let s := mk_generic None dots gates 0 in
  let? im := generic_potential s (Occ1 (of_list1 (0, 0) [(0, 0); (5, 5)])) (-0.2, -0.06) (-0.2, -0.06) in
  match im with
  | Img1 a => Ok (Rmin (cell1 a 0) (cell1 a 1), Rmax (cell1 a 0) (cell1 a 1))
  | Img2 _ => Err TypeError
  end.
(** Lines 377-386: the sample with the steepest rise of the response *)
Definition steepest_point (ps : list peak) (lo hi : R) : R :=
  let n := Z.to_nat 1000000 in
  let x := grid (lo - 0.2 * (hi - lo), hi + 0.2 * (hi - lo)) n in
  x (np_argmax (np_gradient (fun i => sum_peaks ps (x i)) n) (n - 1)).
Definition sample_generic_peaks (q : R) (compensated : bool)
  : action G ((R * R) * (R * R) * (R * R) * list lorentz) :=
  let scale := 0.6 * q / ln (1 / (1 - 0.99)) in
  do (gates, dots) <- sample_lever_arms q compensated;
  do (lo, hi) <- lift (potential_range gates dots);
  do n <- choose 3 6;
  do ps <- add_generic_peaks lo hi scale n n [];
  ret (gates, dots, (lo, hi), ps).
Definition sample_sensor_generic (q : R) (compensated steepest : bool) : action G generic_sensor :=
  do (gates, dots, (lo, hi), ps) <- sample_generic_peaks q compensated;
  ret (mk_generic (Some (map lorentz_peak ps)) dots gates
         (if steepest then steepest_point (map lorentz_peak ps) lo hi else 0)).

(** ** Peaks of a sensor-scan sensor *)
(** _sensor_peak_list_add_peak, lines 389-500 *)
Definition add_scan_peak (ps : list lorentz) (ref_height base : R) : action G (list lorentz) :=
  let gamma_rel := sample (ANormal (0.4695086254881995 / 2) (Some 1.25)) (0.85, 1.5) in
  do (m, gam) <-
    match ps with
    | [] => do gam <- normal_above 0 (3.6990706645585366e-05 / 2) (9.878642853157584e-05 * 2.5); ret (base, gam)
    | [p] =>
        do dif <- sample (ANormal (0.00023884164727643042 / 2) (Some (0.002902416771776037 * 2.5)))
                    (0, 0.00367179654343025 * 4);
        do rel <- gamma_rel;
        ret (lz_mu0 p + dif, lz_gamma p * rel)
    | p0 :: p1 :: rest =>
        let l := last rest p1 in
        let std := 0.09509839063162284 / 2 in
        do z <- sample (ANormal std (Some 0)) (-1 * std, 1 * std);
        let rel_dif := z + -0.0374000174907983 / 4 * (INR (Nat.min (length ps) 10) - 1) + 1.0189427890611187 in
        do rel <- gamma_rel;
        let gam := lz_gamma l * rel in
        do gam' <- (if Rltb 0.002 gam then sample_uniform (0.002 * (1 - 0.1), 0.002 * (1 + 0.1)) else ret gam);
        ret (lz_mu0 l + rel_dif * (lz_mu0 p1 - lz_mu0 p0), gam')
    end;
  do s <- normal_above (- ref_height) (0.04720315300812465 / 2) 0;
  do p <- lift (new_lorentz m gam (ref_height + s) 0);
  ret (ps ++ [p]).
(** _sample_sensor_peak_list, lines 503-526 *)
Fixpoint add_scan_peaks (todo : nat) (ref_height base : R) (ps : list lorentz) : action G (list lorentz) :=
  match todo with
  | O => ret ps
  | S k => do ps' <- add_scan_peak ps ref_height base; add_scan_peaks k ref_height base ps'
  end.

(** sample_sensor_function, lines 528-603: int() of a non-negative number, maximum of 500000 samples *)
Definition max_samples (f : nat -> R) (n : nat) : R := f (np_argmax f (n - 1)).
Definition sample_sensor_function (off q : R) : action G (list lorentz * rise_params) :=
  do ref_height <- sample (ANormal 0.04804196857755959 (Some (0.07543071921134054 * q))) (0, 1);
  do x <- sample_uniform (20, 30);
  do ps <- add_scan_peaks (Z.to_nat (Int_part x)) ref_height off [];
  let n := Z.to_nat 500000 in
  let maximum := max_samples (fun i => sum_peaks (map lorentz_peak ps) (grid (-5, 5) n i)) n in
  do growth <- sample_uniform (400, 600);
  do asym <- sample_uniform (0.01, 1);
  do shape <- sample_uniform (0.01, 100);
  ret (ps, {| rise_glf := {| asymptote_left := 0; asymptote_right := maximum * 1.05; growth_rate := growth;
                             asymmetry := asym; shape_factor := shape; denominator_offset := 1; offset := 0 |};
              rise_mu0 := 0; rise_percentage := 0.95 |}).

(** ** Barriers: sample_barrier_function, lines 606-629, and _sample_simple_barrier_function, 632-682 *)
Definition sample_simple_barrier (off height q pinch full : R) : action G (glf_params * barrier) :=
  do growth <- sample_uniform (20, 40);
  do asym <- sample_uniform (0.000001, 0.0001);
  do shape <- sample_uniform (0.01, 100);
  let p o := {| asymptote_left := 0; asymptote_right := height * q; growth_rate := growth; asymmetry := asym;
                shape_factor := shape; denominator_offset := 1; offset := o |} in
  let pinch_off := inverse_glf (p 0) (height * q * pinch) in
  do b <- lift (barrier_glf (p (off - pinch_off)) pinch full);
  ret (p (off - pinch_off), b).
Definition sample_barrier (off height q : R) : action G (glf_params * barrier) :=
  sample_simple_barrier off height q 0.001 0.999.

(** ** sample_SensorScanSensorGeneric, lines 685-852 (include_deformations is False) *)
Record scan_sample := mk_scan_sample {
  sp_sensor_gate : rows3; sp_gates : R * R; sp_dots : R * R; sp_base : R * R;
  sp_barrier1 : barrier; sp_barrier2 : barrier; sp_peaks : list lorentz; sp_rise : rise_params }.
Definition sample_scan_sensor (q : R) (compensated : bool) : action G scan_sample :=
  do ratio <- sample (ANormal 0.0846429965722433 (Some 0.9986776964521298)) (0, 2);
  do _ <- (if Reqb ratio 0 then fail ZeroDivisionError else ret tt);
  let mx := Rmax 1 (1 / ratio) in
  let row_sensor := (1 / mx * 0.1, 1 / ratio / mx * 0.1) in
  do c1 <- sample_uniform (0.1, 0.3);
  do c2 <- sample_uniform (0.1, 0.3);
  let row_barrier1 := (0.99, c1) in
  let row_barrier2 := (c2, 0.99) in
  do (gates, dots) <- sample_lever_arms q compensated;
  do b1 <- sample_uniform (-0.688, -0.509);
  do b2 <- sample_uniform (-0.688, -0.509);
  do (ps, rise) <- sample_sensor_function (dot2 row_sensor (b1, b2) - 0.005 * 10) q;
  do (_, bar1) <- sample_barrier (dot2 row_barrier1 (b1, b2)) 0.25 q;
  do (_, bar2) <- sample_barrier (dot2 row_barrier2 (b1, b2)) 0.25 q;
  ret (mk_scan_sample (mk_rows3 row_sensor row_barrier1 row_barrier2) gates dots (b1, b2) bar1 bar2 ps rise).
End Config.

(** ** Distortions, lines 855-905 and 929-1058: the attributes of the sampled objects; [Drawn] stands for
    an ExponentialSamplingRange or NormalSamplingRange object *)
Inductive strength := Fixed (x : R) | Drawn (a : sampler_args) (total : R * R).
Inductive distortion :=
| FermiDirac (sigma : strength)
| DotJumps (ratio scale lam : R) (axis : nat)
| PinkNoise (sigma : strength)
| WhiteNoise (sigma : strength)
| TelegraphNoise (scale std height ratio : R).
Definition exponential_scale (q : R) : R := 0.6 * q / ln (1 / (1 - 0.99)).
Definition sample_occupation_distortions (q : R) : list distortion :=
  let smin := 0.25 * 0.03 / 100 in let smax := 2 * 0.03 / 100 in
  [FermiDirac (Drawn (ANormal ((smax - smin) / 6) None) (smin, smax));
   DotJumps 0.01 (100 * 0.03 / 100) (6 * 0.03 / 100) 0;
   DotJumps (0.01 / 6) (100 * 0.03 / 100) (6 * 0.03 / 100) 1].
Definition sample_potential_distortions (q : R) : list distortion :=
  [PinkNoise (Drawn (AExponential (exponential_scale q)) (1e-10, 0.0005));
   TelegraphNoise (74.56704 * 0.03 / 100) 3.491734e-05 2.53855325e-05 (1 / 6 * q)].
Definition sample_response_distortions (q : R) : list distortion :=
  [TelegraphNoise (10000 * 0.03 / 100) 0.047453767599999995 0.0152373696 (0.01 * q);
   WhiteNoise (Drawn (AExponential (exponential_scale q)) (1e-10, 0.0005))].

(** ** sample_random_variations_v3_config, lines 38-86. The ideal CSD sampler is an argument. *)
Inductive sensor_choice := ChooseGeneric | ChooseScan | ChooseOther.
Inductive sampled_sensor := SampledGeneric (s : generic_sensor) | SampledScan (s : scan_sample).
Record sampled_config := mk_sampled_config {
  sc_limits_g1 : R * R; sc_limits_g2 : R * R; sc_limits_sensor_g1 : R * R; sc_limits_sensor_g2 : R * R;
  sc_sensor : sampled_sensor; sc_occupation : list distortion; sc_potential : list distortion;
  sc_response : list distortion }.
Definition sample_config {G C} (r : rng G) (choice : nat -> nat -> G -> nat * G) (fuel : nat)
  (sample_csd : action G C) (kind : sensor_choice) (q : R) (compensated steepest : bool)
  : action G (C * sampled_config) :=
  do _ <- (if Rltb 0 q && Rleb q 1 then ret tt else fail ValueError);
  do csd <- sample_csd;
  do s <- match kind with
          | ChooseGeneric => do s <- sample_sensor_generic r choice fuel q compensated steepest; ret (SampledGeneric s)
          | ChooseScan => do s <- sample_scan_sensor r fuel q compensated; ret (SampledScan s)
          | ChooseOther => fail ValueError
          end;
  ret (csd, mk_sampled_config (-0.2, -0.06) (-0.2, -0.06) (-1, 0) (-1, 0) s
              (sample_occupation_distortions 1) (sample_potential_distortions 1) (sample_response_distortions 1)).
