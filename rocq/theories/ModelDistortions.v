(** Model of the distortion classes of simcats/distortions: activation, freezing, the conversion of
    volt-based parameters to pixels, and the noise types built on the dot-jump and block-loop model
    of ModelJumps.v.

    All random numbers come from an abstract generator state [G] (the numpy generator of the
    distortion together with the generators of its parameter samplers). A parameter that is a fixed
    number or a ParameterSamplingInterface is a function [G -> R * G]. When a call raises, the model
    returns only the exception; the state left behind by a failed call is not modelled. *)
From Verif Require Import RPrelude Arr ModelJumps.
Local Open Scope R_scope.

(** ** Voltage ranges and volt-to-pixel conversion *)
(** np.max(volt_limits) - np.min(volt_limits) *)
Definition volt_range (l : limits) : R := Rmax (fst l) (snd l) - Rmin (fst l) (snd l).
(** np.sort of a two-element array *)
Definition sort_limits (l : limits) : limits := (Rmin (fst l) (snd l), Rmax (fst l) (snd l)).
(** volt_limits[0] > volt_limits[1] *)
Definition descending (l : limits) : bool := Rltb (snd l) (fst l).
(** volt_limits[0] == volt_limits[1] *)
Definition fixed_gate (l : limits) : bool := Reqb (fst l) (snd l).

(** The shape of a scan: occupations.shape[0:2] for 2D (rows, cols), or the number of points. *)
Inductive shape := Shape1 (n : nat) | Shape2 (r c : nat).

(** Division by a zero voltage range gives inf or nan in numpy; every caller then raises (ValueError
    from rng.geometric, OverflowError when the filter radius is rounded), so the quotient is an error
    here, with the exception class collapsed to ValueError. *)
Definition div_range (n : nat) (l : limits) : result R :=
  if Reqb (volt_range l) 0 then Err ValueError else Ok (INR n / volt_range l).

(** Pixels per volt used by OccupationDotJumps.noise_function (_dot_jumps.py:172, 185-194):
    [resolution] is occupations.shape[0:2], so resolution[0] is the number of rows of a 2D scan. *)
Definition jump_px_per_volt (axis : Z) (sh : shape) (lim1 lim2 : limits) : result R :=
  match sh with
  | Shape2 r c =>
      if (axis =? 1)%Z then div_range r lim1
      else if (axis =? 0)%Z then div_range c lim2
      else Ok 1
  | Shape1 n =>
      if (axis =? 1)%Z then div_range n lim1
      else if (axis =? 0)%Z then div_range n lim2
      else Ok 1
  end.

(** Pixels per volt used by RandomTelegraphNoise.noise_function (_random_telegraph_noise.py:139-153) *)
Definition rtn_px_per_volt (sh : shape) (lim1 lim2 : limits) : result R :=
  match sh with
  | Shape2 r c =>
      if fixed_gate lim1 then div_range c lim2
      else if fixed_gate lim2 then div_range r lim1
      else let? a := div_range r lim1 in let? b := div_range c lim2 in Ok (Rmax a b)
  | Shape1 n =>
      let m := Rmax (volt_range lim1) (volt_range lim2) in
      if Reqb m 0 then Err ValueError else Ok (INR n / m)
  end.

(** Pixels per volt used by the transition blurring classes (_transition_blurring.py:103-121 and
    219-237, identical code) *)
Definition blur_px_per_volt (sh : shape) (lim1 lim2 : limits) : result R :=
  match sh with
  | Shape2 r c => div_range r lim1
  | Shape1 n =>
      if fixed_gate lim1 then div_range n lim2
      else if fixed_gate lim2 then div_range n lim1
      else let? a := div_range n lim1 in let? b := div_range n lim2 in Ok (Rmax a b)
  end.

(** ** Dot jumps *)
(** Occupations (two numbers per pixel) with the optional lead-transition array. *)
Inductive scan (A : Type) :=
| Scan1 (occ : arr1 (A * A)) (lead : option (arr1 A))
| Scan2 (occ : arr2 (A * A)) (lead : option (arr2 A)).
Arguments Scan1 {A}. Arguments Scan2 {A}.

Definition scan_shape {A} (s : scan A) : shape :=
  match s with
  | Scan1 occ _ => Shape1 (len1 occ)
  | Scan2 occ _ => Shape2 (rows occ) (cols occ)
  end.

Definition zip1 {A} (a b : arr1 A) : arr1 (A * A) := mk_arr1 (len1 a) (fun i => (cell1 a i, cell1 b i)).
Definition zip2 {A} (a b : arr2 A) : arr2 (A * A) :=
  mk_arr2 (rows a) (cols a) (fun i j => (cell a i j, cell b i j)).
Definition option_mapM {A B} (f : A -> result B) (o : option A) : result (option B) :=
  match o with None => Ok None | Some x => let? y := f x in Ok (Some y) end.

(** Activation flag and the recorded noise; the attribute __previous_noise does not exist before the
    first active call (_dot_jumps.py:55, 311-314). *)
Record jump_state := mk_jump_state { js_activated : option bool; js_noise : option (list nat) }.
Definition jump_init : jump_state := mk_jump_state None None.

Section DotJumpClass.
Context {A G : Type}.
Variable isnan : A -> bool.
Variable nan : A.
Variable junk : nat -> nat -> A.                         (* contents of np.empty *)
Variable have_gen : bool.                                (* generate_csd is not None *)
Variable gen1 : limits -> limits -> nat -> arr1 (A * A) * arr1 A.
Variable gen2 : limits -> limits -> nat * nat -> arr2 (A * A) * arr2 A.

(** _dot_jumps.py:203-257 with a given noise: sorting of the limits, flipping of the data, the jumps,
    flipping back. For a 2D scan with both limits descending the second flip replaces the first one
    (line 235 starts again from [occupations]), so only the columns are flipped. The arrays are views
    of the caller's arrays, so the in-place result equals the returned one. *)
Definition jump_apply (axis : Z) (noise : list nat) (s : scan A) (lim1 lim2 : limits) : result (scan A) :=
  let sl1 := sort_limits lim1 in
  let sl2 := sort_limits lim2 in
  match s with
  | Scan1 occ lead =>
      let desc := (descending lim2 || descending lim1)%bool in
      let fl := fun (X : Type) (a : arr1 X) => if desc then flip1 a else a in
      let run comp data :=
        jump1d_component isnan nan gen1 have_gen axis sl1 sl2 noise false comp
                         (fun r c => mk_arr2 r c junk) data in
      let? o1 := run (fun d => amap1 fst (fst d)) (amap1 fst (fl _ occ)) in
      let? o2 := run (fun d => amap1 snd (fst d)) (amap1 snd (fl _ occ)) in
      let? t := option_mapM (fun l => run snd (fl _ l)) lead in
      Ok (Scan1 (fl _ (zip1 o1 o2)) (option_map (fl _) t))
  | Scan2 occ lead =>
      let fl := fun (X : Type) (a : arr2 X) =>
        if descending lim1 then flip_cols a else if descending lim2 then flip_rows a else a in
      let run comp1 comp2 data :=
        jump2d_component isnan gen1 gen2 have_gen axis sl1 sl2 noise false comp1 comp2
                         (fun r c => mk_arr2 r c junk) data in
      let? o1 := run (fun d => amap1 fst (fst d)) (fun d => amap2 fst (fst d)) (amap2 fst (fl _ occ)) in
      let? o2 := run (fun d => amap1 snd (fst d)) (fun d => amap2 snd (fst d)) (amap2 snd (fl _ occ)) in
      let? t := option_mapM (fun l => run snd snd (fl _ l)) lead in
      Ok (Scan2 (fl _ (zip2 o1 o2)) (option_map (fl _) t))
  end.

(** shape[axis] in generate_dot_jumps_blockwise (_dot_jumps.py:592); a 1D scan is embedded in an
    n x n image first. Negative axes (legal Python indices) are not modelled. *)
Definition jump_size (axis : Z) (sh : shape) : result nat :=
  match sh with
  | Shape1 n => if ((axis =? 0) || (axis =? 1))%Z then Ok n else Err IndexError
  | Shape2 r c => if (axis =? 0)%Z then Ok r else if (axis =? 1)%Z then Ok c else Err IndexError
  end.

Variable binomial : G -> bool * G.                        (* rng.binomial(1, ratio) *)
Variable sample_scale sample_lam : G -> R * G.
Variable geometric : R -> nat -> G -> list nat * G.       (* rng.geometric(p, size) *)
Variable poisson : R -> G -> nat * G.                     (* rng.poisson(lam) *)

(** OccupationDotJumps.noise_function (_dot_jumps.py:113-257, noise drawing in 310-314 / 458-462) *)
Definition jump_noise_function (axis : Z) (freeze : bool) (st : jump_state) (g : G) (s : scan A)
    (lim1 lim2 : limits) : result (scan A * jump_state * G) :=
  let active := match js_activated st with Some true => true | _ => false end in
  if (freeze && negb active)%bool then Ok (s, st, g)
  else if freeze then
    match js_noise st with
    | None => Err AttributeError
    | Some noise => let? s' := jump_apply axis noise s lim1 lim2 in Ok (s', st, g)
    end
  else
    let '(act, g1) := binomial g in
    if negb act then Ok (s, mk_jump_state (Some false) (js_noise st), g1)
    else
      let '(scale_v, g2) := sample_scale g1 in
      let '(lam_v, g3) := sample_lam g2 in
      let? k := jump_px_per_volt axis (scan_shape s) lim1 lim2 in
      let scale_p := scale_v * k in
      let lam_p := lam_v * k in
      let scale := if Rltb scale_p 1 then 1 else scale_p in
      let? size := jump_size axis (scan_shape s) in
      let '(noise, g4) :=
        generate_dot_jumps_blockwise (poisson lam_p) false (geometric (1 / scale)) size g3 in
      let? s' := jump_apply axis noise s lim1 lim2 in
      Ok (s', mk_jump_state (Some true) (Some noise), g4).
End DotJumpClass.

(** ** Random telegraph noise *)
(** An image (2D) or a line (1D) of real numbers. *)
Inductive image := Img1 (a : arr1 R) | Img2 (a : arr2 R).
Definition image_shape (im : image) : shape :=
  match im with Img1 a => Shape1 (len1 a) | Img2 a => Shape2 (rows a) (cols a) end.
Definition shape_size (sh : shape) : nat := match sh with Shape1 n => n | Shape2 r c => (r * c)%nat end.

(** original + noise.reshape(original.shape): row-major order *)
Definition add_noise (im : image) (noise : list R) : image :=
  match im with
  | Img1 a => Img1 (mk_arr1 (len1 a) (fun i => cell1 a i + nth i noise 0))
  | Img2 a => Img2 (mk_arr2 (rows a) (cols a) (fun i j => cell a i j + nth (i * cols a + j) noise 0))
  end.

Section RTN.
Context {G : Type}.
Variable geometric : R -> nat -> G -> list nat * G.
Variable normal : R -> R -> G -> R * G.                   (* rng.normal(height, std) *)

(** random_telegraph_noise (_random_telegraph_noise.py:298-314). rng.geometric raises ValueError
    unless 0 < p <= 1; p = 1/scale, so unless 1 <= scale. *)
Definition random_telegraph_noise (im : image) (scale std height : R) (g : G) : result (image * G) :=
  if Reqb scale 0 then Ok (im, g)
  else if Rltb scale 1 then Err ValueError
  else
    let size := shape_size (image_shape im) in
    let '(lengths, g1) := geometric (1 / scale) size g in
    let '(noise, g2) := block_noise 0 (normal height std) lengths size g1 in
    Ok (add_noise im noise, g2).

(** _random_telegraph_noise_two_scales (_random_telegraph_noise.py:342-364): a fresh length is drawn
    for every block, quiet blocks draw no height. *)
Variable geometric1 : R -> G -> nat * G.
Fixpoint two_scales_loop (fuel size : nat) (p_burst p_quiet std height : R) (bi : bool)
    (noise : list R) (g : G) : list R * G :=
  match fuel with
  | O => (noise, g)
  | S f =>
      let '(noise', bi', g') :=
        if bi then
          let '(w, g1) := geometric1 p_burst g in
          let '(h, g2) := normal height std g1 in
          (noise ++ repeat h w, false, g2)
        else
          let '(w, g1) := geometric1 p_quiet g in
          (noise ++ repeat 0 w, true, g1) in
      if (size <=? length noise')%nat then (noise', g')
      else two_scales_loop f size p_burst p_quiet std height bi' noise' g'
  end.
Definition random_telegraph_noise_two_scales (im : image) (scale_burst scale_quiet std height : R) (g : G)
  : result (image * G) :=
  if Reqb scale_burst 0 then Ok (im, g)
  else if (Rltb scale_quiet 1 || Rltb scale_burst 1)%bool then Err ValueError
  else
    let size := shape_size (image_shape im) in
    let '(noise, g1) := two_scales_loop size size (1 / scale_burst) (1 / scale_quiet) std height false [] g in
    Ok (add_noise im (firstn size noise), g1).

Variable binomial : G -> bool * G.
Variable sample_scale sample_std sample_height : G -> R * G.
(** RandomTelegraphNoise.noise_function (_random_telegraph_noise.py:109-165); returns the image, the
    activated flag and the generator. *)
Definition rtn_noise_function (im : image) (lim1 lim2 : limits) (g : G) : result (image * bool * G) :=
  let '(act, g1) := binomial g in
  if negb act then Ok (im, false, g1)
  else
    let '(scale_v, g2) := sample_scale g1 in
    let? k := rtn_px_per_volt (image_shape im) lim1 lim2 in
    let scale := scale_v * k in
    let '(std, g3) := sample_std g2 in
    let '(height, g4) := sample_height g3 in
    let? r := random_telegraph_noise im scale std height g4 in
    Ok (fst r, true, snd r).
End RTN.

(** ** White and pink noise *)
Section AdditiveNoise.
Context {G : Type}.
(** rng.normal(0, sigma, size): numpy documents loc + scale * standard_normal, i.e. sigma times
    standard draws; standard draws are abstract. *)
Variable standard_normal : nat -> G -> list R * G.
Variable sample_sigma : G -> R * G.
(** cn.powerlaw_psd_gaussian(1, size, fmin, random_state): an abstract function (library) *)
Variable powerlaw : nat -> R -> G -> list R * G.

(** white_gaussian_noise (_white_noise.py:107); a negative sigma raises ValueError in numpy *)
Definition white_gaussian_noise (im : image) (sigma : R) (g : G) : result (image * G) :=
  if Rltb sigma 0 then Err ValueError
  else
    let '(z, g1) := standard_normal (shape_size (image_shape im)) g in
    Ok (add_noise im (map (fun x => 0 + sigma * x) z), g1).
(** WhiteNoise.noise_function (_white_noise.py:81-86): image, latest_sigma, generator *)
Definition white_noise_function (im : image) (g : G) : result (image * R * G) :=
  let '(sigma, g1) := sample_sigma g in
  let? r := white_gaussian_noise im sigma g1 in Ok (fst r, sigma, snd r).

(** pink_gaussian_noise (_pink_noise.py:126-128) *)
Definition pink_gaussian_noise (im : image) (scale fmin : R) (g : G) : image * G :=
  let '(z, g1) := powerlaw (shape_size (image_shape im)) fmin g in
  (add_noise im (map (fun x => x * scale) z), g1).
(** PinkNoise.noise_function (_pink_noise.py:93-98) *)
Definition pink_noise_function (im : image) (fmin : R) (g : G) : image * R * G :=
  let '(sigma, g1) := sample_sigma g in
  let '(im', g2) := pink_gaussian_noise im sigma fmin g1 in (im', sigma, g2).
End AdditiveNoise.

(** ** Transition blurring *)
(** scipy.ndimage boundary mode "reflect" (d c b a | a b c d | d c b a): half-sample symmetric, period
    2n; the index function of the library, written from its documentation. *)
Definition reflect_index (n : nat) (i : Z) : nat :=
  let m := (i mod (2 * Z.of_nat n))%Z in
  Z.to_nat (if (m <? Z.of_nat n)%Z then m else 2 * Z.of_nat n - 1 - m)%Z.

(** offsets -radius..radius *)
Definition offsets (radius : nat) : list Z :=
  map (fun k => Z.of_nat k - Z.of_nat radius)%Z (seq 0 (2 * radius + 1)).

(** scipy.ndimage.convolve1d of one line of length n with a kernel of size 2*radius+1 (library,
    written from its documentation): output i = sum over offsets d of weight(d) * line(i - d). *)
Definition convolve_line (w : Z -> R) (radius n : nat) (line : nat -> R) (i : nat) : R :=
  Rsum (map (fun d => w d * line (reflect_index n (Z.of_nat i - d))) (offsets radius)).

Definition cosh' (x : R) : R := (exp x + exp (- x)) / 2.
(** fermi_dirac_derivative (_fermi_filter1d.py:27) *)
Definition fermi_dirac_derivative (x x0 sigma : R) : R :=
  (1 / 2 * (1 / cosh' ((x - x0) / sigma)) ^ 2) / sigma.
(** kernel /= np.sum(kernel) *)
Definition normalised (k : Z -> R) (radius : nat) (d : Z) : R := k d / Rsum (map k (offsets radius)).

(** fermi_filter1d along a line (_fermi_filter1d.py:67-74); [round] is Python's round to the nearest
    integer, ties to even (abstract here: any radius). *)
Definition fermi_kernel (sigma : R) (d : Z) : R := fermi_dirac_derivative (IZR d) 0 sigma.
(** scipy.ndimage.gaussian_filter1d (library): weights exp(-0.5 d^2 / sigma^2) normalised; radius
    int(4 sigma + 0.5). *)
Definition gaussian_kernel (sigma : R) (d : Z) : R := exp (- (1 / 2) / (sigma ^ 2) * (IZR d) ^ 2).

Definition filter_line (kernel : R -> Z -> R) (radius : R -> nat) (sigma : R) (n : nat) (line : nat -> R) : nat -> R :=
  convolve_line (normalised (kernel sigma) (radius sigma)) (radius sigma) n line.

Definition blur_scan (kernel : R -> Z -> R) (radius : R -> nat) (sigma : R) (s : scan R) : scan R :=
  match s with
  | Scan1 occ lead =>
      Scan1 (mk_arr1 (len1 occ) (fun i =>
        (filter_line kernel radius sigma (len1 occ) (fun k => fst (cell1 occ k)) i,
         filter_line kernel radius sigma (len1 occ) (fun k => snd (cell1 occ k)) i))) lead
  | Scan2 occ lead =>
      Scan2 (mk_arr2 (rows occ) (cols occ) (fun r i =>
        (filter_line kernel radius sigma (cols occ) (fun k => fst (cell occ r k)) i,
         filter_line kernel radius sigma (cols occ) (fun k => snd (cell occ r k)) i))) lead
  end.

Section Blurring.
Context {G : Type}.
Variable sample_sigma : G -> R * G.
Variable kernel : R -> Z -> R.
Variable radius : R -> nat.
(** OccupationTransitionBlurringFermiDirac / Gaussian .noise_function (_transition_blurring.py:94-124,
    210-240; identical except for the filter). The state is latest_sigma; a frozen call before any
    other call compares None with 0 (TypeError). *)
Definition blur_noise_function (freeze : bool) (st : option R) (g : G) (s : scan R) (lim1 lim2 : limits)
  : result (scan R * option R * G) :=
  let? sg := (if freeze then match st with Some x => Ok (x, g) | None => Err TypeError end
              else Ok (sample_sigma g)) in
  let '(sigma, g1) := sg in
  if Rltb 0 sigma then
    let? k := blur_px_per_volt (scan_shape s) lim1 lim2 in
    Ok (blur_scan kernel radius (sigma * k) s, Some sigma, g1)
  else Ok (s, Some sigma, g1).
End Blurring.
