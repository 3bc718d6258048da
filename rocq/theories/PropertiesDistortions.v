(** Property theorems for the distortions (C35-C43, C57-C61). *)
From Verif Require Import RPrelude Arr ModelJumps SpecJumps ProofsJumps ModelDistortions SpecDistortions ProofsDistortions.
Local Open Scope R_scope.

(** C35 blockwise dot jumps *)
Theorem C35_blockwise {A} (isnan : A -> bool) (o empty : arr2 A) noise :
  same_shape empty o ->
  (length noise = cols o ->
   exists out, dot_jumps_blockwise isnan o empty false noise 1 = Ok out /\ same_shape out o /\
     forall i p, (i < rows o)%nat -> (p < cols o)%nat ->
       cell out i p = jumped isnan (cell o i) (nth p noise 0%nat) p) /\
  (length noise = rows o ->
   exists out, dot_jumps_blockwise isnan o empty false noise 0 = Ok out /\ same_shape out o /\
     forall p j, (p < rows o)%nat -> (j < cols o)%nat ->
       cell out p j = jumped isnan (fun r => cell o r j) (nth p noise 0%nat) p) /\
  (forall axis, axis <> 0%Z -> axis <> 1%Z ->
     dot_jumps_blockwise isnan o empty false noise axis = Err NotImplementedError) /\
  (forall axis, dot_jumps_blockwise isnan o empty true noise axis = Ok o).
Proof. exact (blockwise_both isnan o empty noise). Qed.
Print Assumptions C35_blockwise.

Example C35_example :
  match dot_jumps_blockwise (fun x => (x =? 0)%nat) (of_list2 0%nat [[1; 2; 3; 4]; [5; 0; 7; 8]]%nat)
          (mk_arr2 2 4 (fun _ _ => 99%nat)) false [0; 0; 1; 1]%nat 1 with
  | Ok out => to_list2 out = [[1; 2; 2; 3]; [5; 0; 7; 7]]%nat
  | Err _ => False
  end.
Proof. vm_compute. reflexivity. Qed.

(** C36 pixelwise dot jumps *)
Theorem C36_pixelwise {A} (o empty : arr2 A) (noise : arr2 nat) :
  same_shape empty o -> same_shape noise o ->
  exists out, dot_jumps_pixelwise o empty false noise = Ok out /\ same_shape out o /\
    forall i j, (i < rows o)%nat -> (j < cols o)%nat -> cell out i j = cell o i (j - cell noise i j).
Proof. exact (pixelwise_ok o empty noise). Qed.
Print Assumptions C36_pixelwise.

Example C36_example :
  match dot_jumps_pixelwise (of_list2 0%nat [[1; 2; 3; 4]; [5; 6; 7; 8]]%nat)
          (mk_arr2 2 4 (fun _ _ => 99%nat)) false (of_list2 0%nat [[0; 3; 1; 0]; [0; 0; 2; 1]]%nat) with
  | Ok out => to_list2 out = [[1; 1; 2; 4]; [5; 6; 5; 7]]%nat
  | Err _ => False
  end.
Proof. vm_compute. reflexivity. Qed.

(** C37 the jump pattern *)
Theorem C37_jump_pattern {G} (poisson : G -> nat * G) widths size g :
  (forall w, In w (fst (widths size g)) -> (0 < w)%nat) -> length (fst (widths size g)) = size ->
  quiet_jump_pattern 0%nat size (fst (generate_dot_jumps_blockwise poisson false widths size g)) /\
  (forall x, In x (fst (generate_dot_jumps_blockwise poisson false widths size g)) -> (x < 256)%nat).
Proof. exact (generate_jumps_pattern poisson widths size g). Qed.
Print Assumptions C37_jump_pattern.

Example C37_example :
  fst (generate_dot_jumps_blockwise (fun g => (g, S g)) false (fun _ g => ([2; 1; 1; 3; 1; 9]%nat, g)) 6%nat 3%nat) =
  [0; 0; 4; 0; 6; 6]%nat.
Proof. reflexivity. Qed.

(** C61 "the height of a jump is the Poisson draw": false for draws of 256 pixels and more, which are
    reduced modulo 256 by the uint8 cast; a draw of 256 is no jump at all. *)
Theorem C61_jump_height_refuted : exists (poisson : nat -> nat * nat) (widths : nat -> nat -> list nat * nat),
  fst (generate_dot_jumps_blockwise poisson false widths 2%nat 0%nat) = [0; 0]%nat /\
  forall g, fst (poisson g) = 256%nat.
Proof. exact uint8_wraps. Qed.
Print Assumptions C61_jump_height_refuted.

(** C38 random telegraph noise *)
Theorem C38_rtn {G} (geometric : R -> nat -> G -> list nat * G) normal im scale std height g :
  (forall p size g, length (fst (geometric p size g)) = size /\
     forall w, In w (fst (geometric p size g)) -> (0 < w)%nat) ->
  1 <= scale ->
  exists out g' noise, random_telegraph_noise geometric normal im scale std height g = Ok (out, g') /\
    image_shape out = image_shape im /\
    quiet_jump_pattern 0 (length (pixels im)) noise /\
    pixels out = plus_pixels (pixels im) noise.
Proof. rewrite (length_pixels im). exact (rtn_spec geometric normal im scale std height g). Qed.
Print Assumptions C38_rtn.

Theorem C38_rtn_two_scales {G} normal (geometric1 : R -> G -> nat * G) im sb sq std height g :
  (forall p g, (0 < fst (geometric1 p g))%nat) -> 1 <= sb -> 1 <= sq ->
  exists out g' noise, random_telegraph_noise_two_scales normal geometric1 im sb sq std height g = Ok (out, g') /\
    image_shape out = image_shape im /\
    quiet_jump_pattern 0 (length (pixels im)) noise /\
    pixels out = plus_pixels (pixels im) noise.
Proof. rewrite (length_pixels im). exact (two_scales_spec normal geometric1 im sb sq std height g). Qed.
Print Assumptions C38_rtn_two_scales.

Example C38_example :
  exists out g', random_telegraph_noise (fun _ n (g : nat) => (repeat 2%nat n, g)) (fun h _ g => (h, g))
     (Img2 (of_list2 0 [[1; 2]; [3; 4]])) 2 0 5 0%nat = Ok (out, g') /\ pixels out = [1 + 0; 2 + 0; 3 + 5; 4 + 5].
Proof.
  unfold random_telegraph_noise. rewrite Reqb_false, Rltb_false by (try intro; lra).
  eexists _, _. split; reflexivity.
Qed.

(** C60 random telegraph noise at low resolution: an active call raises when the burst length is
    below one pixel (the dot jumps clamp to one pixel instead). *)
Theorem C60_rtn_active {G} (geometric : R -> nat -> G -> list nat * G) normal binomial
    (sample_scale sample_std sample_height : G -> R * G) im lim1 lim2 g k :
  fst (binomial g) = true ->
  rtn_px_per_volt (image_shape im) lim1 lim2 = Ok k ->
  let scale := fst (sample_scale (snd (binomial g))) * k in
  let rtn := rtn_noise_function geometric normal binomial sample_scale sample_std sample_height in
  (forall p size g, length (fst (geometric p size g)) = size /\
     forall w, In w (fst (geometric p size g)) -> (0 < w)%nat) ->
  (1 <= scale -> exists out g' noise, rtn im lim1 lim2 g = Ok (out, true, g') /\
     image_shape out = image_shape im /\
     quiet_jump_pattern 0 (length (pixels im)) noise /\
     pixels out = plus_pixels (pixels im) noise) /\
  (scale < 1 -> scale <> 0 -> rtn im lim1 lim2 g = Err ValueError).
Proof. rewrite (length_pixels im). exact (rtn_active geometric normal binomial sample_scale sample_std sample_height im lim1 lim2 g k). Qed.
Print Assumptions C60_rtn_active.

Theorem C60_low_resolution_refuted :
  exists (im : image) (lim1 lim2 : limits),
    fst lim1 < snd lim1 /\ fst lim2 < snd lim2 /\
    forall (geometric : R -> nat -> unit -> list nat * unit) normal,
    (forall p size g, length (fst (geometric p size g)) = size /\
       forall w, In w (fst (geometric p size g)) -> (0 < w)%nat) ->
    rtn_noise_function geometric normal (fun g => (true, g)) (fun g => (1 / 100, g)) (fun g => (1, g)) (fun g => (1, g))
      im lim1 lim2 tt = Err ValueError.
Proof. exact rtn_low_resolution. Qed.
Print Assumptions C60_low_resolution_refuted.
Example C60_example : exists out g',
  rtn_noise_function (fun _ n (g : nat) => (repeat 2%nat n, g)) (fun h _ g => (h, g)) (fun g => (true, S g)) (fun g => (1, g)) (fun g => (0, g)) (fun g => (5, g))
    (Img2 (of_list2 0 [[1; 2]; [3; 4]])) (0, 1) (0, 1) 7%nat = Ok (out, true, g') /\ pixels out = [1 + 0; 2 + 0; 3 + 5; 4 + 5].
Proof.
  unfold rtn_noise_function, rtn_px_per_volt, fixed_gate, div_range, random_telegraph_noise. cbn -[Rmax].
  assert (V : volt_range (0, 1) = 1) by (unfold volt_range; simpl; rewrite Rmax_right, Rmin_left; lra).
  rewrite V, (Reqb_false 0 1), (Reqb_false 1 0) by lra. cbn -[Rmax].
  assert (M : 1 * Rmax ((1 + 1) / 1) ((1 + 1) / 1) = 2) by (rewrite Rmax_left by lra; field).
  rewrite M, (Reqb_false 2 0), (Rltb_false 2 1) by lra. eexists _, _. split; reflexivity.
Qed.


(** C39 inactive distortions *)
Theorem C39_inactive {A G} (isnan : A -> bool) nan junk have_gen gen1 gen2 (binomial : G -> bool * G)
    sample_scale sample_lam geometric poisson axis st g s lim1 lim2 :
  let jump := jump_noise_function isnan nan junk have_gen gen1 gen2 binomial sample_scale sample_lam geometric poisson in
  (fst (binomial g) = false ->
   exists st', jump axis false st g s lim1 lim2 = Ok (s, st', snd (binomial g)) /\ js_activated st' = Some false) /\
  (js_activated st <> Some true -> jump axis true st g s lim1 lim2 = Ok (s, st, g)).
Proof.
  exact (conj (jump_inactive isnan nan junk have_gen gen1 gen2 binomial sample_scale sample_lam geometric poisson axis st g s lim1 lim2)
              (jump_frozen_inactive isnan nan junk have_gen gen1 gen2 binomial sample_scale sample_lam geometric poisson axis st g s lim1 lim2)).
Qed.
Print Assumptions C39_inactive.

Theorem C39_rtn_inactive {G} (geometric : R -> nat -> G -> list nat * G) normal binomial
    (sample_scale sample_std sample_height : G -> R * G) im lim1 lim2 g :
  fst (binomial g) = false ->
  rtn_noise_function geometric normal binomial sample_scale sample_std sample_height im lim1 lim2 g
  = Ok (im, false, snd (binomial g)).
Proof. exact (rtn_inactive geometric normal binomial sample_scale sample_std sample_height im lim1 lim2 g). Qed.
Print Assumptions C39_rtn_inactive.
Example C39_example : rtn_noise_function (fun _ n (g : nat) => (repeat 2%nat n, g)) (fun h _ g => (h, g)) (fun g => (false, S g)) (fun g => (1, g)) (fun g => (0, g)) (fun g => (5, g))
    (Img1 (of_list1 0 [1; 2])) (0, 1) (0, 1) 7%nat = Ok (Img1 (of_list1 0 [1; 2]), false, 8%nat).
Proof. reflexivity. Qed.


(** C40 frozen replay *)
Theorem C40_jump_replay {A G} (isnan : A -> bool) nan junk have_gen gen1 gen2 (binomial : G -> bool * G)
    sample_scale sample_lam geometric poisson axis st g s lim1 lim2 s' st' g' :
  let jump := jump_noise_function isnan nan junk have_gen gen1 gen2 binomial sample_scale sample_lam geometric poisson in
  jump axis false st g s lim1 lim2 = Ok (s', st', g') ->
  forall t gx, scan_shape t = scan_shape s ->
    match jump axis false st g t lim1 lim2 with
    | Ok (t', _, _) => jump axis true st' gx t lim1 lim2 = Ok (t', st', gx)
    | Err e => jump axis true st' gx t lim1 lim2 = Err e
    end.
Proof.
  exact (jump_frozen_replay isnan nan junk have_gen gen1 gen2 binomial sample_scale sample_lam geometric poisson axis st g s lim1 lim2 s' st' g').
Qed.
Print Assumptions C40_jump_replay.

Theorem C40_jump_frozen_pure {A G} (isnan : A -> bool) nan junk have_gen gen1 gen2 (binomial : G -> bool * G)
    sample_scale sample_lam geometric poisson axis st g s lim1 lim2 s' st' g' :
  jump_noise_function isnan nan junk have_gen gen1 gen2 binomial sample_scale sample_lam geometric poisson
    axis true st g s lim1 lim2 = Ok (s', st', g') -> st' = st /\ g' = g.
Proof.
  exact (jump_frozen_state isnan nan junk have_gen gen1 gen2 binomial sample_scale sample_lam geometric poisson axis st g s lim1 lim2 s' st' g').
Qed.
Print Assumptions C40_jump_frozen_pure.

Theorem C40_blur_replay {G} (sample_sigma : G -> R * G) kernel radius st g s lim1 lim2 s' st' g' :
  (blur_noise_function sample_sigma kernel radius false st g s lim1 lim2 = Ok (s', st', g') ->
   forall gx, blur_noise_function sample_sigma kernel radius true st' gx s lim1 lim2 = Ok (s', st', gx)) /\
  (blur_noise_function sample_sigma kernel radius true st g s lim1 lim2 = Ok (s', st', g') -> st' = st /\ g' = g).
Proof.
  exact (conj (blur_frozen sample_sigma kernel radius st g s lim1 lim2 s' st' g')
              (blur_frozen_state sample_sigma kernel radius st g s lim1 lim2 s' st' g')).
Qed.
Print Assumptions C40_blur_replay.

(** an active unfrozen call followed by a frozen one on other data of the same shape *)
Example C40_example :
  let jump := jump_noise_function (fun _ => false) 0%nat (fun _ _ => 0%nat) false
     (fun _ _ _ => (mk_arr1 0 (fun _ => (0, 0)%nat), mk_arr1 0 (fun _ => 0%nat)))
     (fun _ _ _ => (mk_arr2 0 0 (fun _ _ => (0, 0)%nat), mk_arr2 0 0 (fun _ _ => 0%nat)))
     (fun g : nat => (true, S g)) (fun g => (1, S g)) (fun g => (1, S g))
     (fun _ n g => (repeat 1%nat n, S g)) (fun _ g => (1%nat, S g)) in
  let s := Scan2 (of_list2 (0, 0)%nat [[(1, 1); (2, 2)]; [(3, 3); (4, 4)]]%nat) None in
  let t := Scan2 (of_list2 (0, 0)%nat [[(5, 5); (6, 6)]; [(7, 7); (8, 8)]]%nat) None in
  exists s' st' g', jump 1%Z false jump_init 0%nat s (0, 1) (0, 1) = Ok (s', st', g') /\
    js_noise st' = Some [0; 1]%nat /\
    exists t', jump 1%Z true st' 77%nat t (0, 1) (0, 1) = Ok (t', st', 77%nat) /\
      match t' with Scan2 o None => to_list2 o = [[(5, 5); (5, 5)]; [(7, 7); (7, 7)]]%nat | _ => False end.
Proof. exact jump_replay_example. Qed.

(** C41 blurring averages *)
Theorem C41_blur_averages {G} (sample_sigma : G -> R * G) kernel radius freeze st g s lim1 lim2 s' st' g' :
  (kernel = fermi_kernel \/ kernel = gaussian_kernel) ->
  blur_noise_function sample_sigma kernel radius freeze st g s lim1 lim2 = Ok (s', st', g') ->
  (0 < line_length s)%nat /\ (0 < line_count s)%nat ->
  line_length s' = line_length s /\ line_count s' = line_count s /\ scan_lead s' = scan_lead s /\
  (forall r lo hi, (r < line_count s)%nat ->
     (forall k, (k < line_length s)%nat -> lo <= fst (scan_line s r k) <= hi) ->
     forall i, (i < line_length s)%nat -> lo <= fst (scan_line s' r i) <= hi) /\
  (forall r lo hi, (r < line_count s)%nat ->
     (forall k, (k < line_length s)%nat -> lo <= snd (scan_line s r k) <= hi) ->
     forall i, (i < line_length s)%nat -> lo <= snd (scan_line s' r i) <= hi) /\
  (forall r lo hi, (r < line_count s)%nat ->
     (forall k, (k < line_length s)%nat -> lo <= fst (scan_line s r k) + snd (scan_line s r k) <= hi) ->
     forall i, (i < line_length s)%nat -> lo <= fst (scan_line s' r i) + snd (scan_line s' r i) <= hi).
Proof. exact (blur_bounds_both sample_sigma kernel radius freeze st g s lim1 lim2 s' st' g'). Qed.
Print Assumptions C41_blur_averages.

Theorem C41_blur_reverse {G} (sample_sigma : G -> R * G) kernel radius freeze st g s lim1 lim2 s' st' g' :
  (kernel = fermi_kernel \/ kernel = gaussian_kernel) ->
  (0 < line_length s)%nat /\ (0 < line_count s)%nat ->
  blur_noise_function sample_sigma kernel radius freeze st g s lim1 lim2 = Ok (s', st', g') ->
  exists t, blur_noise_function sample_sigma kernel radius freeze st g (reverse_lines s) (snd lim1, fst lim1) lim2
            = Ok (t, st', g') /\ eq_scan t (reverse_lines s').
Proof. exact (blur_reverse_both sample_sigma kernel radius freeze st g s lim1 lim2 s' st' g'). Qed.
Print Assumptions C41_blur_reverse.

Example C41_example :
  let s := Scan1 (of_list1 (0, 0) [(0, 1); (1, 0); (1, 0)]) None in
  exists s' st' g', blur_noise_function (fun g : nat => (1, S g)) fermi_kernel (fun _ => 2%nat) false None 0%nat s (0, 1) (0, 0)
    = Ok (s', st', g') /\ ((0 < line_length s)%nat /\ (0 < line_count s)%nat) /\
    (forall i, (i < 3)%nat -> fst (scan_line s' 0 i) + snd (scan_line s' 0 i) = 1) /\
    fst (scan_line s' 0 0) <> fst (scan_line s 0 0).
Proof. exact blur_example. Qed.

(** C42 volt-to-pixel conversion: right for square 2D scans and for 1D scans along one gate, wrong for
    every other 2D shape in the witness below. *)
Theorem C42_conversion_partial sh lim1 lim2 :
  square sh ->
  (forall axis, (axis = 0 \/ axis = 1)%Z ->
     (if (axis =? 1)%Z then fst lim1 <> snd lim1 else fst lim2 <> snd lim2) ->
     jump_px_per_volt axis sh lim1 lim2 = Ok (px_per_volt sh lim1 lim2 axis)) /\
  (fst lim1 <> snd lim1 -> fst lim2 <> snd lim2 -> (exists r c, sh = Shape2 r c) ->
     rtn_px_per_volt sh lim1 lim2 = Ok (Rmax (px_per_volt sh lim1 lim2 1) (px_per_volt sh lim1 lim2 0)) /\
     blur_px_per_volt sh lim1 lim2 = Ok (px_per_volt sh lim1 lim2 1)) /\
  (forall axis n, sh = Shape1 n -> (axis = 0 \/ axis = 1)%Z ->
     (if (axis =? 1)%Z then fst lim1 <> snd lim1 /\ fst lim2 = snd lim2
      else fst lim2 <> snd lim2 /\ fst lim1 = snd lim1) ->
     rtn_px_per_volt sh lim1 lim2 = Ok (px_per_volt sh lim1 lim2 axis) /\
     blur_px_per_volt sh lim1 lim2 = Ok (px_per_volt sh lim1 lim2 axis)).
Proof. exact (conversion_square sh lim1 lim2). Qed.
Print Assumptions C42_conversion_partial.

Theorem C42_conversion_refuted :
  exists r c lim1 lim2, fst lim1 < snd lim1 /\ fst lim2 < snd lim2 /\
    jump_px_per_volt 1 (Shape2 r c) lim1 lim2 <> Ok (px_per_volt (Shape2 r c) lim1 lim2 1) /\
    jump_px_per_volt 0 (Shape2 r c) lim1 lim2 <> Ok (px_per_volt (Shape2 r c) lim1 lim2 0) /\
    rtn_px_per_volt (Shape2 r c) lim1 lim2 <>
      Ok (Rmax (px_per_volt (Shape2 r c) lim1 lim2 1) (px_per_volt (Shape2 r c) lim1 lim2 0)) /\
    blur_px_per_volt (Shape2 r c) lim1 lim2 <> Ok (px_per_volt (Shape2 r c) lim1 lim2 1).
Proof. exact jump_factor_nonsquare. Qed.
Print Assumptions C42_conversion_refuted.
Example C42_example : jump_px_per_volt 1 (Shape2 10 10) (0, 1/2) (0, 2) = Ok 20 /\ jump_px_per_volt 0 (Shape2 10 10) (0, 1/2) (0, 2) = Ok 5.
Proof.
  destruct (C42_conversion_partial (Shape2 10 10) (0, 1/2) (0, 2) eq_refl) as (H & _).
  rewrite (H 1%Z), (H 0%Z) by (auto; simpl; lra).
  unfold px_per_volt, pixels_along, range_along. simpl. rewrite !Rabs_pos_eq by lra. split; f_equal; field.
Qed.


(** C43 white and pink noise *)
Theorem C43_white {G} (standard_normal : nat -> G -> list R * G) sample_sigma im g :
  (forall n g, length (fst (standard_normal n g)) = n) ->
  let sigma := fst (sample_sigma g) in
  (0 <= sigma ->
   exists out g' noise, white_noise_function standard_normal sample_sigma im g = Ok (out, sigma, g') /\
     image_shape out = image_shape im /\ length noise = length (pixels im) /\
     pixels out = plus_pixels (pixels im) noise /\
     (sigma = 0 -> pixels out = pixels im)) /\
  (sigma < 0 -> white_noise_function standard_normal sample_sigma im g = Err ValueError).
Proof. exact (white_spec standard_normal sample_sigma im g). Qed.
Print Assumptions C43_white.

Theorem C43_pink {G} sample_sigma (powerlaw : nat -> R -> G -> list R * G) im fmin g :
  (forall n f g, length (fst (powerlaw n f g)) = n) ->
  let sigma := fst (sample_sigma g) in
  exists out g' noise, pink_noise_function sample_sigma powerlaw im fmin g = (out, sigma, g') /\
    image_shape out = image_shape im /\ length noise = length (pixels im) /\
    pixels out = plus_pixels (pixels im) noise /\
    (sigma = 0 -> pixels out = pixels im).
Proof. exact (pink_spec sample_sigma powerlaw im fmin g). Qed.
Print Assumptions C43_pink.

Example C43_example :
  exists out g', pink_noise_function (fun g : nat => (2, g)) (fun n _ g => (map INR (seq 0 n), g))
     (Img1 (of_list1 0 [5; 6; 7])) 0 0%nat = (out, 2, g') /\ pixels out = [5 + 0 * 2; 6 + 1 * 2; 7 + (1 + 1) * 2].
Proof. eexists _, _; split; reflexivity. Qed.

(** C57 dot jumps of a 1D scan *)
Theorem C57_jump_1d {A} (isnan : A -> bool) nan junk gen1 gen2 axis noise occ lead lim1 lim2 :
  isnan nan = true ->
  (axis = 0 \/ axis = 1)%Z -> fst lim1 <= snd lim1 -> fst lim2 <= snd lim2 ->
  length noise = len1 occ -> len1 lead = len1 occ ->
  let n := len1 occ in
  let step := (snd lim1 - fst lim1) / INR n in
  let shifted s := if (axis =? 1)%Z then gen1 (fst lim1 - INR s * step, snd lim1 - INR s * step) lim2 n
                   else gen1 lim1 (fst lim2 - INR s * step, snd lim2 - INR s * step) n in
  (forall s, (1 <= s)%nat -> clean1 isnan (fst (shifted s)) n /\
     forall i, (i < n)%nat -> isnan (cell1 (snd (shifted s)) i) = false) ->
  exists occ' lead', jump_apply isnan nan junk true gen1 gen2 axis noise (Scan1 occ (Some lead)) lim1 lim2
                     = Ok (Scan1 occ' (Some lead')) /\
    len1 occ' = n /\ len1 lead' = n /\
    forall i, (i < n)%nat ->
      cell1 occ' i = (if (nth i noise 0 =? 0)%nat then cell1 occ i else cell1 (fst (shifted (nth i noise 0%nat))) i) /\
      cell1 lead' i = (if (nth i noise 0 =? 0)%nat then cell1 lead i else cell1 (snd (shifted (nth i noise 0%nat))) i).
Proof. exact (fun H => jump_apply_1d isnan nan H junk gen1 gen2 axis noise occ lead lim1 lim2). Qed.
Print Assumptions C57_jump_1d.

(** "a jump by s pixels shows the data s pixel pitches lower": false for a scan along g2, where the
    step is computed from the (fixed) g1 limits and the jump has no effect. *)
Theorem C57_vertical_scan_refuted :
  exists (f : R -> R -> R) (lim1 lim2 : limits) (n i : nat) (noise : list nat) occ' lead',
    fst lim1 = snd lim1 /\ fst lim2 < snd lim2 /\ (i < n)%nat /\ length noise = n /\
    jump_apply nan_opt None (fun _ _ => None) true (real_gen1 f) (real_gen2 f) 0 noise
      (Scan1 (fst (real_gen1 f lim1 lim2 n)) (Some (snd (real_gen1 f lim1 lim2 n)))) lim1 lim2
      = Ok (Scan1 occ' (Some lead')) /\
    let pitch := (snd lim2 - fst lim2) / INR (n - 1) in
    let shown := f (fst lim1) (grid_point lim2 n i - INR (nth i noise 0%nat) * pitch) in
    cell1 lead' i <> Some shown.
Proof. exact vertical_refutation. Qed.
Print Assumptions C57_vertical_scan_refuted.

(** C58 dot jumps of a 2D scan *)
Theorem C58_jump_2d_axis_1 {A} (isnan : A -> bool) nan junk gen1 gen2 noise occ lead lim1 lim2 :
  fst lim1 <= snd lim1 -> fst lim2 <= snd lim2 ->
  length noise = cols occ -> same_shape lead occ ->
  let m := list_max noise in
  let step := (snd lim1 - fst lim1) / INR (cols occ) in
  let strip := gen2 (fst lim1 - INR m * step, fst lim1 - step) lim2 (m, rows occ) in
  (1 < m)%nat ->
  same_shape (fst strip) (mk_arr2 (rows occ) m (cell occ)) -> same_shape (snd strip) (fst strip) ->
  clean2 isnan occ (rows occ) (cols occ) -> clean2 isnan (fst strip) (rows occ) m ->
  (forall r c, (r < rows occ)%nat -> (c < cols occ)%nat -> isnan (cell lead r c) = false) ->
  (forall r c, (r < rows occ)%nat -> (c < m)%nat -> isnan (cell (snd strip) r c) = false) ->
  exists occ' lead', jump_apply isnan nan junk true gen1 gen2 1 noise (Scan2 occ (Some lead)) lim1 lim2
                     = Ok (Scan2 occ' (Some lead')) /\
    same_shape occ' occ /\ same_shape lead' occ /\
    forall r c, (r < rows occ)%nat -> (c < cols occ)%nat ->
      let s := nth c noise 0%nat in
      cell occ' r c = (if (s <=? c)%nat then cell occ r (c - s) else cell (fst strip) r (m - (s - c))) /\
      cell lead' r c = (if (s <=? c)%nat then cell lead r (c - s) else cell (snd strip) r (m - (s - c))).
Proof. exact (jump_apply_2d_1 isnan nan junk gen1 gen2 noise occ lead lim1 lim2). Qed.
Print Assumptions C58_jump_2d_axis_1.

Theorem C58_jump_2d_axis_0 {A} (isnan : A -> bool) nan junk gen1 gen2 noise occ lead lim1 lim2 :
  fst lim1 <= snd lim1 -> fst lim2 <= snd lim2 ->
  length noise = rows occ -> same_shape lead occ ->
  let m := list_max noise in
  let step := (snd lim2 - fst lim2) / INR (rows occ) in
  let strip := gen2 lim1 (fst lim2 - INR m * step, fst lim2 - step) (cols occ, m) in
  (1 < m)%nat ->
  same_shape (fst strip) (mk_arr2 m (cols occ) (cell occ)) -> same_shape (snd strip) (fst strip) ->
  clean2 isnan occ (rows occ) (cols occ) -> clean2 isnan (fst strip) m (cols occ) ->
  (forall r c, (r < rows occ)%nat -> (c < cols occ)%nat -> isnan (cell lead r c) = false) ->
  (forall r c, (r < m)%nat -> (c < cols occ)%nat -> isnan (cell (snd strip) r c) = false) ->
  exists occ' lead', jump_apply isnan nan junk true gen1 gen2 0 noise (Scan2 occ (Some lead)) lim1 lim2
                     = Ok (Scan2 occ' (Some lead')) /\
    same_shape occ' occ /\ same_shape lead' occ /\
    forall r c, (r < rows occ)%nat -> (c < cols occ)%nat ->
      let s := nth r noise 0%nat in
      cell occ' r c = (if (s <=? r)%nat then cell occ (r - s) c else cell (fst strip) (m - (s - r)) c) /\
      cell lead' r c = (if (s <=? r)%nat then cell lead (r - s) c else cell (snd strip) (m - (s - r)) c).
Proof. exact (jump_apply_2d_0 isnan nan junk gen1 gen2 noise occ lead lim1 lim2). Qed.
Print Assumptions C58_jump_2d_axis_0.

(** column m - d of the generated strip lies d steps of size range/pixels below the first pixel *)
Theorem C58_strip_position a m step d : (1 <= d <= m)%nat -> (1 < m)%nat ->
  grid_point (a - INR m * step, a - step) m (m - d) = a - INR d * step.
Proof. exact (strip_position a m step d). Qed.
Print Assumptions C58_strip_position.
(** One line of two pixels, a jump by two pixels in the second one: the strip of two pixels holds 7 and 8. *)
Example C58_example :
  let gen := fun _ _ _ => (of_list2 (0, 0)%nat [[(7, 7); (8, 8)]]%nat, of_list2 0%nat [[7; 8]]%nat) in
  exists occ lead, jump_apply (fun _ => false) 0%nat (fun _ _ => 0%nat) true (fun _ _ _ => (mk_arr1 0 (fun _ => (0, 0)%nat), mk_arr1 0 (fun _ => 0%nat)))
     gen 1 [0; 2]%nat (Scan2 (of_list2 (0, 0)%nat [[(1, 1); (2, 2)]]%nat) (Some (of_list2 0%nat [[1; 2]]%nat))) (0, 1) (0, 1)
   = Ok (Scan2 occ (Some lead)) /\ cell occ 0 0 = (1, 1)%nat /\ cell occ 0 1 = (8, 8)%nat /\ cell lead 0 0 = 1%nat /\ cell lead 0 1 = 8%nat.
Proof.
  intros gen. unfold gen.
  edestruct (C58_jump_2d_axis_1 (fun _ : nat => false) 0%nat (fun _ _ => 0%nat)
    (fun _ _ _ => (mk_arr1 0 (fun _ => (0, 0)%nat), mk_arr1 0 (fun _ => 0%nat))) gen [0; 2]%nat
    (of_list2 (0, 0)%nat [[(1, 1); (2, 2)]]%nat) (of_list2 0%nat [[1; 2]]%nat) (0, 1) (0, 1)) as (occ & lead & E & _ & _ & H);
    try (simpl; lra); try reflexivity; try (split; reflexivity); try (simpl; lia); try (intros ? ? ? ?; split; reflexivity).
  exists occ, lead. split; [exact E|].
  destruct (H 0%nat 0%nat) as [-> ->]; [simpl; lia..|]. destruct (H 0%nat 1%nat) as [-> ->]; [simpl; lia..|]. repeat split.
Qed.

(** "the generated strip continues the pixel grid": false, the pixel pitch is range/(pixels - 1). *)
Theorem C58_grid_refuted :
  exists (f : R -> R -> R) (lim1 lim2 : limits) (r c i : nat) (noise : list nat) occ' lead',
    fst lim1 < snd lim1 /\ fst lim2 < snd lim2 /\ (i < c)%nat /\ (0 < r)%nat /\ length noise = c /\
    jump_apply nan_opt None (fun _ _ => None) true (real_gen1 f) (real_gen2 f) 1 noise
      (Scan2 (fst (real_gen2 f lim1 lim2 (c, r))) (Some (snd (real_gen2 f lim1 lim2 (c, r))))) lim1 lim2
      = Ok (Scan2 occ' (Some lead')) /\
    let pitch := (snd lim1 - fst lim1) / INR (c - 1) in
    let shown := f (grid_point lim1 c i - INR (nth i noise 0%nat) * pitch) (grid_point lim2 r 0) in
    cell lead' 0 i <> Some shown.
Proof. exact grid_refutation. Qed.
Print Assumptions C58_grid_refuted.

(** C59 sweep direction of dot jumps *)
Theorem C59_direction_partial {A} (isnan : A -> bool) nan junk have_gen gen1 gen2 axis noise s lim1 lim2 :
  let apply := jump_apply isnan nan junk have_gen gen1 gen2 in
  fst lim1 < snd lim1 -> fst lim2 < snd lim2 ->
  (is_2d s ->
   apply axis noise s (swapped lim1) lim2 = map_ok reverse_lines (apply axis noise (reverse_lines s) lim1 lim2) /\
   apply axis noise s lim1 (swapped lim2) = map_ok reverse_rows (apply axis noise (reverse_rows s) lim1 lim2)) /\
  (~ is_2d s ->
   apply axis noise s (swapped lim1) (swapped lim2) =
   map_ok reverse_lines (apply axis noise (reverse_lines s) lim1 lim2)).
Proof. exact (jump_direction isnan nan junk have_gen gen1 gen2 axis noise s lim1 lim2). Qed.
Print Assumptions C59_direction_partial.
Example C59_example :
  let apply := jump_apply (fun _ => false) 0%nat (fun _ _ => 0%nat) false
                 (fun _ _ _ => (mk_arr1 0 (fun _ => (0, 0)%nat), mk_arr1 0 (fun _ => 0%nat)))
                 (fun _ _ _ => (mk_arr2 0 0 (fun _ _ => (0, 0)%nat), mk_arr2 0 0 (fun _ _ => 0%nat))) in
  exists t, apply 0%Z [0; 1]%nat (Scan2 (col2 1 2) None) (0, 1) (1, 0) = Ok (Scan2 t None) /\ cell t 0 0 = (2, 2)%nat /\ cell t 1 0 = (2, 2)%nat.
Proof.
  cbv zeta. unfold jump_apply, descending; cbn [fst snd]. decide_reals. eexists. split; [vm_compute; reflexivity|]. split; reflexivity.
Qed.

(** both gates swept downwards in a 2D scan *)
Theorem C59_both_descending_refuted :
  let s := Scan2 (col2 1 2) None in
  let apply := jump_apply (fun _ => false) 0%nat (fun _ _ => 0%nat) false
                 (fun _ _ _ => (mk_arr1 0 (fun _ => (0, 0)%nat), mk_arr1 0 (fun _ => 0%nat)))
                 (fun _ _ _ => (mk_arr2 0 0 (fun _ _ => (0, 0)%nat), mk_arr2 0 0 (fun _ _ => 0%nat))) in
  exists t u, apply 0%Z [0; 1]%nat s (1, 0) (1, 0) = Ok t /\
    apply 0%Z [0; 1]%nat (reverse_rows (reverse_lines s)) (0, 1) (0, 1) = Ok u /\
    ~ eq_scan t (reverse_rows (reverse_lines u)).
Proof. exact both_descending. Qed.
Print Assumptions C59_both_descending_refuted.
