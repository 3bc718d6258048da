(** The heights and lengths of jumps are the drawn ones. *)
From Verif Require Import RPrelude Arr ModelJumps SpecJumps ModelDistortions SpecDistortions SpecHeights ProofsHeights.
Local Open Scope R_scope.

(** C61: block number b of the dot jumps has the b-th drawn length; if b is odd, its height is the b-th Poisson draw modulo 256, ... *)
Theorem C61_heights {G} (poisson : G -> nat * G) widths size g :
  (forall w, In w (fst (widths size g)) -> (0 < w)%nat) -> length (fst (widths size g)) = size ->
  drawn_heights 0%nat (fun g => (fst (poisson g) mod 256, snd (poisson g))%nat) (fst (widths size g)) size (snd (widths size g))
    (fst (generate_dot_jumps_blockwise poisson false widths size g)).
Proof. exact (jump_heights poisson widths size g). Qed.
Print Assumptions C61_heights.
(** ... which is the draw itself if all draws are less than 256. *)
Theorem C61_heights_partial {G} (poisson : G -> nat * G) widths size g :
  (forall w, In w (fst (widths size g)) -> (0 < w)%nat) -> length (fst (widths size g)) = size -> (forall g, (fst (poisson g) < 256)%nat) ->
  drawn_heights 0%nat poisson (fst (widths size g)) size (snd (widths size g)) (fst (generate_dot_jumps_blockwise poisson false widths size g)).
Proof. exact (jump_heights_small poisson widths size g). Qed.
Print Assumptions C61_heights_partial.
(** Lengths 2, 1, 1, 3, ...; draws 200, 201, 202, 203, ... *)
Example C61_example :
  fst (generate_dot_jumps_blockwise (fun g => (g, S g)) false (fun _ g => ([2; 1; 1; 3; 1; 9]%nat, g)) 6%nat 200%nat) = [0; 0; 201; 0; 203; 203]%nat /\
  first_pixel [2; 1; 1; 3; 1; 9]%nat 3 = 4%nat /\ nth_draw (fun g => (g, S g)) 3 200%nat = 203%nat.
Proof. split; [vm_compute; reflexivity|]. split; reflexivity. Qed.

(** C38: the same for random telegraph noise, whose heights are normal draws. *)
Theorem C38_heights {G} (geometric : R -> nat -> G -> list nat * G) normal im scale std height g :
  (forall p size g, length (fst (geometric p size g)) = size /\
     forall w, In w (fst (geometric p size g)) -> (0 < w)%nat) ->
  1 <= scale ->
  let n := length (pixels im) in
  exists out g' noise, random_telegraph_noise geometric normal im scale std height g = Ok (out, g') /\
    drawn_heights 0 (normal height std) (fst (geometric (1 / scale) n g)) n (snd (geometric (1 / scale) n g)) noise /\
    pixels out = plus_pixels (pixels im) noise.
Proof. exact (rtn_heights geometric normal im scale std height g). Qed.
Print Assumptions C38_heights.
(** Bursts of one pixel, each with the height given by the state of the generator *)
Example C38_heights_example :
  exists out g', random_telegraph_noise (fun _ n (g : nat) => (repeat 1%nat n, g)) (fun h _ g => (h + INR g, S g))
     (Img1 (of_list1 0 [1; 2; 3; 4])) 2 0 5 0%nat = Ok (out, g') /\ pixels out = [1 + 0; 2 + (5 + INR 1); 3 + 0; 4 + (5 + INR 3)].
Proof.
  unfold random_telegraph_noise. rewrite Reqb_false, Rltb_false by (try intro; lra).
  eexists _, _. split; reflexivity.
Qed.

(** C38: the same for telegraph noise with different lengths of bursts and quiet blocks. *)
Theorem C38_heights_two_scales {G} normal (geometric1 : R -> G -> nat * G) im sb sq std height g :
  (forall p g, (0 < fst (geometric1 p g))%nat) -> 1 <= sb -> 1 <= sq ->
  let n := length (pixels im) in
  exists out g', random_telegraph_noise_two_scales normal geometric1 im sb sq std height g = Ok (out, g') /\
    pixels out = plus_pixels (pixels im)
      (firstn n (expand (two_scale_blocks (geometric1 (1 / sq)) (geometric1 (1 / sb)) (normal height std) n false g))).
Proof. exact (two_scales_heights normal geometric1 im sb sq std height g). Qed.
Print Assumptions C38_heights_two_scales.
(** The state of the generator counts the draws: a quiet block of length 1 (draw 0), a burst of length 2 (draw 1) with height 12 (draw 2), ... *)
Example C38_two_scales_blocks : two_scale_blocks (fun g => (1, S g)%nat) (fun g => (2, S g)%nat) (fun g => (10 + INR g, S g)) 3 false 0%nat =
  [(1%nat, 0); (2%nat, 10 + INR 2); (1%nat, 0)].
Proof. reflexivity. Qed.

(** C43: what is added to a pixel is sigma times the draw for this pixel, whatever the image; sigma is drawn before. *)
Theorem C43_white_draws {G} (standard_normal : nat -> G -> list R * G) sample_sigma im g :
  (forall n g, length (fst (standard_normal n g)) = n) -> 0 <= fst (sample_sigma g) ->
  let sigma := fst (sample_sigma g) in let drawn := standard_normal (length (pixels im)) (snd (sample_sigma g)) in
  exists out, white_noise_function standard_normal sample_sigma im g = Ok (out, sigma, snd drawn) /\
    image_shape out = image_shape im /\
    forall k x z, nth_error (pixels im) k = Some x -> nth_error (fst drawn) k = Some z -> nth_error (pixels out) k = Some (x + sigma * z).
Proof. exact (white_draws standard_normal sample_sigma im g). Qed.
Print Assumptions C43_white_draws.
Theorem C43_pink_draws {G} sample_sigma (powerlaw : nat -> R -> G -> list R * G) im fmin g :
  (forall n f g, length (fst (powerlaw n f g)) = n) ->
  let sigma := fst (sample_sigma g) in let drawn := powerlaw (length (pixels im)) fmin (snd (sample_sigma g)) in
  exists out, pink_noise_function sample_sigma powerlaw im fmin g = (out, sigma, snd drawn) /\
    image_shape out = image_shape im /\
    forall k x z, nth_error (pixels im) k = Some x -> nth_error (fst drawn) k = Some z -> nth_error (pixels out) k = Some (x + sigma * z).
Proof. exact (pink_draws sample_sigma powerlaw im fmin g). Qed.
Print Assumptions C43_pink_draws.
Example C43_white_example : exists out, white_noise_function (fun n g => (map INR (seq g n), (g + n)%nat)) (fun g => (2, S g)) (Img1 (of_list1 0 [5; 6])) 0%nat = Ok (out, 2, 3%nat) /\
  pixels out = [5 + (0 + 2 * INR 1); 6 + (0 + 2 * INR 2)].
Proof.
  unfold white_noise_function, white_gaussian_noise. cbn -[INR]. rewrite Rltb_false by lra. eexists. split; reflexivity.
Qed.

(** C60: an active call draws the length of bursts, the standard deviation and the mean height in this order, then the lengths and
    the heights; the length is converted to pixels. *)
Theorem C60_active_draws {G} (geometric : R -> nat -> G -> list nat * G) normal binomial
    (sample_scale sample_std sample_height : G -> R * G) im lim1 lim2 g k :
  (forall p size g, length (fst (geometric p size g)) = size /\
     forall w, In w (fst (geometric p size g)) -> (0 < w)%nat) ->
  fst (binomial g) = true -> rtn_px_per_volt (image_shape im) lim1 lim2 = Ok k ->
  let g1 := snd (binomial g) in let scale := fst (sample_scale g1) * k in
  let g2 := snd (sample_scale g1) in let std := fst (sample_std g2) in
  let g3 := snd (sample_std g2) in let height := fst (sample_height g3) in
  let g4 := snd (sample_height g3) in let n := length (pixels im) in
  1 <= scale ->
  exists out g' noise, rtn_noise_function geometric normal binomial sample_scale sample_std sample_height im lim1 lim2 g = Ok (out, true, g') /\
    drawn_heights 0 (normal height std) (fst (geometric (1 / scale) n g4)) n (snd (geometric (1 / scale) n g4)) noise /\
    pixels out = plus_pixels (pixels im) noise.
Proof. exact (rtn_call_heights geometric normal binomial sample_scale sample_std sample_height im lim1 lim2 g k). Qed.
Print Assumptions C60_active_draws.
(** Every draw adds 1 to the state of the generator; pixels per volt: 4, so that 1/2 V are two pixels. *)
Example C60_active_example : exists out g',
  rtn_noise_function (fun p n (g : nat) => (repeat 1%nat n, S g)) (fun h s g => (h + s * INR g, S g)) (fun g => (true, S g)) (fun g => (1/2, S g)) (fun g => (2, S g)) (fun g => (5, S g))
    (Img1 (of_list1 0 [1; 2; 3; 4])) (0, 1) (0, 0) 0%nat = Ok (out, true, g') /\ pixels out = [1 + 0; 2 + (5 + 2 * INR 6); 3 + 0; 4 + (5 + 2 * INR 8)].
Proof.
  unfold rtn_noise_function, rtn_px_per_volt. cbn -[INR Rmax Reqb].
  assert (V : Rmax (volt_range (0, 1)) (volt_range (0, 0)) = 1).
  { unfold volt_range. simpl. rewrite (Rmax_right 0 1), (Rmin_left 0 1), (Rmax_left 0 0), (Rmin_left 0 0) by lra. rewrite Rmax_left; lra. }
  rewrite V, (Reqb_false 1 0) by lra. cbn -[INR Reqb]. unfold random_telegraph_noise.
  replace (1 / 2 * (INR 4 / 1)) with 2 by (simpl; lra). rewrite Reqb_false, Rltb_false by (try intro; lra).
  eexists _, _. split; reflexivity.
Qed.

(** C61: an active call draws the length and the mean height of jumps, converts both to pixels (the length is at least one), draws the
    lengths and heights, records them and applies them. *)
Theorem C61_call {A G} (isnan : A -> bool) nan junk have_gen gen1 gen2 (binomial : G -> bool * G)
    sample_scale sample_lam (geometric : R -> nat -> G -> list nat * G) poisson axis st g s lim1 lim2 s' st' g' k :
  (forall p size g, length (fst (geometric p size g)) = size /\
     forall w, In w (fst (geometric p size g)) -> (0 < w)%nat) ->
  jump_noise_function isnan nan junk have_gen gen1 gen2 binomial sample_scale sample_lam geometric poisson axis false st g s lim1 lim2 = Ok (s', st', g') ->
  fst (binomial g) = true -> jump_px_per_volt axis (scan_shape s) lim1 lim2 = Ok k ->
  let g1 := snd (binomial g) in let scale := Rmax 1 (fst (sample_scale g1) * k) in
  let g2 := snd (sample_scale g1) in let lam := fst (sample_lam g2) * k in
  let g3 := snd (sample_lam g2) in let n := pixels_along (scan_shape s) axis in
  exists noise, js_activated st' = Some true /\ js_noise st' = Some noise /\
    jump_apply isnan nan junk have_gen gen1 gen2 axis noise s lim1 lim2 = Ok s' /\
    drawn_heights 0%nat (fun g => (fst (poisson lam g) mod 256, snd (poisson lam g))%nat)
      (fst (geometric (1 / scale) n g3)) n (snd (geometric (1 / scale) n g3)) noise.
Proof. exact (jump_call_heights isnan nan junk have_gen gen1 gen2 binomial sample_scale sample_lam geometric poisson axis st g s lim1 lim2 s' st' g' k). Qed.
Print Assumptions C61_call.
(** A line of four pixels in a volt: a mean length of 1/2 V is two pixels. The noise is recorded. *)
Example C61_call_example : exists s' st' g',
  jump_noise_function (fun _ => false) 0%nat (fun _ _ => 0%nat) false
    (fun _ _ _ => (mk_arr1 0 (fun _ => (0, 0)%nat), mk_arr1 0 (fun _ => 0%nat)))
    (fun _ _ _ => (mk_arr2 0 0 (fun _ _ => (0, 0)%nat), mk_arr2 0 0 (fun _ _ => 0%nat)))
    (fun g => (true, S g)) (fun g => (1/2, S g)) (fun g => (1, S g)) (fun _ n g => (repeat 1%nat n, S g)) (fun _ g => (g, S g))
    1 false jump_init 0%nat (Scan2 (of_list2 (0, 0)%nat [[(1, 1); (2, 2); (3, 3); (4, 4)]]%nat) None) (0, 1) (0, 1) = Ok (s', st', g') /\
  js_noise st' = Some [0; 5; 0; 7]%nat.
Proof.
  unfold jump_noise_function, jump_px_per_volt, div_range. cbn -[INR Reqb Rltb jump_apply].
  assert (V : volt_range (0, 1) = 1) by (unfold volt_range; simpl; rewrite Rmax_right, Rmin_left; lra).
  rewrite V, (Reqb_false 1 0) by lra. cbn -[INR Reqb Rltb jump_apply].
  unfold jump_apply, descending. cbn [fst snd]. rewrite !(Rltb_false 1 0) by lra.
  eexists _, _, _. split; [vm_compute; reflexivity|reflexivity].
Qed.

(** C41: calls draw sigma, frozen calls use the recorded one (TypeError if there is none), and record it; without a positive sigma nothing is
    blurred (C133_weights states the blurred values for the recorded sigma). *)
Theorem C41_sigma {G} (sample_sigma : G -> R * G) kernel radius freeze st g s lim1 lim2 :
  let blur := blur_noise_function sample_sigma kernel radius freeze st g s lim1 lim2 in
  (freeze = true -> st = None -> blur = Err TypeError) /\
  forall sigma g1, (if freeze then st = Some sigma /\ g1 = g else sample_sigma g = (sigma, g1)) ->
    (sigma <= 0 -> blur = Ok (s, Some sigma, g1)) /\
    (0 < sigma -> forall e, blur_px_per_volt (scan_shape s) lim1 lim2 = Err e -> blur = Err e) /\
    (0 < sigma -> forall k, blur_px_per_volt (scan_shape s) lim1 lim2 = Ok k -> exists s', blur = Ok (s', Some sigma, g1)).
Proof. exact (blur_sigma sample_sigma kernel radius freeze st g s lim1 lim2). Qed.
Print Assumptions C41_sigma.
Example C41_sigma_example : blur_noise_function (fun g => (-1, S g)) fermi_kernel (fun _ => 2%nat) false (Some 3) 0%nat (Scan1 (of_list1 (0, 0) [(0, 1); (1, 0)]) None) (0, 1) (0, 0)
  = Ok (Scan1 (of_list1 (0, 0) [(0, 1); (1, 0)]) None, Some (-1), 1%nat).
Proof. apply C41_sigma; [reflexivity|lra]. Qed.
