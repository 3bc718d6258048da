(** Property theorems about distortions with parameters that no distribution has. *)
From Verif Require Import RPrelude Arr ModelJumps ModelDistortions ModelNoiseChecks ProofsNoiseChecks.
Local Open Scope R_scope.

(** C155: with possible parameters the random generator never raises, and the distortions are those of the other properties. *)
Theorem C155_possible_rtn {G} (geometric : R -> nat -> G -> list nat * G) normal binomial sample_scale sample_std sample_height ratio im lim1 lim2 g :
  0 <= ratio <= 1 -> (forall g, 0 <= fst (sample_std g)) ->
  checked_rtn geometric normal binomial sample_scale sample_std sample_height ratio im lim1 lim2 g =
  rtn_noise_function geometric normal (binomial ratio) sample_scale sample_std sample_height im lim1 lim2 g.
Proof. exact (rtn_possible geometric normal binomial sample_scale sample_std sample_height ratio im lim1 lim2 g). Qed.
Print Assumptions C155_possible_rtn.
Theorem C155_possible_jumps {A G} isnan (nan : A) junk have_gen gen1 gen2 (binomial : R -> G -> bool * G) sample_scale sample_lam geometric poisson
    ratio axis freeze st g s lim1 lim2 :
  0 <= ratio <= 1 -> (forall g, 0 <= fst (sample_lam g)) ->
  checked_jumps isnan nan junk have_gen gen1 gen2 binomial sample_scale sample_lam geometric poisson ratio axis freeze st g s lim1 lim2 =
  jump_noise_function isnan nan junk have_gen gen1 gen2 (binomial ratio) sample_scale sample_lam geometric poisson axis freeze st g s lim1 lim2.
Proof.
  exact (jumps_possible isnan nan junk have_gen gen1 gen2 binomial sample_scale sample_lam geometric poisson ratio axis freeze st g s lim1 lim2).
Qed.
Print Assumptions C155_possible_jumps.

(** A ratio that is no probability is rejected by every call that draws. *)
Theorem C155_ratio {A G} (geometric : R -> nat -> G -> list nat * G) normal binomial sample_scale sample_std sample_height im
    isnan (nan : A) junk have_gen gen1 gen2 sample_lam poisson axis st s ratio lim1 lim2 g :
  ratio < 0 \/ 1 < ratio ->
  checked_rtn geometric normal binomial sample_scale sample_std sample_height ratio im lim1 lim2 g = Err ValueError /\
  checked_jumps isnan nan junk have_gen gen1 gen2 binomial sample_scale sample_lam geometric poisson ratio axis false st g s lim1 lim2 = Err ValueError.
Proof.
  intros H. split; [exact (rtn_ratio geometric normal binomial sample_scale sample_std sample_height ratio im lim1 lim2 g H)|].
  exact (jumps_ratio isnan nan junk have_gen gen1 gen2 binomial sample_scale sample_lam geometric poisson ratio axis st g s lim1 lim2 H).
Qed.
Print Assumptions C155_ratio.

(** A negative standard deviation of telegraph noise and a negative mean height of jumps are rejected if the distortion is active ... *)
Theorem C155_std_partial {G} (geometric : R -> nat -> G -> list nat * G) normal binomial sample_scale sample_std sample_height ratio im lim1 lim2 g k :
  0 <= ratio <= 1 -> fst (binomial ratio g) = true -> rtn_px_per_volt (image_shape im) lim1 lim2 = Ok k ->
  (forall g, 1 <= fst (sample_scale g) * k) -> (forall g, fst (sample_std g) < 0) -> (0 < shape_size (image_shape im))%nat ->
  (forall p n g, (0 < n)%nat -> exists w ws, fst (geometric p n g) = w :: ws /\ (0 < w)%nat) ->
  checked_rtn geometric normal binomial sample_scale sample_std sample_height ratio im lim1 lim2 g = Err ValueError.
Proof. exact (rtn_std geometric normal binomial sample_scale sample_std sample_height ratio im lim1 lim2 g k). Qed.
Print Assumptions C155_std_partial.
Theorem C155_lam_partial {A G} isnan (nan : A) junk have_gen gen1 gen2 (binomial : R -> G -> bool * G) sample_scale sample_lam geometric poisson
    ratio axis st g s lim1 lim2 k n :
  0 <= ratio <= 1 -> fst (binomial ratio g) = true -> jump_px_per_volt axis (scan_shape s) lim1 lim2 = Ok k -> 0 < k ->
  jump_size axis (scan_shape s) = Ok n -> (0 < n)%nat -> (forall g, fst (sample_lam g) < 0) ->
  (forall p n g, (0 < n)%nat -> exists w ws, fst (geometric p n g) = w :: ws /\ (0 < w)%nat) ->
  checked_jumps isnan nan junk have_gen gen1 gen2 binomial sample_scale sample_lam geometric poisson ratio axis false st g s lim1 lim2 = Err ValueError.
Proof.
  exact (jumps_lam isnan nan junk have_gen gen1 gen2 binomial sample_scale sample_lam geometric poisson ratio axis st g s lim1 lim2 k n).
Qed.
Print Assumptions C155_lam_partial.

(** ... but not otherwise: the error depends on chance. *)
Theorem C155_inactive_refuted {G} (geometric : R -> nat -> G -> list nat * G) normal binomial sample_scale sample_height ratio im lim1 lim2 g :
  0 <= ratio <= 1 -> fst (binomial ratio g) = false ->
  checked_rtn geometric normal binomial sample_scale (fun g => (-1, g)) sample_height ratio im lim1 lim2 g = Ok (im, false, snd (binomial ratio g)).
Proof. exact (rtn_inactive geometric normal binomial sample_scale _ sample_height ratio im lim1 lim2 g). Qed.
Print Assumptions C155_inactive_refuted.

(** Negative lengths of jumps are accepted as lengths of at most one pixel, negative blurring widths as none. *)
Theorem C155_length_refuted {A G} isnan (nan : A) junk have_gen gen1 gen2 (binomial : R -> G -> bool * G) sample_lam geometric poisson
    ratio axis freeze st g s lim1 lim2 scale : scale <= 0 ->
  checked_jumps isnan nan junk have_gen gen1 gen2 binomial (fun g => (scale, g)) sample_lam geometric poisson ratio axis freeze st g s lim1 lim2 =
  checked_jumps isnan nan junk have_gen gen1 gen2 binomial (fun g => (0, g)) sample_lam geometric poisson ratio axis freeze st g s lim1 lim2.
Proof.
  exact (jumps_length isnan nan junk have_gen gen1 gen2 binomial sample_lam geometric poisson ratio axis freeze st g s lim1 lim2 scale).
Qed.
Print Assumptions C155_length_refuted.
Theorem C155_width_refuted {G} kernel radius (g : G) st s lim1 lim2 sigma : sigma <= 0 ->
  blur_noise_function (fun g => (sigma, g)) kernel radius false st g s lim1 lim2 = Ok (s, Some sigma, g).
Proof. intros H. apply blur_width; [exact H|discriminate]. Qed.
Print Assumptions C155_width_refuted.

(** A line of two pixels of 1 V with noise of the length 1 V and the standard deviation -1 V, switched on. *)
Example C155_example :
  checked_rtn (fun _ n g => (repeat 1%nat n, g)) (fun _ _ g => (0, g)) (fun _ g => (true, g)) (fun g => (1, g)) (fun g => (-1, g)) (fun g => (0, g))
    1 (Img1 (mk_arr1 2 (fun _ => 0))) (0, 2) (0, 0) tt = Err ValueError.
Proof.
  apply C155_std_partial with (k := 1); try (cbn; first [lra|lia|reflexivity|intros; lra]).
  - unfold rtn_px_per_volt. cbn [image_shape len1]. unfold volt_range. cbn [fst snd]. rewrite (Rmax_right 0 2), (Rmin_left 0 2), (Rmax_left 0 0), (Rmin_left 0 0) by lra.
    rewrite Rmax_left by lra. cbv zeta. rewrite Reqb_false by lra. f_equal. cbn. lra.
  - intros p [|n] g N; [lia|]. exists 1%nat, (repeat 1%nat n). split; [reflexivity|lia].
Qed.
