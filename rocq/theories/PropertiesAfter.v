(** The generator after drawing telegraph noise. *)
From Verif Require Import RPrelude Arr ModelJumps ModelDistortions SpecDistortions SpecHeights SpecSums ProofsAfter.
Local Open Scope R_scope.

(** C38: after the lengths, one height is drawn for each block that begins within the image (quiet blocks included), and nothing else. *)
Theorem C38_generator {G} (geometric : R -> nat -> G -> list nat * G) normal im scale std height g out g' :
  (forall p size g, length (fst (geometric p size g)) = size /\
     forall w, In w (fst (geometric p size g)) -> (0 < w)%nat) ->
  1 <= scale -> random_telegraph_noise geometric normal im scale std height g = Ok (out, g') ->
  let n := length (pixels im) in
  heights_drawn (normal height std) (fst (geometric (1 / scale) n g)) n (snd (geometric (1 / scale) n g)) g'.
Proof. exact (rtn_after geometric normal im scale std height g out g'). Qed.
Print Assumptions C38_generator.
(** Blocks of two pixels: three of them begin within five pixels. *)
Example C38_generator_example : exists out, random_telegraph_noise (fun _ n (g : nat) => (repeat 2%nat n, g)) (fun h _ g => (h + INR g, S g))
     (Img1 (of_list1 0 [1; 2; 3; 4; 5])) 2 0 5 0%nat = Ok (out, 3%nat).
Proof. unfold random_telegraph_noise. rewrite Reqb_false, Rltb_false by lra. eexists. reflexivity. Qed.

(** C61: the same for dot jumps. *)
Theorem C61_generator {G} (poisson : G -> nat * G) widths size g :
  (forall w, In w (fst (widths size g)) -> (0 < w)%nat) -> length (fst (widths size g)) = size ->
  heights_drawn poisson (fst (widths size g)) size (snd (widths size g)) (snd (generate_dot_jumps_blockwise poisson false widths size g)).
Proof. exact (jump_after poisson widths size g). Qed.
Print Assumptions C61_generator.
Example C61_generator_example : snd (generate_dot_jumps_blockwise (fun g => (g, S g)) false (fun _ g => ([2; 1; 1; 3; 1; 9]%nat, g)) 6%nat 200%nat) = 204%nat.
Proof. reflexivity. Qed.

(** C38, two scales: the lengths of quiet blocks and the lengths and heights of bursts are drawn for the blocks that begin within the image, and nothing else. *)
Theorem C38_generator_two_scales {G} normal (geometric1 : R -> G -> nat * G) im sb sq std height g out g' :
  (forall p g, (0 < fst (geometric1 p g))%nat) -> 1 <= sb -> 1 <= sq ->
  random_telegraph_noise_two_scales normal geometric1 im sb sq std height g = Ok (out, g') ->
  let n := length (pixels im) in
  let lengths := map fst (two_scale_blocks (geometric1 (1 / sq)) (geometric1 (1 / sb)) (normal height std) n false g) in
  exists b, (b <= n)%nat /\ (forall i, (i < n)%nat -> (first_pixel lengths i < n <-> i < b)%nat) /\
    g' = after_blocks (geometric1 (1 / sq)) (geometric1 (1 / sb)) (normal height std) b false g.
Proof. intros P. exact (two_scales_after normal geometric1 P im sb sq std height g out g'). Qed.
Print Assumptions C38_generator_two_scales.
(** Three blocks of two pixels: quiet (1 draw), burst (2 draws), quiet (1 draw). *)
Example C38_generator_two_scales_example : exists out, random_telegraph_noise_two_scales (fun h _ g => (h + INR g, S g)) (fun _ (g : nat) => (2%nat, S g))
     (Img1 (of_list1 0 [1; 2; 3; 4; 5])) 2 2 0 5 0%nat = Ok (out, 4%nat).
Proof. unfold random_telegraph_noise_two_scales. rewrite Reqb_false, !Rltb_false by lra. eexists. reflexivity. Qed.

(** C60: the generator after an active call. *)
Theorem C60_generator {G} (geometric : R -> nat -> G -> list nat * G) normal binomial
    (sample_scale sample_std sample_height : G -> R * G) im lim1 lim2 g k out act g' :
  (forall p size g, length (fst (geometric p size g)) = size /\
     forall w, In w (fst (geometric p size g)) -> (0 < w)%nat) ->
  fst (binomial g) = true -> rtn_px_per_volt (image_shape im) lim1 lim2 = Ok k ->
  rtn_noise_function geometric normal binomial sample_scale sample_std sample_height im lim1 lim2 g = Ok (out, act, g') ->
  let g1 := snd (binomial g) in let scale := fst (sample_scale g1) * k in
  let g2 := snd (sample_scale g1) in let std := fst (sample_std g2) in
  let g3 := snd (sample_std g2) in let height := fst (sample_height g3) in
  let g4 := snd (sample_height g3) in let n := length (pixels im) in
  1 <= scale -> heights_drawn (normal height std) (fst (geometric (1 / scale) n g4)) n (snd (geometric (1 / scale) n g4)) g'.
Proof. exact (rtn_call_after geometric normal binomial sample_scale sample_std sample_height im lim1 lim2 g k out act g'). Qed.
Print Assumptions C60_generator.
(** The state of the generator counts the draws: activation, three parameters, the lengths and four heights. *)
Example C60_generator_example : exists out,
  rtn_noise_function (fun p n (g : nat) => (repeat 1%nat n, S g)) (fun h s g => (h + s * INR g, S g)) (fun g => (true, S g)) (fun g => (1/2, S g)) (fun g => (2, S g)) (fun g => (5, S g))
    (Img1 (of_list1 0 [1; 2; 3; 4])) (0, 1) (0, 0) 0%nat = Ok (out, true, 9%nat).
Proof.
  unfold rtn_noise_function, rtn_px_per_volt. cbn -[INR Rmax Reqb].
  assert (V : Rmax (volt_range (0, 1)) (volt_range (0, 0)) = 1).
  { unfold volt_range. simpl. rewrite (Rmax_right 0 1), (Rmin_left 0 1), (Rmax_left 0 0), (Rmin_left 0 0) by lra. rewrite Rmax_left; lra. }
  rewrite V, (Reqb_false 1 0) by lra. cbn -[INR Reqb]. unfold random_telegraph_noise.
  replace (1 / 2 * (INR 4 / 1)) with 2 by (simpl; lra). rewrite Reqb_false, Rltb_false by (try intro; lra).
  eexists. reflexivity.
Qed.

(** C61: the generator after an active call. *)
Theorem C61_call_generator {A G} (isnan : A -> bool) nan junk have_gen gen1 gen2 (binomial : G -> bool * G)
    sample_scale sample_lam (geometric : R -> nat -> G -> list nat * G) poisson axis st g s lim1 lim2 s' st' g' k :
  (forall p size g, length (fst (geometric p size g)) = size /\
     forall w, In w (fst (geometric p size g)) -> (0 < w)%nat) ->
  jump_noise_function isnan nan junk have_gen gen1 gen2 binomial sample_scale sample_lam geometric poisson axis false st g s lim1 lim2 = Ok (s', st', g') ->
  fst (binomial g) = true -> jump_px_per_volt axis (scan_shape s) lim1 lim2 = Ok k ->
  let g1 := snd (binomial g) in let scale := Rmax 1 (fst (sample_scale g1) * k) in
  let g2 := snd (sample_scale g1) in let lam := fst (sample_lam g2) * k in
  let g3 := snd (sample_lam g2) in let n := pixels_along (scan_shape s) axis in
  heights_drawn (poisson lam) (fst (geometric (1 / scale) n g3)) n (snd (geometric (1 / scale) n g3)) g'.
Proof. exact (jump_call_after isnan nan junk have_gen gen1 gen2 binomial sample_scale sample_lam geometric poisson axis st g s lim1 lim2 s' st' g' k). Qed.
Print Assumptions C61_call_generator.
Example C61_call_generator_example : exists s' st',
  jump_noise_function (fun _ => false) 0%nat (fun _ _ => 0%nat) false
    (fun _ _ _ => (mk_arr1 0 (fun _ => (0, 0)%nat), mk_arr1 0 (fun _ => 0%nat)))
    (fun _ _ _ => (mk_arr2 0 0 (fun _ _ => (0, 0)%nat), mk_arr2 0 0 (fun _ _ => 0%nat)))
    (fun g => (true, S g)) (fun g => (1/2, S g)) (fun g => (1, S g)) (fun _ n g => (repeat 1%nat n, S g)) (fun _ g => (g, S g))
    1 false jump_init 0%nat (Scan2 (of_list2 (0, 0)%nat [[(1, 1); (2, 2); (3, 3); (4, 4)]]%nat) None) (0, 1) (0, 1) = Ok (s', st', 8%nat).
Proof.
  unfold jump_noise_function, jump_px_per_volt, div_range. cbn -[INR Reqb Rltb jump_apply].
  assert (V : volt_range (0, 1) = 1) by (unfold volt_range; simpl; rewrite Rmax_right, Rmin_left; lra).
  rewrite V, (Reqb_false 1 0) by lra. cbn -[INR Reqb Rltb jump_apply].
  unfold jump_apply, descending. cbn [fst snd]. rewrite !(Rltb_false 1 0) by lra.
  eexists _, _. vm_compute; reflexivity.
Qed.
