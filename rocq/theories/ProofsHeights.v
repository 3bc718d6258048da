(** Proofs about the heights of jumps. *)
From Verif Require Import RPrelude Arr ModelJumps SpecJumps ProofsJumps ModelDistortions SpecDistortions ProofsDistortions SpecHeights.
Local Open Scope nat_scope.

Section Heights.
Context {V G : Type}.
Variable zero : V.
Variable draw : G -> V * G.

Lemma block_loop_prefix w size : forall bi noise g i, i < length noise ->
  nth_error (fst (block_loop zero draw w size bi noise g)) i = nth_error noise i.
Proof.
  induction w as [|x w IH]; intros bi noise g i H; simpl; [reflexivity|].
  destruct (0 <? x).
  - destruct (draw g) as [h g1]. destruct (size <=? _).
    + simpl. rewrite nth_error_app1; auto.
    + rewrite IH by (rewrite app_length; lia). rewrite nth_error_app1; auto.
  - destruct (size <=? _); [reflexivity|]. apply IH. exact H.
Qed.
Lemma nth_error_repeat_some (x : V) n i : i < n -> nth_error (repeat x n) i = Some x.
Proof. revert i. induction n as [|n IH]; intros [|i] H; simpl; try lia; auto. apply IH. lia. Qed.
Lemma first_pixel_cons x w b : first_pixel (x :: w) (S b) = x + first_pixel w b.
Proof. reflexivity. Qed.

Lemma block_loop_height w size : forall bi noise g i b, (forall x, In x w -> 0 < x) -> i < size ->
  length noise + first_pixel w b <= i < length noise + first_pixel w (S b) ->
  nth_error (fst (block_loop zero draw w size bi noise g)) i = Some (if xorb bi (Nat.odd b) then nth_draw draw b g else zero).
Proof.
  induction w as [|x w IH]; intros bi noise g i b P H B.
  - exfalso. unfold first_pixel in B. rewrite !firstn_nil in B. simpl in B. lia.
  - assert (X : 0 < x) by (apply P; left; reflexivity). rewrite first_pixel_cons in B. simpl block_loop.
    rewrite (proj2 (Nat.ltb_lt 0 x) X). destruct b as [|b].
    + change (first_pixel w 0) with 0 in B. change (first_pixel (x :: w) 0) with 0 in B.
      assert (E : nth_error (noise ++ repeat (if bi then fst (draw g) else zero) x) i =
        Some (if xorb bi (Nat.odd 0) then nth_draw draw 0 g else zero)).
      { rewrite nth_error_app2 by lia. rewrite nth_error_repeat_some by lia. destruct bi; reflexivity. }
      destruct (draw g) as [h g1]. simpl in E. destruct (size <=? _).
      * exact E.
      * rewrite block_loop_prefix by (rewrite app_length, repeat_length; lia). exact E.
    + rewrite first_pixel_cons in B. specialize (IH (negb bi) (noise ++ repeat (if bi then fst (draw g) else zero) x) (snd (draw g)) i b).
      rewrite app_length, repeat_length in IH.
      assert (O : xorb bi (Nat.odd (S b)) = xorb (negb bi) (Nat.odd b)) by (rewrite Nat.odd_succ, <- Nat.negb_odd; destruct bi, (Nat.odd b); reflexivity).
      rewrite O. unfold nth_draw in *. cbn [after_draws]. rewrite <- IH; [|intros y Y; apply P; right; exact Y|exact H|lia].
      destruct (draw g) as [h g1]. cbn [fst snd].
      destruct (Nat.leb_spec size (length (noise ++ repeat (if bi then h else zero) x))) as [L|L]; [|reflexivity].
      exfalso. rewrite app_length, repeat_length in L. lia.
Qed.

Lemma block_noise_heights w size g : (forall x, In x w -> 0 < x) -> length w = size ->
  drawn_heights zero draw w size g (fst (block_noise zero draw w size g)).
Proof.
  intros P L. pose proof (block_noise_spec zero draw w size g P L) as [N _]. split; [exact N|].
  intros i b H B. unfold block_noise in *. pose proof (block_loop_height w size false [] g i b P H B) as E.
  destruct (block_loop zero draw w size false [] g) as [n g']. cbn [fst xorb] in *.
  rewrite <- (firstn_skipn size n) in E. rewrite nth_error_app1 in E by (rewrite N; exact H). rewrite E. destruct (Nat.odd b); reflexivity.
Qed.
End Heights.

Lemma jump_heights {G} (poisson : G -> nat * G) widths size g :
  (forall w, In w (fst (widths size g)) -> 0 < w) -> length (fst (widths size g)) = size ->
  drawn_heights 0 (fun g => (fst (poisson g) mod 256, snd (poisson g))) (fst (widths size g)) size (snd (widths size g))
    (fst (generate_dot_jumps_blockwise poisson false widths size g)).
Proof.
  intros P L. unfold generate_dot_jumps_blockwise. destruct (widths size g) as [w g1]. simpl in *.
  pose proof (block_noise_heights 0 poisson w size g1 P L) as [N H].
  destruct (block_noise 0 poisson w size g1) as [n g2]. simpl in *.
  split; [rewrite map_length; exact N|]. intros i b I B. rewrite nth_error_map, (H i b I B). simpl.
  assert (A : forall k g, after_draws (fun g => (fst (poisson g) mod 256, snd (poisson g))) k g = after_draws poisson k g).
  { induction k as [|k IH]; intros h; simpl; auto. }
  unfold nth_draw. rewrite A. simpl. destruct (Nat.odd b); reflexivity.
Qed.
Lemma jump_heights_small {G} (poisson : G -> nat * G) widths size g :
  (forall w, In w (fst (widths size g)) -> 0 < w) -> length (fst (widths size g)) = size -> (forall g, fst (poisson g) < 256) ->
  drawn_heights 0 poisson (fst (widths size g)) size (snd (widths size g)) (fst (generate_dot_jumps_blockwise poisson false widths size g)).
Proof.
  intros P L S. destruct (jump_heights poisson widths size g P L) as [N H]. split; [exact N|]. intros i b I B. rewrite (H i b I B).
  assert (A : forall k g, after_draws (fun g => (fst (poisson g) mod 256, snd (poisson g))) k g = after_draws poisson k g).
  { induction k as [|k IH]; intros h; simpl; auto. }
  unfold nth_draw. rewrite A. cbn [fst]. rewrite Nat.mod_small by apply S. reflexivity.
Qed.

Local Open Scope R_scope.
Lemma rtn_heights {G} (geometric : R -> nat -> G -> list nat * G) normal im scale std height g :
  (forall p size g, length (fst (geometric p size g)) = size /\
     forall w, In w (fst (geometric p size g)) -> (0 < w)%nat) ->
  1 <= scale ->
  let n := length (pixels im) in
  exists out g' noise, random_telegraph_noise geometric normal im scale std height g = Ok (out, g') /\
    drawn_heights 0 (normal height std) (fst (geometric (1 / scale) n g)) n (snd (geometric (1 / scale) n g)) noise /\
    pixels out = plus_pixels (pixels im) noise.
Proof.
  intros P S n. subst n. rewrite (length_pixels im). unfold random_telegraph_noise.
  rewrite Reqb_false, Rltb_false by lra.
  destruct (P (1 / scale) (shape_size (image_shape im)) g) as [L W].
  destruct (geometric (1 / scale) (shape_size (image_shape im)) g) as [ls g1]. cbn [fst snd] in *.
  pose proof (block_noise_heights 0 (normal height std) ls (shape_size (image_shape im)) g1 W L) as Q.
  destruct (block_noise 0 (normal height std) ls (shape_size (image_shape im)) g1) as [noise g2]. cbn [fst] in Q.
  exists (add_noise im noise), g2, noise. split; [reflexivity|]. split; [exact Q|].
  apply pixels_add_noise. destruct Q as [Q _]. exact Q.
Qed.

Lemma two_scales_blocks {G} normal (geometric1 : R -> G -> nat * G) pb pq std height size : forall k bi noise g,
  firstn size (fst (two_scales_loop normal geometric1 k size pb pq std height bi noise g)) =
  firstn size (noise ++ expand (two_scale_blocks (geometric1 pq) (geometric1 pb) (normal height std) k bi g)).
Proof.
  assert (F : forall (a b : list R), (size <= length a)%nat -> firstn size a = firstn size (a ++ b)).
  { intros a b H. rewrite firstn_app. replace (size - length a)%nat with 0%nat by lia. simpl. rewrite app_nil_r. reflexivity. }
  induction k as [|k IH]; intros bi noise g; cbn [two_scales_loop two_scale_blocks].
  - simpl. rewrite app_nil_r. reflexivity.
  - destruct bi.
    + destruct (geometric1 pb g) as [w g1]. destruct (normal height std g1) as [h g2]. cbn [expand flat_map fst snd]. rewrite app_assoc.
      destruct (Nat.leb_spec size (length (noise ++ repeat h w))) as [L|L]; [apply F; exact L|]. apply IH.
    + destruct (geometric1 pq g) as [w g1]. cbn [expand flat_map fst snd]. rewrite app_assoc.
      destruct (Nat.leb_spec size (length (noise ++ repeat 0 w))) as [L|L]; [apply F; exact L|]. apply IH.
Qed.
Lemma two_scales_heights {G} normal (geometric1 : R -> G -> nat * G) im sb sq std height g :
  (forall p g, (0 < fst (geometric1 p g))%nat) -> 1 <= sb -> 1 <= sq ->
  let n := length (pixels im) in
  exists out g', random_telegraph_noise_two_scales normal geometric1 im sb sq std height g = Ok (out, g') /\
    pixels out = plus_pixels (pixels im)
      (firstn n (expand (two_scale_blocks (geometric1 (1 / sq)) (geometric1 (1 / sb)) (normal height std) n false g))).
Proof.
  intros P Sb Sq n. subst n. rewrite (length_pixels im). set (size := shape_size (image_shape im)).
  pose proof (two_scales_blocks normal geometric1 (1 / sb) (1 / sq) std height size size false [] g) as B.
  pose proof (two_scales_loop_spec normal geometric1 P size size (1 / sb) (1 / sq) std height false [] g) as [_ L].
  unfold random_telegraph_noise_two_scales. rewrite Reqb_false, !Rltb_false by lra. cbn [orb]. fold size.
  destruct (two_scales_loop normal geometric1 size size (1 / sb) (1 / sq) std height false [] g) as [noise g1]. cbn [fst app] in B, L.
  eexists _, _. split; [reflexivity|]. rewrite <- B. apply pixels_add_noise. fold size. rewrite firstn_length. simpl in L. specialize (L (le_n _)). lia.
Qed.

Lemma white_draws {G} (standard_normal : nat -> G -> list R * G) sample_sigma im g :
  (forall n g, length (fst (standard_normal n g)) = n) -> 0 <= fst (sample_sigma g) ->
  let sigma := fst (sample_sigma g) in let drawn := standard_normal (length (pixels im)) (snd (sample_sigma g)) in
  exists out, white_noise_function standard_normal sample_sigma im g = Ok (out, sigma, snd drawn) /\
    image_shape out = image_shape im /\
    forall k x z, nth_error (pixels im) k = Some x -> nth_error (fst drawn) k = Some z -> nth_error (pixels out) k = Some (x + sigma * z).
Proof.
  intros Hn Hs. cbv zeta. rewrite (length_pixels im). unfold white_noise_function, white_gaussian_noise.
  destruct (sample_sigma g) as [sigma g1]. cbn [fst snd] in *. rewrite Rltb_false by lra.
  pose proof (Hn (shape_size (image_shape im)) g1) as L.
  destruct (standard_normal (shape_size (image_shape im)) g1) as [z g2]. cbn [fst snd] in *.
  eexists. split; [reflexivity|]. split; [destruct im; reflexivity|].
  intros k x y X Y. cbn [fst]. rewrite pixels_add_noise by (rewrite map_length; exact L). unfold plus_pixels.
  erewrite map_nth_error; [|apply nth_error_combine; [exact X|apply map_nth_error; exact Y]]. cbn. f_equal. ring.
Qed.
Lemma pink_draws {G} sample_sigma (powerlaw : nat -> R -> G -> list R * G) im fmin g :
  (forall n f g, length (fst (powerlaw n f g)) = n) ->
  let sigma := fst (sample_sigma g) in let drawn := powerlaw (length (pixels im)) fmin (snd (sample_sigma g)) in
  exists out, pink_noise_function sample_sigma powerlaw im fmin g = (out, sigma, snd drawn) /\
    image_shape out = image_shape im /\
    forall k x z, nth_error (pixels im) k = Some x -> nth_error (fst drawn) k = Some z -> nth_error (pixels out) k = Some (x + sigma * z).
Proof.
  intros Hn. cbv zeta. rewrite (length_pixels im). unfold pink_noise_function, pink_gaussian_noise.
  destruct (sample_sigma g) as [sigma g1]. cbn [fst snd] in *.
  pose proof (Hn (shape_size (image_shape im)) fmin g1) as L.
  destruct (powerlaw (shape_size (image_shape im)) fmin g1) as [z g2]. cbn [fst snd] in *.
  eexists. split; [reflexivity|]. split; [destruct im; reflexivity|].
  intros k x y X Y. rewrite pixels_add_noise by (rewrite map_length; exact L). unfold plus_pixels.
  erewrite map_nth_error; [|apply nth_error_combine; [exact X|apply map_nth_error; exact Y]]. cbn. f_equal. ring.
Qed.

Lemma rtn_call_heights {G} (geometric : R -> nat -> G -> list nat * G) normal binomial
    (sample_scale sample_std sample_height : G -> R * G) im lim1 lim2 g k :
  (forall p size g, length (fst (geometric p size g)) = size /\
     forall w, In w (fst (geometric p size g)) -> (0 < w)%nat) ->
  fst (binomial g) = true -> rtn_px_per_volt (image_shape im) lim1 lim2 = Ok k ->
  let g1 := snd (binomial g) in let scale := fst (sample_scale g1) * k in
  let g2 := snd (sample_scale g1) in let std := fst (sample_std g2) in
  let g3 := snd (sample_std g2) in let height := fst (sample_height g3) in
  let g4 := snd (sample_height g3) in let n := length (pixels im) in
  1 <= scale ->
  exists out g' noise, rtn_noise_function geometric normal binomial sample_scale sample_std sample_height im lim1 lim2 g = Ok (out, true, g') /\
    drawn_heights 0 (normal height std) (fst (geometric (1 / scale) n g4)) n (snd (geometric (1 / scale) n g4)) noise /\
    pixels out = plus_pixels (pixels im) noise.
Proof.
  intros P A K g1 scale g2 std g3 height g4 n S. unfold rtn_noise_function.
  destruct (rtn_heights geometric normal im scale std height g4 P S) as (out & g' & noise & E & H & Q).
  exists out, g', noise. split; [|split; [exact H|exact Q]].
  subst n g4 height g3 std g2 scale g1. destruct (binomial g) as [act g1]. cbn [fst snd] in *. subst act. cbn [negb].
  destruct (sample_scale g1) as [sv g2]. cbn [fst snd] in *. rewrite K. cbn [bind].
  destruct (sample_std g2) as [std g3]. cbn [fst snd] in *. destruct (sample_height g3) as [height g4]. cbn [fst snd] in *.
  rewrite E. reflexivity.
Qed.

Lemma jump_call_heights {A G} (isnan : A -> bool) nan junk have_gen gen1 gen2 (binomial : G -> bool * G)
    sample_scale sample_lam (geometric : R -> nat -> G -> list nat * G) poisson axis st g s lim1 lim2 s' st' g' k :
  (forall p size g, length (fst (geometric p size g)) = size /\
     forall w, In w (fst (geometric p size g)) -> (0 < w)%nat) ->
  jump_noise_function isnan nan junk have_gen gen1 gen2 binomial sample_scale sample_lam geometric poisson axis false st g s lim1 lim2 = Ok (s', st', g') ->
  fst (binomial g) = true -> jump_px_per_volt axis (scan_shape s) lim1 lim2 = Ok k ->
  let g1 := snd (binomial g) in let scale := Rmax 1 (fst (sample_scale g1) * k) in
  let g2 := snd (sample_scale g1) in let lam := fst (sample_lam g2) * k in
  let g3 := snd (sample_lam g2) in let n := pixels_along (scan_shape s) axis in
  exists noise, js_activated st' = Some true /\ js_noise st' = Some noise /\
    jump_apply isnan nan junk have_gen gen1 gen2 axis noise s lim1 lim2 = Ok s' /\
    drawn_heights 0%nat (fun g => (fst (poisson lam g) mod 256, snd (poisson lam g))%nat)
      (fst (geometric (1 / scale) n g3)) n (snd (geometric (1 / scale) n g3)) noise.
Proof.
  intros P E A0 K. cbv zeta. unfold jump_noise_function in E. cbn [andb] in E.
  destruct (binomial g) as [act g1]. cbn [fst snd] in *. subst act. cbn [negb] in E.
  destruct (sample_scale g1) as [sv g2]. cbn [fst snd] in *. destruct (sample_lam g2) as [lv g3]. cbn [fst snd] in *.
  rewrite K in E. cbn [bind] in E.
  assert (M : (if Rltb (sv * k) 1 then 1 else sv * k) = Rmax 1 (sv * k)).
  { destruct (Rltb_spec (sv * k) 1); [rewrite Rmax_left|rewrite Rmax_right]; lra. }
  rewrite M in E. set (scale := Rmax 1 (sv * k)) in *.
  assert (Z : jump_size axis (scan_shape s) = Ok (pixels_along (scan_shape s) axis) \/ exists e, jump_size axis (scan_shape s) = Err e).
  { unfold jump_size, pixels_along. destruct (scan_shape s) as [n|r c].
    - destruct ((axis =? 0) || (axis =? 1))%Z; eauto.
    - destruct (axis =? 0)%Z eqn:E0; [apply Z.eqb_eq in E0; subst axis; left; reflexivity|]. destruct (axis =? 1)%Z; eauto. }
  destruct Z as [Z|[e Z]]; rewrite Z in E; cbn [bind] in E; [|discriminate].
  destruct (P (1 / scale) (pixels_along (scan_shape s) axis) g3) as [L W].
  pose proof (jump_heights (poisson (lv * k)) (geometric (1 / scale)) (pixels_along (scan_shape s) axis) g3 W L) as H.
  destruct (generate_dot_jumps_blockwise (poisson (lv * k)) false (geometric (1 / scale)) (pixels_along (scan_shape s) axis) g3) as [noise g4].
  cbn [fst] in H.
  destruct (jump_apply isnan nan junk have_gen gen1 gen2 axis noise s lim1 lim2) as [t|e] eqn:J; cbn [bind] in E; [|discriminate].
  injection E as <- <- <-. exists noise. repeat split; auto; apply H.
Qed.

Lemma blur_sigma {G} (sample_sigma : G -> R * G) kernel radius freeze st g s lim1 lim2 :
  let blur := blur_noise_function sample_sigma kernel radius freeze st g s lim1 lim2 in
  (freeze = true -> st = None -> blur = Err TypeError) /\
  forall sigma g1, (if freeze then st = Some sigma /\ g1 = g else sample_sigma g = (sigma, g1)) ->
    (sigma <= 0 -> blur = Ok (s, Some sigma, g1)) /\
    (0 < sigma -> forall e, blur_px_per_volt (scan_shape s) lim1 lim2 = Err e -> blur = Err e) /\
    (0 < sigma -> forall k, blur_px_per_volt (scan_shape s) lim1 lim2 = Ok k -> exists s', blur = Ok (s', Some sigma, g1)).
Proof.
  intros blur. subst blur. split.
  - intros -> ->. reflexivity.
  - intros sigma g1 H. unfold blur_noise_function.
    assert (E : (if freeze then match st with Some x => Ok (x, g) | None => Err TypeError end else Ok (sample_sigma g)) = Ok (sigma, g1)).
    { destruct freeze; [destruct H as [-> ->]; reflexivity|rewrite H; reflexivity]. }
    rewrite E. cbn [bind]. split; [|split].
    + intros L. rewrite Rltb_false by lra. reflexivity.
    + intros L e K. rewrite Rltb_true by lra. rewrite K. reflexivity.
    + intros L k K. rewrite Rltb_true by lra. rewrite K. eexists. reflexivity.
Qed.
