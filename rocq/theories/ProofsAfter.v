(** The generator after drawing the heights of blocks. *)
From Verif Require Import RPrelude Arr ModelJumps ProofsJumps SpecHeights ProofsHeights.
Local Open Scope nat_scope.

Section P.
Context {V G : Type}.
Variable zero : V.
Variable draw : G -> V * G.

Lemma block_loop_after w size : forall bi noise g b, (forall x, In x w -> 0 < x) -> length noise < size -> b <= length w ->
  length noise + first_pixel w (b - 1) < size <= length noise + first_pixel w b ->
  snd (block_loop zero draw w size bi noise g) = after_draws draw b g.
Proof.
  induction w as [|x w IH]; intros bi noise g b P N L B.
  - exfalso. unfold first_pixel in B. rewrite !firstn_nil in B. simpl in B. lia.
  - assert (X : 0 < x) by (apply P; left; reflexivity). destruct b as [|b].
    { exfalso. change (first_pixel (x :: w) 0) with 0 in B. lia. }
    rewrite first_pixel_cons in B. simpl block_loop. rewrite (proj2 (Nat.ltb_lt 0 x) X). cbn [after_draws].
    destruct (draw g) as [h g1]. cbn [snd]. replace (S b - 1) with b in B by lia.
    destruct (Nat.leb_spec size (length (noise ++ repeat (if bi then h else zero) x))) as [E|E]; rewrite app_length, repeat_length in E.
    + destruct b as [|b]; [reflexivity|]. rewrite first_pixel_cons in B. lia.
    + destruct b as [|b]; [change (first_pixel w 0) with 0 in B; lia|]. rewrite first_pixel_cons in B.
      apply IH; [intros y Y; apply P; right; exact Y| | |]; rewrite ?app_length, ?repeat_length; simpl in L; try lia.
      replace (S b - 1) with b by lia. lia.
Qed.

Lemma first_pixel_reach (w : list nat) : (forall x, In x w -> 0 < x) -> forall size, 0 < size <= length w ->
  exists b, 0 < b <= length w /\ first_pixel w (b - 1) < size <= first_pixel w b.
Proof.
  induction w as [|x w IH]; intros P size S; simpl in S; [lia|].
  assert (X : 0 < x) by (apply P; left; reflexivity).
  destruct (Nat.le_gt_cases size x) as [L|L].
  - exists 1. simpl. unfold first_pixel. simpl. lia.
  - destruct (IH (fun y Y => P y (or_intror Y)) (size - x) ltac:(lia)) as (b & B1 & B2). exists (Datatypes.S b). simpl length. split; [lia|].
    rewrite first_pixel_cons. replace (Datatypes.S b - 1) with b by lia. destruct b as [|b]; [lia|]. rewrite first_pixel_cons.
    replace (Datatypes.S b - 1) with b in B2 by lia. lia.
Qed.

(** as many heights are drawn as there are blocks that begin within the image *)
Lemma block_noise_after w size g : (forall x, In x w -> 0 < x) -> length w = size ->
  exists b, b <= size /\ (forall i, i < size -> first_pixel w i < size <-> i < b) /\ snd (block_noise zero draw w size g) = after_draws draw b g.
Proof.
  intros P L. unfold block_noise. destruct (Nat.eq_dec size 0) as [Z|Z].
  - destruct w; [|simpl in L; lia]. exists 0. split; [lia|]. split; [intros i I; lia|]. reflexivity.
  - destruct (first_pixel_reach w P size ltac:(lia)) as (b & B1 & B2). exists b. split; [lia|].
    assert (Mono : forall i j, i <= j -> first_pixel w i <= first_pixel w j).
    { clear. induction w as [|x w IH]; intros [|i] [|j] H; unfold first_pixel in *; simpl; try lia. apply Nat.add_le_mono_l, IH. lia. }
    split.
    + intros i I. split; intros H.
      * destruct (Nat.lt_ge_cases i b) as [|Q]; [assumption|]. pose proof (Mono b i Q). lia.
      * pose proof (Mono i (b - 1) ltac:(lia)). lia.
    + pose proof (block_loop_after w size false [] g b P ltac:(simpl; lia) ltac:(lia) ltac:(simpl; lia)) as E.
      destruct (block_loop zero draw w size false [] g). exact E.
Qed.
End P.

From Verif Require Import ModelDistortions SpecDistortions ProofsDistortions SpecSums.
Local Open Scope R_scope.
Lemma rtn_after {G} (geometric : R -> nat -> G -> list nat * G) normal im scale std height g out g' :
  (forall p size g, length (fst (geometric p size g)) = size /\
     forall w, In w (fst (geometric p size g)) -> (0 < w)%nat) ->
  1 <= scale -> random_telegraph_noise geometric normal im scale std height g = Ok (out, g') ->
  let n := length (pixels im) in
  heights_drawn (normal height std) (fst (geometric (1 / scale) n g)) n (snd (geometric (1 / scale) n g)) g'.
Proof.
  intros P S H n. subst n. rewrite (length_pixels im). unfold random_telegraph_noise in H.
  rewrite Reqb_false, Rltb_false in H by lra.
  destruct (P (1 / scale) (shape_size (image_shape im)) g) as [L W].
  destruct (geometric (1 / scale) (shape_size (image_shape im)) g) as [ls g1]. cbn [fst snd] in *.
  destruct (block_noise_after 0 (normal height std) ls (shape_size (image_shape im)) g1 W L) as (b & B1 & B2 & B3).
  destruct (block_noise 0 (normal height std) ls (shape_size (image_shape im)) g1) as [noise g2]. injection H as _ <-.
  exists b. auto.
Qed.
Lemma jump_after {G} (poisson : G -> nat * G) widths size g :
  (forall w, In w (fst (widths size g)) -> (0 < w)%nat) -> length (fst (widths size g)) = size ->
  heights_drawn poisson (fst (widths size g)) size (snd (widths size g)) (snd (generate_dot_jumps_blockwise poisson false widths size g)).
Proof.
  intros P L. unfold generate_dot_jumps_blockwise. destruct (widths size g) as [w g1]. cbn [fst snd] in *.
  destruct (block_noise_after 0%nat poisson w size g1 P L) as (b & B1 & B2 & B3).
  destruct (block_noise 0%nat poisson w size g1) as [n g2]. exists b. auto.
Qed.

(** Two scales. *)
Section T.
Context {G : Type}.
Variables (normal : R -> R -> G -> R * G) (geometric1 : R -> G -> nat * G).
Hypothesis P : forall p g, (0 < fst (geometric1 p g))%nat.
Local Open Scope nat_scope.

Lemma two_scales_loop_after pb pq std height size : forall k bi noise g b, length noise < size -> b <= k ->
  length noise + first_pixel (map fst (two_scale_blocks (geometric1 pq) (geometric1 pb) (normal height std) k bi g)) (b - 1) < size <=
  length noise + first_pixel (map fst (two_scale_blocks (geometric1 pq) (geometric1 pb) (normal height std) k bi g)) b ->
  snd (two_scales_loop normal geometric1 k size pb pq std height bi noise g) = after_blocks (geometric1 pq) (geometric1 pb) (normal height std) b bi g.
Proof.
  induction k as [|k IH]; intros bi noise g b N L B.
  - exfalso. cbn [two_scale_blocks map] in B. unfold first_pixel in B. rewrite !firstn_nil in B. simpl in B. lia.
  - destruct b as [|b]; [exfalso; unfold first_pixel in B; simpl in B; lia|].
    cbn [two_scales_loop two_scale_blocks after_blocks] in *. replace (S b - 1) with b in B by lia. destruct bi.
    + pose proof (P pb g) as X. destruct (geometric1 pb g) as [w g1]. cbn [fst snd] in *. destruct (normal height std g1) as [h g2]. cbn [fst snd map] in *.
      rewrite first_pixel_cons in B.
      destruct (Nat.leb_spec size (length (noise ++ repeat h w))) as [E|E]; rewrite app_length, repeat_length in E.
      * destruct b as [|b]; [reflexivity|]. rewrite first_pixel_cons in B. lia.
      * destruct b as [|b]; [unfold first_pixel in B; cbn [firstn fold_right list_sum] in B; lia|]. rewrite first_pixel_cons in B.
        apply IH; rewrite ?app_length, ?repeat_length; try lia. replace (S b - 1) with b by lia. lia.
    + pose proof (P pq g) as X. destruct (geometric1 pq g) as [w g1]. cbn [fst snd map] in *.
      rewrite first_pixel_cons in B.
      destruct (Nat.leb_spec size (length (noise ++ repeat 0%R w))) as [E|E]; rewrite app_length, repeat_length in E.
      * destruct b as [|b]; [reflexivity|]. rewrite first_pixel_cons in B. lia.
      * destruct b as [|b]; [unfold first_pixel in B; cbn [firstn fold_right list_sum] in B; lia|]. rewrite first_pixel_cons in B.
        apply IH; rewrite ?app_length, ?repeat_length; try lia. replace (S b - 1) with b by lia. lia.
Qed.
Lemma two_scale_lengths pb pq std height : forall k bi g,
  length (map fst (two_scale_blocks (geometric1 pq) (geometric1 pb) (normal height std) k bi g)) = k /\
  forall x, In x (map fst (two_scale_blocks (geometric1 pq) (geometric1 pb) (normal height std) k bi g)) -> 0 < x.
Proof.
  induction k as [|k IH]; intros bi g; cbn [two_scale_blocks map]; [split; [reflexivity|intros x []]|]. destruct bi.
  - pose proof (P pb g) as X. destruct (geometric1 pb g) as [w g1]. cbn [fst] in X. destruct (normal height std g1) as [h g2]. cbn [fst map length].
    destruct (IH false g2) as [I1 I2]. split; [rewrite I1; reflexivity|]. intros x [<-|H]; auto.
  - pose proof (P pq g) as X. destruct (geometric1 pq g) as [w g1]. cbn [fst] in X. cbn [fst map length].
    destruct (IH true g1) as [I1 I2]. split; [rewrite I1; reflexivity|]. intros x [<-|H]; auto.
Qed.
Lemma first_pixel_mono (w : list nat) : forall i j, i <= j -> first_pixel w i <= first_pixel w j.
Proof. induction w as [|x w IH]; intros [|i] [|j] H; unfold first_pixel in *; simpl; try lia. apply Nat.add_le_mono_l, IH. lia. Qed.
Lemma two_scales_after im sb sq std height g out g' : (1 <= sb)%R -> (1 <= sq)%R ->
  random_telegraph_noise_two_scales normal geometric1 im sb sq std height g = Ok (out, g') ->
  let n := length (pixels im) in
  let lengths := map fst (two_scale_blocks (geometric1 (1 / sq)%R) (geometric1 (1 / sb)%R) (normal height std) n false g) in
  exists b, b <= n /\ (forall i, i < n -> first_pixel lengths i < n <-> i < b) /\
    g' = after_blocks (geometric1 (1 / sq)%R) (geometric1 (1 / sb)%R) (normal height std) b false g.
Proof.
  intros Sb Sq H. cbv zeta. rewrite (length_pixels im). unfold random_telegraph_noise_two_scales in H.
  rewrite Reqb_false, !Rltb_false in H by lra. cbn [orb] in H. set (size := shape_size (image_shape im)) in *.
  destruct (two_scale_lengths (1 / sb)%R (1 / sq)%R std height size false g) as [L W].
  pose proof (two_scales_loop_after (1 / sb)%R (1 / sq)%R std height size size false [] g) as A.
  set (w := map fst _) in *.
  destruct (two_scales_loop normal geometric1 size size (1 / sb)%R (1 / sq)%R std height false [] g) as [noise g1] eqn:E. injection H as _ <-.
  destruct (Nat.eq_dec size 0) as [Z|Z].
  - exists 0. split; [lia|]. split; [intros i I; lia|]. rewrite Z in E. injection E as _ <-. reflexivity.
  - destruct (first_pixel_reach w W size ltac:(lia)) as (b & B1 & B2). exists b. split; [lia|]. split.
    + intros i I. split; intros Q.
      * destruct (Nat.lt_ge_cases i b) as [|R]; [assumption|]. pose proof (first_pixel_mono w b i R). lia.
      * pose proof (first_pixel_mono w i (b - 1) ltac:(lia)). lia.
    + apply A; simpl; lia.
Qed.
End T.

(** Whole calls. *)
Lemma jump_call_after {A G} (isnan : A -> bool) nan junk have_gen gen1 gen2 (binomial : G -> bool * G)
    sample_scale sample_lam (geometric : R -> nat -> G -> list nat * G) poisson axis st g s lim1 lim2 s' st' g' k :
  (forall p size g, length (fst (geometric p size g)) = size /\
     forall w, In w (fst (geometric p size g)) -> (0 < w)%nat) ->
  jump_noise_function isnan nan junk have_gen gen1 gen2 binomial sample_scale sample_lam geometric poisson axis false st g s lim1 lim2 = Ok (s', st', g') ->
  fst (binomial g) = true -> jump_px_per_volt axis (scan_shape s) lim1 lim2 = Ok k ->
  let g1 := snd (binomial g) in let scale := Rmax 1 (fst (sample_scale g1) * k) in
  let g2 := snd (sample_scale g1) in let lam := fst (sample_lam g2) * k in
  let g3 := snd (sample_lam g2) in let n := pixels_along (scan_shape s) axis in
  heights_drawn (poisson lam) (fst (geometric (1 / scale) n g3)) n (snd (geometric (1 / scale) n g3)) g'.
Proof.
  intros P E A0 K. cbv zeta. unfold jump_noise_function in E. cbn [andb] in E.
  destruct (binomial g) as [act g1]. cbn [fst snd] in *. subst act. cbn [negb] in E.
  destruct (sample_scale g1) as [sv g2]. cbn [fst snd] in *. destruct (sample_lam g2) as [lv g3]. cbn [fst snd] in *.
  rewrite K in E. cbn [bind] in E.
  assert (M : (if Rltb (sv * k) 1 then 1 else sv * k) = Rmax 1 (sv * k)).
  { destruct (Rltb_spec (sv * k) 1); [rewrite Rmax_left|rewrite Rmax_right]; lra. }
  rewrite M in E. set (scale := Rmax 1 (sv * k)) in *.
  assert (Z : jump_size axis (scan_shape s) = Ok (pixels_along (scan_shape s) axis) \/ exists e, jump_size axis (scan_shape s) = Err e).
  { unfold jump_size, pixels_along. destruct (scan_shape s) as [n|r c].
    - destruct ((axis =? 0) || (axis =? 1))%Z; eauto.
    - destruct (axis =? 0)%Z eqn:E0; [apply Z.eqb_eq in E0; subst axis; left; reflexivity|]. destruct (axis =? 1)%Z; eauto. }
  destruct Z as [Z|[e Z]]; rewrite Z in E; cbn [bind] in E; [|discriminate].
  destruct (P (1 / scale) (pixels_along (scan_shape s) axis) g3) as [L W].
  pose proof (jump_after (poisson (lv * k)) (geometric (1 / scale)) (pixels_along (scan_shape s) axis) g3 W L) as H.
  destruct (generate_dot_jumps_blockwise (poisson (lv * k)) false (geometric (1 / scale)) (pixels_along (scan_shape s) axis) g3) as [noise g4].
  cbn [snd] in H.
  destruct (jump_apply isnan nan junk have_gen gen1 gen2 axis noise s lim1 lim2) as [t|e] eqn:J; cbn [bind] in E; [|discriminate].
  injection E as <- <- <-. exact H.
Qed.
Lemma rtn_call_after {G} (geometric : R -> nat -> G -> list nat * G) normal binomial
    (sample_scale sample_std sample_height : G -> R * G) im lim1 lim2 g k out act g' :
  (forall p size g, length (fst (geometric p size g)) = size /\
     forall w, In w (fst (geometric p size g)) -> (0 < w)%nat) ->
  fst (binomial g) = true -> rtn_px_per_volt (image_shape im) lim1 lim2 = Ok k ->
  rtn_noise_function geometric normal binomial sample_scale sample_std sample_height im lim1 lim2 g = Ok (out, act, g') ->
  let g1 := snd (binomial g) in let scale := fst (sample_scale g1) * k in
  let g2 := snd (sample_scale g1) in let std := fst (sample_std g2) in
  let g3 := snd (sample_std g2) in let height := fst (sample_height g3) in
  let g4 := snd (sample_height g3) in let n := length (pixels im) in
  1 <= scale -> heights_drawn (normal height std) (fst (geometric (1 / scale) n g4)) n (snd (geometric (1 / scale) n g4)) g'.
Proof.
  intros P A0 K E. cbv zeta. intros S. unfold rtn_noise_function in E.
  destruct (binomial g) as [b g1]. cbn [fst snd] in *. subst b. cbn [negb] in E.
  destruct (sample_scale g1) as [sv g2]. cbn [fst snd] in *. rewrite K in E. cbn [bind] in E.
  destruct (sample_std g2) as [sd g3]. cbn [fst snd] in *. destruct (sample_height g3) as [h g4]. cbn [fst snd] in *.
  destruct (random_telegraph_noise geometric normal im (sv * k) sd h g4) as [[o g5]|e] eqn:T; cbn [bind] in E; [|discriminate].
  injection E as _ _ <-. exact (rtn_after geometric normal im (sv * k) sd h g4 o g5 P S T).
Qed.
