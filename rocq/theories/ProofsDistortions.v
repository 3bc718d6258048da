(** Proofs about the distortion classes. *)
From Verif Require Import RPrelude Arr ModelJumps SpecJumps ProofsJumps ModelDistortions SpecDistortions.
Local Open Scope R_scope.

(** ** Scan order *)
Lemma length_concat_rows {X} (f : nat -> nat -> X) r c :
  length (concat (map (fun i => map (f i) (seq 0 c)) (seq 0 r))) = (r * c)%nat.
Proof.
  induction r as [|r IH]; [reflexivity|].
  rewrite seq_S, map_app, concat_app, app_length, IH. simpl.
  rewrite app_nil_r, map_length, seq_length. lia.
Qed.

Lemma nth_error_concat_rows {X} (f : nat -> nat -> X) r c i j :
  (i < r)%nat -> (j < c)%nat ->
  nth_error (concat (map (fun i => map (f i) (seq 0 c)) (seq 0 r))) (i * c + j) = Some (f i j).
Proof.
  intros Hi Hj. induction r as [|r IH]; [lia|].
  rewrite seq_S, map_app, concat_app. simpl. rewrite app_nil_r.
  destruct (Nat.eq_dec i r) as [->|N].
  - rewrite nth_error_app2 by (rewrite length_concat_rows; lia).
    rewrite length_concat_rows. replace (r * c + j - r * c)%nat with j by lia.
    rewrite nth_error_map_seq. destruct (Nat.ltb_spec j c); [reflexivity|lia].
  - rewrite nth_error_app1 by (rewrite length_concat_rows; nia). apply IH; lia.
Qed.

Lemma length_pixels im : length (pixels im) = shape_size (image_shape im).
Proof.
  destruct im as [a|a]; simpl.
  - unfold to_list1; rewrite map_length, seq_length; reflexivity.
  - unfold to_list2; apply length_concat_rows.
Qed.

Lemma nth_error_combine {X Y} (l : list X) (m : list Y) k x y :
  nth_error l k = Some x -> nth_error m k = Some y -> nth_error (combine l m) k = Some (x, y).
Proof.
  revert m k; induction l as [|a l IH]; intros [|b m] [|k]; simpl; try discriminate.
  - congruence.
  - apply IH.
Qed.

Lemma split_index c k r : (k < r * c)%nat -> exists i j, (i < r)%nat /\ (j < c)%nat /\ k = (i * c + j)%nat.
Proof.
  intros H. assert (c <> 0)%nat by (intro; subst; lia).
  exists (k / c)%nat, (k mod c)%nat. split; [|split].
  - apply Nat.div_lt_upper_bound; lia.
  - apply Nat.mod_upper_bound; auto.
  - rewrite (Nat.div_mod k c) at 1 by auto. lia.
Qed.

Lemma pixels_add_noise im noise :
  length noise = shape_size (image_shape im) ->
  pixels (add_noise im noise) = plus_pixels (pixels im) noise.
Proof.
  intros L. apply nth_error_ext. intros k.
  assert (Lp : length (plus_pixels (pixels im) noise) = shape_size (image_shape im)).
  { unfold plus_pixels. rewrite map_length, combine_length, length_pixels. lia. }
  assert (La : length (pixels (add_noise im noise)) = shape_size (image_shape im)).
  { rewrite length_pixels. destruct im; reflexivity. }
  destruct (Nat.lt_ge_cases k (shape_size (image_shape im))) as [H|H].
  2:{ rewrite (proj2 (nth_error_None _ _)) by lia. symmetry. apply nth_error_None. lia. }
  unfold plus_pixels. destruct im as [a|a]; simpl in *.
  - unfold to_list1; simpl. rewrite nth_error_map_seq. destruct (Nat.ltb_spec k (len1 a)); [|lia].
    erewrite map_nth_error; [|apply nth_error_combine;
      [rewrite nth_error_map_seq; destruct (Nat.ltb_spec k (len1 a)); [reflexivity|lia]
      |apply nth_error_nth' with (d := 0); lia]]. reflexivity.
  - destruct (split_index (cols a) k (rows a) H) as (i & j & Hi & Hj & ->).
    unfold to_list2; simpl. rewrite (nth_error_concat_rows (fun i j => cell a i j + nth (i * cols a + j) noise 0)) by auto.
    erewrite map_nth_error; [|apply nth_error_combine;
      [apply (nth_error_concat_rows (cell a)); auto
      |apply nth_error_nth' with (d := 0); lia]]. reflexivity.
Qed.

(** ** Random telegraph noise *)
Section RTNProofs.
Context {G : Type}.
Variable geometric : R -> nat -> G -> list nat * G.
Variable normal : R -> R -> G -> R * G.

Definition geometric_ok := forall p size g,
  length (fst (geometric p size g)) = size /\ forall w, In w (fst (geometric p size g)) -> (0 < w)%nat.

Lemma rtn_spec im scale std height g : geometric_ok -> 1 <= scale ->
  exists out g' noise, random_telegraph_noise geometric normal im scale std height g = Ok (out, g') /\
    image_shape out = image_shape im /\
    quiet_jump_pattern 0 (shape_size (image_shape im)) noise /\
    pixels out = plus_pixels (pixels im) noise.
Proof.
  intros Hg Hs. unfold random_telegraph_noise.
  rewrite Reqb_false by (intro; lra). rewrite Rltb_false by lra.
  destruct (geometric (1 / scale) (shape_size (image_shape im)) g) as [lengths g1] eqn:E.
  destruct (Hg (1 / scale) (shape_size (image_shape im)) g) as [L P]. rewrite E in L, P; simpl in L, P.
  pose proof (block_noise_spec 0 (normal height std) lengths (shape_size (image_shape im)) g1 P L) as Q.
  destruct (block_noise 0 (normal height std) lengths (shape_size (image_shape im)) g1) as [noise g2]; simpl in Q.
  exists (add_noise im noise), g2, noise. split; [reflexivity|].
  split; [destruct im; reflexivity|]. split; [exact Q|].
  apply pixels_add_noise. destruct Q as [Q _]. exact Q.
Qed.

Variable geometric1 : R -> G -> nat * G.
Lemma two_scales_loop_spec : (forall p g, (0 < fst (geometric1 p g))%nat) ->
  forall fuel size pb pq std height bi noise g,
  let out := fst (two_scales_loop normal geometric1 fuel size pb pq std height bi noise g) in
  (exists blocks, alternating 0 (negb bi) blocks /\ out = noise ++ expand blocks) /\
  ((size <= length noise + fuel)%nat -> (size <= length out)%nat).
Proof.
  intros Hg. induction fuel as [|f IH]; intros size pb pq std height bi noise g; simpl.
  - split; [exists []; split; simpl; auto; rewrite app_nil_r; reflexivity|lia].
  - destruct bi.
    + pose proof (Hg pb g) as W. destruct (geometric1 pb g) as [w g1]; simpl in W.
      destruct (normal height std g1) as [h g2].
      destruct (Nat.leb_spec size (length (noise ++ repeat h w))) as [B|B]; simpl.
      * split; [|intros _; lia]. exists [(w, h)]. simpl. repeat split; auto; try discriminate.
        unfold expand; simpl; rewrite app_nil_r; reflexivity.
      * destruct (IH size pb pq std height false (noise ++ repeat h w) g2) as [(bl & HA & HE) HL]. split.
        -- exists ((w, h) :: bl). simpl in *. repeat split; auto; try discriminate.
           rewrite HE. unfold expand; simpl. rewrite app_assoc. reflexivity.
        -- intros Hs. apply HL. rewrite app_length, repeat_length. lia.
    + pose proof (Hg pq g) as W. destruct (geometric1 pq g) as [w g1]; simpl in W.
      destruct (Nat.leb_spec size (length (noise ++ repeat 0 w))) as [B|B]; simpl.
      * split; [|intros _; lia]. exists [(w, 0)]. simpl. repeat split; auto; try discriminate.
        unfold expand; simpl; rewrite app_nil_r; reflexivity.
      * destruct (IH size pb pq std height true (noise ++ repeat 0 w) g1) as [(bl & HA & HE) HL]. split.
        -- exists ((w, 0) :: bl). simpl in *. repeat split; auto.
           rewrite HE. unfold expand; simpl. rewrite app_assoc. reflexivity.
        -- intros Hs. apply HL. rewrite app_length, repeat_length. lia.
Qed.

Lemma two_scales_spec im sb sq std height g : (forall p g, (0 < fst (geometric1 p g))%nat) ->
  1 <= sb -> 1 <= sq ->
  exists out g' noise, random_telegraph_noise_two_scales normal geometric1 im sb sq std height g = Ok (out, g') /\
    image_shape out = image_shape im /\
    quiet_jump_pattern 0 (shape_size (image_shape im)) noise /\
    pixels out = plus_pixels (pixels im) noise.
Proof.
  intros Hg Hb Hq. unfold random_telegraph_noise_two_scales.
  rewrite Reqb_false by (intro; lra). rewrite !Rltb_false by lra. simpl orb. cbv iota.
  set (size := shape_size (image_shape im)).
  pose proof (two_scales_loop_spec Hg size size (1 / sb) (1 / sq) std height false [] g) as (Q & L).
  destruct (two_scales_loop normal geometric1 size size (1 / sb) (1 / sq) std height false [] g) as [noise g1].
  simpl in Q, L. destruct Q as (bl & HA & HE).
  assert (P : quiet_jump_pattern 0 size (firstn size noise)).
  { split; [rewrite firstn_length; specialize (L ltac:(lia)); lia|]. exists bl; split; auto. congruence. }
  exists (add_noise im (firstn size noise)), g1, (firstn size noise). split; [reflexivity|].
  split; [destruct im; reflexivity|]. split; [exact P|].
  apply pixels_add_noise. destruct P as [P _]. exact P.
Qed.

Variable binomial : G -> bool * G.
Variable sample_scale sample_std sample_height : G -> R * G.
Notation rtn := (rtn_noise_function geometric normal binomial sample_scale sample_std sample_height).

Lemma rtn_inactive im lim1 lim2 g : fst (binomial g) = false ->
  rtn im lim1 lim2 g = Ok (im, false, snd (binomial g)).
Proof. unfold rtn_noise_function. destruct (binomial g) as [b g1]; simpl; intros ->; reflexivity. Qed.

(** an active call whose scale is at least one pixel succeeds; one whose non-zero scale is below one
    pixel raises *)
Lemma rtn_active im lim1 lim2 g k : fst (binomial g) = true ->
  rtn_px_per_volt (image_shape im) lim1 lim2 = Ok k ->
  let scale := fst (sample_scale (snd (binomial g))) * k in
  geometric_ok ->
  (1 <= scale -> exists out g' noise, rtn im lim1 lim2 g = Ok (out, true, g') /\
     image_shape out = image_shape im /\
     quiet_jump_pattern 0 (shape_size (image_shape im)) noise /\
     pixels out = plus_pixels (pixels im) noise) /\
  (scale < 1 -> scale <> 0 -> rtn im lim1 lim2 g = Err ValueError).
Proof.
  unfold rtn_noise_function. destruct (binomial g) as [b g1]; simpl; intros -> Hk; simpl.
  destruct (sample_scale g1) as [sv g2]; simpl. rewrite Hk; simpl.
  destruct (sample_std g2) as [std g3]. destruct (sample_height g3) as [height g4]. intros Hg. split.
  - intros Hs. destruct (rtn_spec im (sv * k) std height g4 Hg Hs) as (out & g' & noise & E & Q).
    exists out, g', noise. rewrite E. simpl. split; [reflexivity|exact Q].
  - intros Hs Hn. unfold random_telegraph_noise. rewrite Reqb_false by auto. rewrite Rltb_true by lra. reflexivity.
Qed.
End RTNProofs.

(** ** Additive noise *)
Section AdditiveProofs.
Context {G : Type}.
Variable standard_normal : nat -> G -> list R * G.
Variable sample_sigma : G -> R * G.
Variable powerlaw : nat -> R -> G -> list R * G.

Lemma Forall_zero_plus l z : length z = length l -> Forall (fun x => x = 0) z -> plus_pixels l z = l.
Proof.
  revert z; induction l as [|a l IH]; intros [|b z]; simpl; try discriminate; auto.
  intros L H. inversion H; subst. unfold plus_pixels in *; simpl. rewrite IH by (auto; lia). f_equal; lra.
Qed.

Lemma white_spec im g : (forall n g, length (fst (standard_normal n g)) = n) ->
  let sigma := fst (sample_sigma g) in
  (0 <= sigma ->
   exists out g' noise, white_noise_function standard_normal sample_sigma im g = Ok (out, sigma, g') /\
     image_shape out = image_shape im /\ length noise = length (pixels im) /\
     pixels out = plus_pixels (pixels im) noise /\
     (sigma = 0 -> pixels out = pixels im)) /\
  (sigma < 0 -> white_noise_function standard_normal sample_sigma im g = Err ValueError).
Proof.
  intros Hn. unfold white_noise_function, white_gaussian_noise.
  destruct (sample_sigma g) as [sigma g1]; simpl. split; intros Hs.
  2:{ rewrite Rltb_true by lra. reflexivity. }
  rewrite Rltb_false by lra. pose proof (Hn (shape_size (image_shape im)) g1) as L.
  destruct (standard_normal (shape_size (image_shape im)) g1) as [z g2]; simpl in *.
  exists (add_noise im (map (fun x => 0 + sigma * x) z)), g2, (map (fun x => 0 + sigma * x) z).
  assert (E : pixels (add_noise im (map (fun x => 0 + sigma * x) z)) =
              plus_pixels (pixels im) (map (fun x => 0 + sigma * x) z)).
  { apply pixels_add_noise. rewrite map_length; auto. }
  split; [reflexivity|]. split; [destruct im; reflexivity|].
  split; [rewrite map_length, length_pixels; auto|]. split; [exact E|].
  intros ->. rewrite E. apply Forall_zero_plus; [rewrite map_length, length_pixels; auto|].
  apply Forall_forall. intros x Hx. apply in_map_iff in Hx. destruct Hx as (y & <- & _). lra.
Qed.

Lemma pink_spec im fmin g : (forall n f g, length (fst (powerlaw n f g)) = n) ->
  let sigma := fst (sample_sigma g) in
  exists out g' noise, pink_noise_function sample_sigma powerlaw im fmin g = (out, sigma, g') /\
    image_shape out = image_shape im /\ length noise = length (pixels im) /\
    pixels out = plus_pixels (pixels im) noise /\
    (sigma = 0 -> pixels out = pixels im).
Proof.
  intros Hn. unfold pink_noise_function, pink_gaussian_noise.
  destruct (sample_sigma g) as [sigma g1]; simpl.
  pose proof (Hn (shape_size (image_shape im)) fmin g1) as L.
  destruct (powerlaw (shape_size (image_shape im)) fmin g1) as [z g2]; simpl in *.
  exists (add_noise im (map (fun x => x * sigma) z)), g2, (map (fun x => x * sigma) z).
  assert (E : pixels (add_noise im (map (fun x => x * sigma) z)) =
              plus_pixels (pixels im) (map (fun x => x * sigma) z)).
  { apply pixels_add_noise. rewrite map_length; auto. }
  split; [reflexivity|]. split; [destruct im; reflexivity|].
  split; [rewrite map_length, length_pixels; auto|]. split; [exact E|].
  intros ->. rewrite E. apply Forall_zero_plus; [rewrite map_length, length_pixels; auto|].
  apply Forall_forall. intros x Hx. apply in_map_iff in Hx. destruct Hx as (y & <- & _). lra.
Qed.
End AdditiveProofs.

(** ** Blurring *)
Lemma reflect_lt n i : (0 < n)%nat -> (reflect_index n i < n)%nat.
Proof.
  intros Hn. unfold reflect_index.
  pose proof (Z.mod_pos_bound i (2 * Z.of_nat n) ltac:(lia)).
  destruct (Z.ltb_spec (i mod (2 * Z.of_nat n)) (Z.of_nat n)); lia.
Qed.

Lemma reflect_id n i : (i < n)%nat -> reflect_index n (Z.of_nat i) = i.
Proof.
  intros H. unfold reflect_index. rewrite Z.mod_small by lia.
  destruct (Z.ltb_spec (Z.of_nat i) (Z.of_nat n)); lia.
Qed.

Lemma reflect_mirror n x : (0 < n)%nat ->
  reflect_index n (Z.of_nat n - 1 - x) = (n - 1 - reflect_index n x)%nat.
Proof.
  intros Hn. unfold reflect_index.
  set (N := Z.of_nat n). assert (HN : (0 < N)%Z) by lia.
  pose proof (Z.mod_pos_bound x (2 * N) ltac:(lia)) as B.
  pose proof (Z.div_mod x (2 * N) ltac:(lia)) as D.
  set (m := (x mod (2 * N))%Z) in *. set (q := (x / (2 * N))%Z) in *.
  destruct (Z.ltb_spec m N) as [C|C].
  - replace ((N - 1 - x) mod (2 * N))%Z with (N - 1 - m)%Z.
    2:{ apply (Z.mod_unique _ _ (- q)); lia. }
    destruct (Z.ltb_spec (N - 1 - m) N); lia.
  - replace ((N - 1 - x) mod (2 * N))%Z with (3 * N - 1 - m)%Z.
    2:{ apply (Z.mod_unique _ _ (- q - 1)); lia. }
    destruct (Z.ltb_spec (3 * N - 1 - m) N); lia.
Qed.

Lemma Rsum_ext {X} (f g : X -> R) l : (forall x, In x l -> f x = g x) -> Rsum (map f l) = Rsum (map g l).
Proof. intros H. f_equal. apply map_ext_in; auto. Qed.
Lemma Rsum_mult {X} c (f : X -> R) l : Rsum (map (fun x => c * f x) l) = c * Rsum (map f l).
Proof. induction l; simpl; [lra|]. rewrite IHl; lra. Qed.
Lemma Rsum_multr {X} c (f : X -> R) l : Rsum (map (fun x => f x * c) l) = Rsum (map f l) * c.
Proof. induction l; simpl; [lra|]. rewrite IHl; lra. Qed.
Lemma Rsum_plus {X} (f g : X -> R) l : Rsum (map (fun x => f x + g x) l) = Rsum (map f l) + Rsum (map g l).
Proof. induction l; simpl; lra. Qed.
Lemma Rsum_le {X} (f g : X -> R) l : (forall x, In x l -> f x <= g x) -> Rsum (map f l) <= Rsum (map g l).
Proof.
  induction l as [|a l IH]; simpl; intros H; [lra|].
  pose proof (H a (or_introl eq_refl)). assert (Rsum (map f l) <= Rsum (map g l)) by (apply IH; auto). lra.
Qed.
Lemma Rsum_pos {X} (f : X -> R) l : l <> [] -> (forall x, In x l -> 0 < f x) -> 0 < Rsum (map f l).
Proof.
  destruct l as [|a l]; [congruence|]. intros _ H. simpl. pose proof (H a (or_introl eq_refl)).
  assert (0 <= Rsum (map f l)); [|lra].
  assert (H' : forall x, In x l -> 0 < f x) by (intros; apply H; right; auto). clear H H0.
  induction l as [|b l IH]; simpl; [lra|]. pose proof (H' b (or_introl eq_refl)).
  assert (0 <= Rsum (map f l)) by (apply IH; intros; apply H'; right; auto). lra.
Qed.
Lemma Rsum_rev l : Rsum (rev l) = Rsum l.
Proof. induction l; simpl; [reflexivity|]. rewrite Rsum_app; simpl; lra. Qed.

Lemma offsets_opp radius : map Z.opp (offsets radius) = rev (offsets radius).
Proof.
  apply nth_error_ext. intros k. unfold offsets.
  rewrite map_map. rewrite nth_error_map_seq.
  destruct (Nat.ltb_spec k (2 * radius + 1)) as [H|H].
  - rewrite nth_error_rev by (rewrite map_length, seq_length; lia).
    rewrite map_length, seq_length. rewrite nth_error_map_seq.
    destruct (Nat.ltb_spec (2 * radius + 1 - 1 - k) (2 * radius + 1)); [f_equal; lia|lia].
  - symmetry. apply nth_error_None. rewrite rev_length, map_length, seq_length. lia.
Qed.

Lemma Rsum_offsets_opp f radius : Rsum (map (fun d => f (- d)%Z) (offsets radius)) = Rsum (map f (offsets radius)).
Proof.
  rewrite <- (map_map Z.opp f), offsets_opp, map_rev, Rsum_rev. reflexivity.
Qed.

Lemma offsets_nonempty radius : offsets radius <> [].
Proof.
  unfold offsets. replace (2 * radius + 1)%nat with (S (2 * radius)) by lia. simpl. discriminate.
Qed.

Section FilterLine.
Variable kernel : R -> Z -> R.
Variable radius : R -> nat.
Variable sigma : R.
Hypothesis kernel_pos : forall d, 0 < kernel sigma d.

Let w := normalised (kernel sigma) (radius sigma).

Lemma weights_sum : Rsum (map w (offsets (radius sigma))) = 1.
Proof.
  unfold w, normalised. pose proof (Rsum_pos (kernel sigma) _ (offsets_nonempty (radius sigma)) (fun d _ => kernel_pos d)).
  set (S := Rsum (map (kernel sigma) (offsets (radius sigma)))) in *.
  unfold Rdiv. rewrite Rsum_multr. fold S. field. lra.
Qed.
Lemma weights_pos d : 0 < w d.
Proof.
  unfold w, normalised. apply Rdiv_lt_0_compat; auto.
  apply Rsum_pos; auto using offsets_nonempty.
Qed.

Lemma filter_bounds n line lo hi i : (0 < n)%nat ->
  (forall k, (k < n)%nat -> lo <= line k <= hi) -> lo <= filter_line kernel radius sigma n line i <= hi.
Proof.
  intros Hn H. unfold filter_line, convolve_line. fold w.
  pose proof weights_sum as S1. split.
  - rewrite <- (Rmult_1_l lo), <- S1, <- Rsum_multr. apply Rsum_le. intros d _.
    apply Rmult_le_compat_l; [apply Rlt_le, weights_pos|]. apply H, reflect_lt; auto.
  - rewrite <- (Rmult_1_l hi), <- S1, <- Rsum_multr. apply Rsum_le. intros d _.
    apply Rmult_le_compat_l; [apply Rlt_le, weights_pos|]. apply H, reflect_lt; auto.
Qed.

Lemma filter_const n line c i : (0 < n)%nat ->
  (forall k, (k < n)%nat -> line k = c) -> filter_line kernel radius sigma n line i = c.
Proof.
  intros Hn H. assert (c <= filter_line kernel radius sigma n line i <= c); [|lra].
  apply filter_bounds; auto. intros k Hk. rewrite H by auto. lra.
Qed.

Lemma filter_plus n f g i :
  filter_line kernel radius sigma n (fun k => f k + g k) i =
  filter_line kernel radius sigma n f i + filter_line kernel radius sigma n g i.
Proof.
  unfold filter_line, convolve_line. rewrite <- Rsum_plus. apply Rsum_ext. intros; lra.
Qed.

Lemma filter_ext n f g i : (0 < n)%nat -> (forall k, (k < n)%nat -> f k = g k) ->
  filter_line kernel radius sigma n f i = filter_line kernel radius sigma n g i.
Proof.
  intros Hn H. unfold filter_line, convolve_line. apply Rsum_ext. intros d _. f_equal. apply H, reflect_lt; auto.
Qed.

Hypothesis kernel_even : forall d, kernel sigma (- d)%Z = kernel sigma d.
Lemma filter_reverse n f i : (i < n)%nat ->
  filter_line kernel radius sigma n (fun k => f (n - 1 - k)%nat) i =
  filter_line kernel radius sigma n f (n - 1 - i).
Proof.
  intros Hi. unfold filter_line, convolve_line. fold w.
  rewrite <- (Rsum_offsets_opp (fun d => w d * f (reflect_index n (Z.of_nat (n - 1 - i) - d)))).
  apply Rsum_ext. intros d _. f_equal.
  - unfold w, normalised. rewrite kernel_even; reflexivity.
  - f_equal. rewrite <- reflect_mirror by lia. f_equal. lia.
Qed.
End FilterLine.

Lemma cosh'_pos x : 0 < cosh' x.
Proof. unfold cosh'. pose proof (exp_pos x). pose proof (exp_pos (- x)). lra. Qed.
Lemma fermi_kernel_pos sigma d : 0 < sigma -> 0 < fermi_kernel sigma d.
Proof.
  intros H. unfold fermi_kernel, fermi_dirac_derivative.
  apply Rdiv_lt_0_compat; auto. apply Rmult_lt_0_compat; [lra|].
  apply RPrelude.sqr_pos. pose proof (cosh'_pos ((IZR d - 0) / sigma)).
  assert (0 < 1 / cosh' ((IZR d - 0) / sigma)) by (apply Rdiv_lt_0_compat; lra). lra.
Qed.
Lemma fermi_kernel_even sigma d : fermi_kernel sigma (- d) = fermi_kernel sigma d.
Proof.
  unfold fermi_kernel, fermi_dirac_derivative. rewrite opp_IZR.
  replace ((- IZR d - 0) / sigma) with (- ((IZR d - 0) / sigma)) by (unfold Rdiv; ring).
  assert (E : forall x, cosh' (- x) = cosh' x) by (intros; unfold cosh'; rewrite Ropp_involutive; lra).
  rewrite E. reflexivity.
Qed.
Lemma gaussian_kernel_pos sigma d : 0 < gaussian_kernel sigma d.
Proof. apply exp_pos. Qed.
Lemma gaussian_kernel_even sigma d : gaussian_kernel sigma (- d) = gaussian_kernel sigma d.
Proof. unfold gaussian_kernel. rewrite opp_IZR. f_equal. ring. Qed.

Definition good_kernel (kernel : R -> Z -> R) : Prop :=
  forall sigma, 0 < sigma -> (forall d, 0 < kernel sigma d) /\ (forall d, kernel sigma (- d)%Z = kernel sigma d).
Lemma fermi_good : good_kernel fermi_kernel.
Proof. intros s H; split; intros; [apply fermi_kernel_pos|apply fermi_kernel_even]; auto. Qed.
Lemma gaussian_good : good_kernel gaussian_kernel.
Proof. intros s H; split; intros; [apply gaussian_kernel_pos|apply gaussian_kernel_even]. Qed.

Lemma div_range_pos n l k : (0 < n)%nat -> div_range n l = Ok k -> 0 < k.
Proof.
  unfold div_range. intros Hn. destruct (Reqb_spec (volt_range l) 0) as [E|E]; [discriminate|].
  intros H; inversion H; subst. apply Rdiv_lt_0_compat; [apply lt_0_INR; auto|].
  unfold volt_range in *. pose proof (Rmax_l (fst l) (snd l)). pose proof (Rmin_l (fst l) (snd l)).
  destruct (Req_dec (Rmax (fst l) (snd l) - Rmin (fst l) (snd l)) 0); [contradiction|]. lra.
Qed.

Lemma blur_factor_pos sh lim1 lim2 k :
  match sh with Shape1 n => (0 < n)%nat | Shape2 r c => (0 < r)%nat end ->
  blur_px_per_volt sh lim1 lim2 = Ok k -> 0 < k.
Proof.
  destruct sh as [n|r c]; simpl; intros Hn.
  - destruct (fixed_gate lim1); [apply div_range_pos; auto|].
    destruct (fixed_gate lim2); [apply div_range_pos; auto|].
    destruct (div_range n lim1) as [a|] eqn:E1; simpl; [|discriminate].
    destruct (div_range n lim2) as [b|] eqn:E2; simpl; [|discriminate].
    intros H; inversion H. apply div_range_pos in E1; auto. pose proof (Rmax_l a b). lra.
  - apply div_range_pos; auto.
Qed.

Definition nonempty_scan {A} (s : scan A) : Prop := (0 < line_length s)%nat /\ (0 < line_count s)%nat.

Section BlurClass.
Context {G : Type}.
Variable sample_sigma : G -> R * G.
Variable kernel : R -> Z -> R.
Variable radius : R -> nat.
Notation blur := (blur_noise_function sample_sigma kernel radius).

(** every successful call either leaves the scan alone or filters it with a positive sigma *)
Lemma blur_cases freeze st g s lim1 lim2 s' st' g' :
  blur freeze st g s lim1 lim2 = Ok (s', st', g') -> nonempty_scan s ->
  s' = s \/ exists sigma, 0 < sigma /\ s' = blur_scan kernel radius sigma s.
Proof.
  unfold blur_noise_function. intros H [Hn Hr].
  destruct (if freeze then match st with Some x => Ok (x, g) | None => Err TypeError end
            else Ok (sample_sigma g)) as [[sigma g1]|]; simpl in H; [|discriminate].
  destruct (Rltb_spec 0 sigma) as [P|P].
  - destruct (blur_px_per_volt (scan_shape s) lim1 lim2) as [k|] eqn:K; simpl in H; [|discriminate].
    inversion H; subst. right. exists (sigma * k). split; auto.
    apply Rmult_lt_0_compat; auto. eapply blur_factor_pos; [|exact K]. destruct s; simpl in *; auto.
  - inversion H; subst. left; auto.
Qed.

Hypothesis K : good_kernel kernel.

Lemma blur_scan_spec sigma s : 0 < sigma -> nonempty_scan s ->
  let s' := blur_scan kernel radius sigma s in
  line_length s' = line_length s /\ line_count s' = line_count s /\ scan_lead s' = scan_lead s /\
  forall r i, (r < line_count s)%nat -> (i < line_length s)%nat ->
    fst (scan_line s' r i) = filter_line kernel radius sigma (line_length s) (fun k => fst (scan_line s r k)) i /\
    snd (scan_line s' r i) = filter_line kernel radius sigma (line_length s) (fun k => snd (scan_line s r k)) i.
Proof. intros _ _. destruct s; simpl; repeat split; auto. Qed.

Lemma blur_bounds freeze st g s lim1 lim2 s' st' g' :
  blur freeze st g s lim1 lim2 = Ok (s', st', g') -> nonempty_scan s ->
  line_length s' = line_length s /\ line_count s' = line_count s /\ scan_lead s' = scan_lead s /\
  (forall r lo hi, (r < line_count s)%nat ->
     (forall k, (k < line_length s)%nat -> lo <= fst (scan_line s r k) <= hi) ->
     forall i, (i < line_length s)%nat -> lo <= fst (scan_line s' r i) <= hi) /\
  (forall r lo hi, (r < line_count s)%nat ->
     (forall k, (k < line_length s)%nat -> lo <= snd (scan_line s r k) <= hi) ->
     forall i, (i < line_length s)%nat -> lo <= snd (scan_line s' r i) <= hi) /\
  (forall r lo hi, (r < line_count s)%nat ->
     (forall k, (k < line_length s)%nat -> lo <= fst (scan_line s r k) + snd (scan_line s r k) <= hi) ->
     forall i, (i < line_length s)%nat -> lo <= fst (scan_line s' r i) + snd (scan_line s' r i) <= hi).
Proof.
  intros H Hne. destruct (blur_cases _ _ _ _ _ _ _ _ _ H Hne) as [->|(sigma & Hs & ->)].
  - repeat split; auto; try (apply H1; auto); try (apply H0; auto).
  - destruct (blur_scan_spec sigma s Hs Hne) as (L & C & D & F). destruct (K sigma Hs) as [KP KE].
    destruct Hne as [Hn Hr].
    split; [exact L|split; [exact C|split; [exact D|split; [|split]]]]; intros r lo hi Hr' Hb i Hi;
      destruct (F r i Hr' Hi) as [F1 F2].
    + rewrite F1. apply filter_bounds; auto.
    + rewrite F2. apply filter_bounds; auto.
    + rewrite F1, F2, <- filter_plus. apply (filter_bounds kernel radius sigma KP); auto.
Qed.

(** frozen calls *)
Lemma blur_frozen st g s lim1 lim2 s' st' g' :
  blur false st g s lim1 lim2 = Ok (s', st', g') ->
  forall gx, blur true st' gx s lim1 lim2 = Ok (s', st', gx).
Proof.
  unfold blur_noise_function; simpl. destruct (sample_sigma g) as [sigma g1].
  destruct (Rltb 0 sigma) eqn:P.
  - destruct (blur_px_per_volt (scan_shape s) lim1 lim2) eqn:B; simpl; [|discriminate].
    intros H; inversion H; subst. intros gx. simpl. rewrite P. reflexivity.
  - intros H; inversion H; subst. intros gx; simpl. rewrite P. reflexivity.
Qed.
Lemma blur_frozen_state st g s lim1 lim2 s' st' g' :
  blur true st g s lim1 lim2 = Ok (s', st', g') -> st' = st /\ g' = g.
Proof.
  unfold blur_noise_function. destruct st as [x|]; simpl; [|discriminate].
  destruct (Rltb 0 x); [|intros H; inversion H; auto].
  destruct (blur_px_per_volt _ _ _); simpl; [|discriminate]. intros H; inversion H; auto.
Qed.
End BlurClass.

Lemma swapped_factor sh (lim1 lim2 : limits) : forall lim1', volt_range lim1' = volt_range lim1 ->
  fixed_gate lim1' = fixed_gate lim1 -> blur_px_per_volt sh lim1' lim2 = blur_px_per_volt sh lim1 lim2.
Proof.
  intros l H F. unfold blur_px_per_volt, div_range. rewrite H, F. reflexivity.
Qed.

Lemma volt_range_swap l : volt_range (snd l, fst l) = volt_range l.
Proof. unfold volt_range; simpl. rewrite Rmax_comm, Rmin_comm. reflexivity. Qed.
Lemma fixed_gate_swap l : fixed_gate (snd l, fst l) = fixed_gate l.
Proof.
  unfold fixed_gate; simpl. destruct (Reqb_spec (snd l) (fst l)), (Reqb_spec (fst l) (snd l)); auto; congruence.
Qed.

(** blurring a reversed sweep = reversed blurred sweep *)
Lemma blur_scan_reverse kernel radius sigma s : good_kernel kernel -> 0 < sigma ->
  eq_scan (blur_scan kernel radius sigma (reverse_lines s)) (reverse_lines (blur_scan kernel radius sigma s)).
Proof.
  intros K Hs. destruct (K sigma Hs) as [KP KE]. destruct s as [o l|o l]; simpl.
  - split; [split; simpl; auto|].
    + intros i Hi.
      rewrite (filter_reverse kernel radius sigma KE (len1 o) (fun k => fst (cell1 o k)) i Hi).
      rewrite (filter_reverse kernel radius sigma KE (len1 o) (fun k => snd (cell1 o k)) i Hi). reflexivity.
    + destruct l; simpl; auto using eq1_refl.
  - split; [split; [|split]; simpl; auto|].
    + intros r i Hr Hi.
      rewrite (filter_reverse kernel radius sigma KE (cols o) (fun k => fst (cell o r k)) i Hi).
      rewrite (filter_reverse kernel radius sigma KE (cols o) (fun k => snd (cell o r k)) i Hi). reflexivity.
    + destruct l; simpl; auto using eq2_refl.
Qed.

Lemma eq_scan_refl {A} (s : scan A) : eq_scan s s.
Proof. destruct s as [o [l|]|o [l|]]; simpl; auto using eq1_refl, eq2_refl. Qed.

Lemma blur_reverse {G} (sample_sigma : G -> R * G) kernel radius freeze st g s lim1 lim2 s' st' g' :
  good_kernel kernel -> nonempty_scan s ->
  blur_noise_function sample_sigma kernel radius freeze st g s lim1 lim2 = Ok (s', st', g') ->
  exists t, blur_noise_function sample_sigma kernel radius freeze st g (reverse_lines s) (snd lim1, fst lim1) lim2
            = Ok (t, st', g') /\ eq_scan t (reverse_lines s').
Proof.
  intros K [Hn Hr]. unfold blur_noise_function.
  destruct (if freeze then match st with Some x => Ok (x, g) | None => Err TypeError end
            else Ok (sample_sigma g)) as [[sigma g1]|]; simpl; [|discriminate].
  destruct (Rltb_spec 0 sigma) as [P|P].
  - replace (scan_shape (reverse_lines s)) with (scan_shape s) by (destruct s; reflexivity).
    rewrite (swapped_factor (scan_shape s) lim1 lim2 (snd lim1, fst lim1) (volt_range_swap lim1) (fixed_gate_swap lim1)).
    destruct (blur_px_per_volt (scan_shape s) lim1 lim2) as [k|] eqn:B; simpl; [|discriminate].
    intros H; inversion H; subst. eexists; split; [reflexivity|].
    apply blur_scan_reverse; auto. apply Rmult_lt_0_compat; auto. eapply blur_factor_pos; [|exact B].
    destruct s; simpl in *; auto.
  - intros H; inversion H; subst. eexists; split; [reflexivity|]. apply eq_scan_refl.
Qed.

(** ** Dot jumps: activation and freezing *)
Local Arguments generate_dot_jumps_blockwise : simpl never.
Section JumpClassProofs.
Context {A G : Type}.
Variable isnan : A -> bool.
Variable nan : A.
Variable junk : nat -> nat -> A.
Variable have_gen : bool.
Variable gen1 : limits -> limits -> nat -> arr1 (A * A) * arr1 A.
Variable gen2 : limits -> limits -> nat * nat -> arr2 (A * A) * arr2 A.
Variable binomial : G -> bool * G.
Variable sample_scale sample_lam : G -> R * G.
Variable geometric : R -> nat -> G -> list nat * G.
Variable poisson : R -> G -> nat * G.
Notation jump := (jump_noise_function isnan nan junk have_gen gen1 gen2 binomial sample_scale sample_lam geometric poisson).

Lemma jump_inactive axis st g s lim1 lim2 : fst (binomial g) = false ->
  exists st', jump axis false st g s lim1 lim2 = Ok (s, st', snd (binomial g)) /\ js_activated st' = Some false.
Proof.
  unfold jump_noise_function; simpl. destruct (binomial g) as [b g1]; simpl; intros ->; simpl. eauto.
Qed.
Lemma jump_frozen_inactive axis st g s lim1 lim2 : js_activated st <> Some true ->
  jump axis true st g s lim1 lim2 = Ok (s, st, g).
Proof.
  unfold jump_noise_function; simpl. destruct (js_activated st) as [[]|]; simpl; congruence.
Qed.
Lemma jump_frozen_state axis st g s lim1 lim2 s' st' g' :
  jump axis true st g s lim1 lim2 = Ok (s', st', g') -> st' = st /\ g' = g.
Proof.
  unfold jump_noise_function; simpl. destruct (js_activated st) as [[]|]; simpl;
    try (intros H; inversion H; auto; fail).
  destruct (js_noise st); [|discriminate].
  destruct (jump_apply _ _ _ _ _ _ _ _ _ _ _); simpl; [|discriminate]. intros H; inversion H; auto.
Qed.

(** A frozen call after an unfrozen one does to any scan of the same shape exactly what the unfrozen
    call, started from the same generator state, would have done to it. *)
Lemma jump_frozen_replay axis st g s lim1 lim2 s' st' g' :
  jump axis false st g s lim1 lim2 = Ok (s', st', g') ->
  forall t gx, scan_shape t = scan_shape s ->
    match jump axis false st g t lim1 lim2 with
    | Ok (t', _, _) => jump axis true st' gx t lim1 lim2 = Ok (t', st', gx)
    | Err e => jump axis true st' gx t lim1 lim2 = Err e
    end.
Proof.
  unfold jump_noise_function; simpl. destruct (binomial g) as [[] g1]; simpl.
  - destruct (sample_scale g1) as [sv g2]. destruct (sample_lam g2) as [lv g3].
    destruct (jump_px_per_volt axis (scan_shape s) lim1 lim2) as [k|] eqn:K; simpl; [|discriminate].
    destruct (jump_size axis (scan_shape s)) as [size|] eqn:Z; simpl; [|discriminate].
    destruct (generate_dot_jumps_blockwise (poisson (lv * k)) false (geometric (1 / (if Rltb (sv * k) 1 then 1 else sv * k))) size g3) as [noise g4] eqn:N.
    destruct (jump_apply isnan nan junk have_gen gen1 gen2 axis noise s lim1 lim2); simpl; [|discriminate].
    intros H; inversion H; subst. intros t gx E. rewrite E, K; simpl. rewrite Z; simpl. rewrite N.
    destruct (jump_apply isnan nan junk have_gen gen1 gen2 axis noise t lim1 lim2); simpl; reflexivity.
  - intros H; inversion H; subst. intros t gx E. simpl. reflexivity.
Qed.
End JumpClassProofs.

(** ** Volt-to-pixel conversion *)
Lemma volt_range_abs l : volt_range l = Rabs (snd l - fst l).
Proof.
  unfold volt_range, Rmax, Rmin. destruct (Rle_dec (fst l) (snd l)).
  - rewrite Rabs_right; lra.
  - rewrite Rabs_left; lra.
Qed.
Lemma swept_range lim : fst lim <> snd lim -> Reqb (volt_range lim) 0 = false.
Proof.
  intros H. apply Reqb_false. rewrite volt_range_abs. apply Rabs_no_R0. intro. apply H. lra.
Qed.
Lemma fixed_range lim : fst lim = snd lim -> volt_range lim = 0.
Proof. intros H. rewrite volt_range_abs, H. replace (snd lim - snd lim) with 0 by lra. apply Rabs_R0. Qed.

Lemma jump_factor_square axis sh lim1 lim2 : (axis = 0 \/ axis = 1)%Z -> square sh ->
  (if (axis =? 1)%Z then fst lim1 <> snd lim1 else fst lim2 <> snd lim2) ->
  jump_px_per_volt axis sh lim1 lim2 = Ok (px_per_volt sh lim1 lim2 axis).
Proof.
  intros [->| ->] Hq Hs; simpl in Hs; unfold jump_px_per_volt, div_range, px_per_volt, range_along; simpl;
    rewrite swept_range by auto; rewrite volt_range_abs; destruct sh; simpl in *; subst; reflexivity.
Qed.
Lemma rtn_factor_square sh lim1 lim2 : square sh -> fst lim1 <> snd lim1 -> fst lim2 <> snd lim2 ->
  (exists r c, sh = Shape2 r c) ->
  rtn_px_per_volt sh lim1 lim2 = Ok (Rmax (px_per_volt sh lim1 lim2 1) (px_per_volt sh lim1 lim2 0)).
Proof.
  intros Hq H1 H2 (r & c & ->). simpl in Hq; subst. unfold rtn_px_per_volt, fixed_gate.
  rewrite !Reqb_false by auto. unfold div_range. rewrite !swept_range by auto. simpl.
  unfold px_per_volt, range_along; simpl. rewrite !volt_range_abs. reflexivity.
Qed.
Lemma blur_factor_square sh lim1 lim2 : square sh -> fst lim1 <> snd lim1 ->
  (exists r c, sh = Shape2 r c) ->
  blur_px_per_volt sh lim1 lim2 = Ok (px_per_volt sh lim1 lim2 1).
Proof.
  intros Hq H1 (r & c & ->). simpl in Hq; subst. unfold blur_px_per_volt, div_range.
  rewrite swept_range by auto. unfold px_per_volt, range_along; simpl. rewrite !volt_range_abs. reflexivity.
Qed.
Lemma rtn_factor_1d n lim1 lim2 axis : (axis = 0 \/ axis = 1)%Z ->
  (if (axis =? 1)%Z then fst lim1 <> snd lim1 /\ fst lim2 = snd lim2
   else fst lim2 <> snd lim2 /\ fst lim1 = snd lim1) ->
  rtn_px_per_volt (Shape1 n) lim1 lim2 = Ok (px_per_volt (Shape1 n) lim1 lim2 axis) /\
  blur_px_per_volt (Shape1 n) lim1 lim2 = Ok (px_per_volt (Shape1 n) lim1 lim2 axis).
Proof.
  intros HA H.
  assert (G : exists l l', (if (axis =? 1)%Z then l = lim1 /\ l' = lim2 else l = lim2 /\ l' = lim1)
              /\ fst l <> snd l /\ fst l' = snd l').
  { destruct HA as [->| ->]; simpl in *; destruct H; [exists lim2, lim1|exists lim1, lim2]; auto. }
  unfold rtn_px_per_volt, blur_px_per_volt, fixed_gate, div_range, px_per_volt, range_along. simpl pixels_along.
  destruct HA as [->| ->]; simpl in *; destruct H as [Hs Hf].
  - rewrite (fixed_range lim1 Hf). pose proof (volt_range_abs lim2) as V. pose proof (Rabs_pos (snd lim2 - fst lim2)).
    rewrite Rmax_right by lra. rewrite (swept_range lim2 Hs). rewrite (Reqb_true _ _ Hf). rewrite V. auto.
  - rewrite (fixed_range lim2 Hf). pose proof (volt_range_abs lim1) as V. pose proof (Rabs_pos (snd lim1 - fst lim1)).
    rewrite Rmax_left by lra. rewrite (swept_range lim1 Hs). rewrite (Reqb_false _ _ Hs), (Reqb_true _ _ Hf).
    rewrite V. auto.
Qed.

(** ** Sweep direction of dot jumps *)
Lemma sort_swapped l : sort_limits (swapped l) = sort_limits l.
Proof. unfold sort_limits, swapped; simpl. rewrite Rmin_comm, Rmax_comm. reflexivity. Qed.
Lemma descending_true l : snd l < fst l -> descending l = true.
Proof. apply Rltb_true. Qed.
Lemma descending_false l : fst l <= snd l -> descending l = false.
Proof. apply Rltb_false. Qed.

Section Direction.
Context {A : Type}.
Variable isnan : A -> bool.
Variable nan : A.
Variable junk : nat -> nat -> A.
Variable have_gen : bool.
Variable gen1 : limits -> limits -> nat -> arr1 (A * A) * arr1 A.
Variable gen2 : limits -> limits -> nat * nat -> arr2 (A * A) * arr2 A.
Notation apply := (jump_apply isnan nan junk have_gen gen1 gen2).

Lemma jump_reverse_g1 axis noise s lim1 lim2 : is_2d s -> fst lim1 < snd lim1 -> fst lim2 <= snd lim2 ->
  apply axis noise s (swapped lim1) lim2 = map_ok reverse_lines (apply axis noise (reverse_lines s) lim1 lim2).
Proof.
  intros D H1 H2. destruct s as [|o l]; [contradiction|]. unfold jump_apply; simpl reverse_lines.
  rewrite sort_swapped, (descending_true (swapped lim1)) by (unfold swapped; simpl; lra).
  rewrite (descending_false lim1) by lra. rewrite (descending_false lim2) by lra.
  destruct (jump2d_component _ _ _ _ _ _ _ _ _ (fun d => amap1 fst (fst d)) _ _ _); simpl; [|reflexivity].
  destruct (jump2d_component _ _ _ _ _ _ _ _ _ (fun d => amap1 snd (fst d)) _ _ _); simpl; [|reflexivity].
  destruct l as [l|]; simpl; [|reflexivity].
  destruct (jump2d_component _ _ _ _ _ _ _ _ _ snd _ _ _); simpl; reflexivity.
Qed.
Lemma jump_reverse_g2 axis noise s lim1 lim2 : is_2d s -> fst lim1 <= snd lim1 -> fst lim2 < snd lim2 ->
  apply axis noise s lim1 (swapped lim2) = map_ok reverse_rows (apply axis noise (reverse_rows s) lim1 lim2).
Proof.
  intros D H1 H2. destruct s as [|o l]; [contradiction|]. unfold jump_apply; simpl reverse_rows.
  rewrite sort_swapped, (descending_true (swapped lim2)) by (unfold swapped; simpl; lra).
  rewrite (descending_false lim1) by lra. rewrite (descending_false lim2) by lra.
  destruct (jump2d_component _ _ _ _ _ _ _ _ _ (fun d => amap1 fst (fst d)) _ _ _); simpl; [|reflexivity].
  destruct (jump2d_component _ _ _ _ _ _ _ _ _ (fun d => amap1 snd (fst d)) _ _ _); simpl; [|reflexivity].
  destruct l as [l|]; simpl; [|reflexivity].
  destruct (jump2d_component _ _ _ _ _ _ _ _ _ snd _ _ _); simpl; reflexivity.
Qed.
(** 1D: both ends of the sweep exchanged *)
Lemma jump_reverse_1d axis noise s lim1 lim2 : ~ is_2d s -> fst lim1 <= snd lim1 -> fst lim2 <= snd lim2 ->
  (fst lim1 < snd lim1 \/ fst lim2 < snd lim2) ->
  apply axis noise s (swapped lim1) (swapped lim2) = map_ok reverse_lines (apply axis noise (reverse_lines s) lim1 lim2).
Proof.
  intros D H1 H2 H3. destruct s as [o l|]; [|simpl in D; tauto]. unfold jump_apply; simpl reverse_lines.
  rewrite !sort_swapped.
  assert (E : (descending (swapped lim2) || descending (swapped lim1))%bool = true).
  { destruct H3; [rewrite (descending_true (swapped lim1))|rewrite (descending_true (swapped lim2))];
      unfold swapped; simpl; auto using orb_true_r; lra. }
  rewrite E. rewrite (descending_false lim1), (descending_false lim2) by lra. simpl orb. cbv iota.
  destruct (jump1d_component _ _ _ _ _ _ _ _ _ (fun d => amap1 fst (fst d)) _ _); simpl; [|reflexivity].
  destruct (jump1d_component _ _ _ _ _ _ _ _ _ (fun d => amap1 snd (fst d)) _ _); simpl; [|reflexivity].
  destruct l as [l|]; simpl; [|reflexivity].
  destruct (jump1d_component _ _ _ _ _ _ _ _ _ snd _ _); simpl; reflexivity.
Qed.
End Direction.

(** ** Dot jumps of whole scans *)
Section WholeScan.
Context {A : Type}.
Variable isnan : A -> bool.
Variable nan : A.
Hypothesis nan_is_nan : isnan nan = true.
Variable junk : nat -> nat -> A.
Variable gen1 : limits -> limits -> nat -> arr1 (A * A) * arr1 A.
Variable gen2 : limits -> limits -> nat * nat -> arr2 (A * A) * arr2 A.

Lemma sort_id l : fst l <= snd l -> sort_limits l = l.
Proof.
  intros H. unfold sort_limits. rewrite Rmin_left, Rmax_right by lra. destruct l; reflexivity.
Qed.

Lemma jump_apply_1d axis noise occ lead lim1 lim2 :
  (axis = 0 \/ axis = 1)%Z -> fst lim1 <= snd lim1 -> fst lim2 <= snd lim2 ->
  length noise = len1 occ -> len1 lead = len1 occ ->
  let n := len1 occ in
  let step := (snd lim1 - fst lim1) / INR n in
  let shifted s := if (axis =? 1)%Z then gen1 (shifted_limits lim1 s step) lim2 n
                   else gen1 lim1 (shifted_limits lim2 s step) n in
  (forall s, (1 <= s)%nat -> clean1 isnan (fst (shifted s)) n /\
     forall i, (i < n)%nat -> isnan (cell1 (snd (shifted s)) i) = false) ->
  exists occ' lead', jump_apply isnan nan junk true gen1 gen2 axis noise (Scan1 occ (Some lead)) lim1 lim2
                     = Ok (Scan1 occ' (Some lead')) /\
    len1 occ' = n /\ len1 lead' = n /\
    forall i, (i < n)%nat ->
      cell1 occ' i = (if (nth i noise 0 =? 0)%nat then cell1 occ i else cell1 (fst (shifted (nth i noise 0%nat))) i) /\
      cell1 lead' i = (if (nth i noise 0 =? 0)%nat then cell1 lead i else cell1 (snd (shifted (nth i noise 0%nat))) i).
Proof.
  intros Hax H1 H2 Hl Hll n step shifted Hc. unfold jump_apply.
  rewrite !sort_id by auto. rewrite !descending_false by auto. simpl orb. cbv iota.
  assert (ES : forall r c : nat, rows (mk_arr2 r c junk) = r /\ cols (mk_arr2 r c junk) = c) by (split; reflexivity).
  destruct (jump1d_gen isnan nan nan_is_nan gen1 (fun d => amap1 fst (fst d)) (fun r c => mk_arr2 r c junk) ES
              axis lim1 lim2 noise (amap1 fst occ) Hax Hl) as (o1 & E1 & L1 & F1).
  { intros i s Hi Hs. simpl. apply (Hc s Hs); auto. }
  destruct (jump1d_gen isnan nan nan_is_nan gen1 (fun d => amap1 snd (fst d)) (fun r c => mk_arr2 r c junk) ES
              axis lim1 lim2 noise (amap1 snd occ) Hax Hl) as (o2 & E2 & L2 & F2).
  { intros i s Hi Hs. simpl. apply (Hc s Hs); auto. }
  destruct (jump1d_gen isnan nan nan_is_nan gen1 snd (fun r c => mk_arr2 r c junk) ES
              axis lim1 lim2 noise lead Hax) as (o3 & E3 & L3 & F3).
  { congruence. }
  { intros i s Hi Hs. simpl. rewrite Hll in *. apply (Hc s Hs); auto. }
  rewrite E1; cbn [bind]. rewrite E2; cbn [bind]. unfold option_mapM. rewrite E3; cbn [bind option_map].
  eexists _, _. split; [reflexivity|]. split; [exact L1|]. split; [rewrite L3; exact Hll|].
  intros i Hi. simpl in *. fold n in F1, F2. split.
  - rewrite F1, F2 by auto. destruct (nth i noise 0 =? 0)%nat.
    + destruct (cell1 occ i); reflexivity.
    + fold step. fold (shifted (nth i noise 0%nat)).
      destruct (cell1 (fst (shifted (nth i noise 0%nat))) i); reflexivity.
  - rewrite F3 by (rewrite Hll; exact Hi). rewrite Hll. fold n. fold step. reflexivity.
Qed.

Lemma jump_apply_2d_1 noise occ lead lim1 lim2 :
  fst lim1 <= snd lim1 -> fst lim2 <= snd lim2 ->
  length noise = cols occ -> same_shape lead occ ->
  let m := list_max noise in
  let step := (snd lim1 - fst lim1) / INR (cols occ) in
  let strip := gen2 (fst lim1 - INR m * step, fst lim1 - step) lim2 (m, rows occ) in
  (1 < m)%nat ->
  same_shape (fst strip) (mk_arr2 (rows occ) m (cell occ)) -> same_shape (snd strip) (fst strip) ->
  clean2 isnan occ (rows occ) (cols occ) -> clean2 isnan (fst strip) (rows occ) m ->
  (forall r c, (r < rows occ)%nat -> (c < cols occ)%nat -> isnan (cell lead r c) = false) ->
  (forall r c, (r < rows occ)%nat -> (c < m)%nat -> isnan (cell (snd strip) r c) = false) ->
  exists occ' lead', jump_apply isnan nan junk true gen1 gen2 1 noise (Scan2 occ (Some lead)) lim1 lim2
                     = Ok (Scan2 occ' (Some lead')) /\
    same_shape occ' occ /\ same_shape lead' occ /\
    forall r c, (r < rows occ)%nat -> (c < cols occ)%nat ->
      let s := nth c noise 0%nat in
      cell occ' r c = (if (s <=? c)%nat then cell occ r (c - s) else cell (fst strip) r (m - (s - c))) /\
      cell lead' r c = (if (s <=? c)%nat then cell lead r (c - s) else cell (snd strip) r (m - (s - c))).
Proof.
  intros H1 H2 Hl Hll m step strip Hm Hs1 Hs2 C1 C2 C3 C4. unfold jump_apply.
  rewrite !sort_id by auto. rewrite !descending_false by auto. cbv iota beta.
  assert (ES : forall r c : nat, rows (mk_arr2 r c junk) = r /\ cols (mk_arr2 r c junk) = c) by (split; reflexivity).
  assert (Lm : (1 <? m)%nat = true) by (apply Nat.ltb_lt; auto).
  assert (ST1 : strip_axis_1 gen1 gen2 (fun d => amap1 fst (fst d)) (fun d => amap2 fst (fst d)) lim1 lim2 m (amap2 fst occ)
                = amap2 fst (fst strip)) by (unfold strip_axis_1; simpl; rewrite Lm; reflexivity).
  assert (ST2 : strip_axis_1 gen1 gen2 (fun d => amap1 snd (fst d)) (fun d => amap2 snd (fst d)) lim1 lim2 m (amap2 snd occ)
                = amap2 snd (fst strip)) by (unfold strip_axis_1; simpl; rewrite Lm; reflexivity).
  destruct Hll as [Hll1 Hll2].
  assert (ST3 : strip_axis_1 gen1 gen2 snd snd lim1 lim2 m lead = snd strip)
    by (unfold strip_axis_1; simpl; rewrite Lm, Hll1, Hll2; reflexivity).
  destruct (jump2d_gen_1 isnan gen1 gen2 (fun d => amap1 fst (fst d)) (fun d => amap2 fst (fst d)) (fun r c => mk_arr2 r c junk) ES
              lim1 lim2 noise (amap2 fst occ) Hl) as (o1 & E1 & L1 & F1).
  { intros _. fold m. rewrite ST1. exact Hs1. }
  { intros r c Hr Hc. apply C1; auto. }
  { intros r c Hr Hc. fold m in Hc |- *. rewrite ST1. apply C2; auto. }
  destruct (jump2d_gen_1 isnan gen1 gen2 (fun d => amap1 snd (fst d)) (fun d => amap2 snd (fst d)) (fun r c => mk_arr2 r c junk) ES
              lim1 lim2 noise (amap2 snd occ) Hl) as (o2 & E2 & L2 & F2).
  { intros _. fold m. rewrite ST2. exact Hs1. }
  { intros r c Hr Hc. apply C1; auto. }
  { intros r c Hr Hc. fold m in Hc |- *. rewrite ST2. apply C2; auto. }
  destruct (jump2d_gen_1 isnan gen1 gen2 snd snd (fun r c => mk_arr2 r c junk) ES
              lim1 lim2 noise lead) as (o3 & E3 & L3 & F3).
  { congruence. }
  { intros _. fold m. rewrite ST3. destruct Hs1 as [S1 S2], Hs2 as [S3 S4]. split; simpl in *; congruence. }
  { intros r c Hr Hc. apply C3; congruence. }
  { intros r c Hr Hc. fold m in Hc |- *. rewrite ST3. apply C4; congruence. }
  rewrite E1; cbn [bind]. rewrite E2; cbn [bind]. unfold option_mapM. rewrite E3; cbn [bind option_map].
  eexists _, _. split; [reflexivity|]. split; [exact L1|].
  split; [destruct L3; split; congruence|]. fold m in F1, F2, F3. rewrite ST1 in F1. rewrite ST2 in F2. rewrite ST3 in F3.
  intros r c Hr Hc. simpl. set (s := nth _ noise 0%nat). split.
  - specialize (F1 r c Hr Hc). specialize (F2 r c Hr Hc). simpl in F1, F2. fold s in F1, F2. rewrite F1, F2.
    destruct (s <=? c)%nat; [destruct (cell occ r (c - s))|destruct (cell (fst strip) r (m - (s - c)))]; reflexivity.
  - rewrite F3 by congruence. reflexivity.
Qed.

Lemma jump_apply_2d_0 noise occ lead lim1 lim2 :
  fst lim1 <= snd lim1 -> fst lim2 <= snd lim2 ->
  length noise = rows occ -> same_shape lead occ ->
  let m := list_max noise in
  let step := (snd lim2 - fst lim2) / INR (rows occ) in
  let strip := gen2 lim1 (fst lim2 - INR m * step, fst lim2 - step) (cols occ, m) in
  (1 < m)%nat ->
  same_shape (fst strip) (mk_arr2 m (cols occ) (cell occ)) -> same_shape (snd strip) (fst strip) ->
  clean2 isnan occ (rows occ) (cols occ) -> clean2 isnan (fst strip) m (cols occ) ->
  (forall r c, (r < rows occ)%nat -> (c < cols occ)%nat -> isnan (cell lead r c) = false) ->
  (forall r c, (r < m)%nat -> (c < cols occ)%nat -> isnan (cell (snd strip) r c) = false) ->
  exists occ' lead', jump_apply isnan nan junk true gen1 gen2 0 noise (Scan2 occ (Some lead)) lim1 lim2
                     = Ok (Scan2 occ' (Some lead')) /\
    same_shape occ' occ /\ same_shape lead' occ /\
    forall r c, (r < rows occ)%nat -> (c < cols occ)%nat ->
      let s := nth r noise 0%nat in
      cell occ' r c = (if (s <=? r)%nat then cell occ (r - s) c else cell (fst strip) (m - (s - r)) c) /\
      cell lead' r c = (if (s <=? r)%nat then cell lead (r - s) c else cell (snd strip) (m - (s - r)) c).
Proof.
  intros H1 H2 Hl Hll m step strip Hm Hs1 Hs2 C1 C2 C3 C4. unfold jump_apply.
  rewrite !sort_id by auto. rewrite !descending_false by auto. cbv iota beta.
  assert (ES : forall r c : nat, rows (mk_arr2 r c junk) = r /\ cols (mk_arr2 r c junk) = c) by (split; reflexivity).
  assert (Lm : (1 <? m)%nat = true) by (apply Nat.ltb_lt; auto).
  assert (ST1 : strip_axis_0 gen1 gen2 (fun d => amap1 fst (fst d)) (fun d => amap2 fst (fst d)) lim1 lim2 m (amap2 fst occ)
                = amap2 fst (fst strip)) by (unfold strip_axis_0; simpl; rewrite Lm; reflexivity).
  assert (ST2 : strip_axis_0 gen1 gen2 (fun d => amap1 snd (fst d)) (fun d => amap2 snd (fst d)) lim1 lim2 m (amap2 snd occ)
                = amap2 snd (fst strip)) by (unfold strip_axis_0; simpl; rewrite Lm; reflexivity).
  destruct Hll as [Hll1 Hll2].
  assert (ST3 : strip_axis_0 gen1 gen2 snd snd lim1 lim2 m lead = snd strip)
    by (unfold strip_axis_0; simpl; rewrite Lm, Hll1, Hll2; reflexivity).
  destruct (jump2d_gen_0 isnan gen1 gen2 (fun d => amap1 fst (fst d)) (fun d => amap2 fst (fst d)) (fun r c => mk_arr2 r c junk) ES
              lim1 lim2 noise (amap2 fst occ) Hl) as (o1 & E1 & L1 & F1).
  { intros _. fold m. rewrite ST1. exact Hs1. }
  { intros r c Hr Hc. apply C1; auto. }
  { intros r c Hr Hc. fold m in Hc |- *. rewrite ST1. apply C2; auto. }
  destruct (jump2d_gen_0 isnan gen1 gen2 (fun d => amap1 snd (fst d)) (fun d => amap2 snd (fst d)) (fun r c => mk_arr2 r c junk) ES
              lim1 lim2 noise (amap2 snd occ) Hl) as (o2 & E2 & L2 & F2).
  { intros _. fold m. rewrite ST2. exact Hs1. }
  { intros r c Hr Hc. apply C1; auto. }
  { intros r c Hr Hc. fold m in Hc |- *. rewrite ST2. apply C2; auto. }
  destruct (jump2d_gen_0 isnan gen1 gen2 snd snd (fun r c => mk_arr2 r c junk) ES
              lim1 lim2 noise lead) as (o3 & E3 & L3 & F3).
  { congruence. }
  { intros _. fold m. rewrite ST3. destruct Hs1 as [S1 S2], Hs2 as [S3 S4]. split; simpl in *; congruence. }
  { intros r c Hr Hc. apply C3; congruence. }
  { intros r c Hr Hc. fold m in Hr |- *. rewrite ST3. apply C4; [exact Hr|congruence]. }
  rewrite E1; cbn [bind]. rewrite E2; cbn [bind]. unfold option_mapM. rewrite E3; cbn [bind option_map].
  eexists _, _. split; [reflexivity|]. split; [exact L1|].
  split; [destruct L3; split; congruence|]. fold m in F1, F2, F3. rewrite ST1 in F1. rewrite ST2 in F2. rewrite ST3 in F3.
  intros r c Hr Hc. simpl. set (s := nth _ noise 0%nat). split.
  - specialize (F1 r c Hr Hc). specialize (F2 r c Hr Hc). simpl in F1, F2. fold s in F1, F2. rewrite F1, F2.
    destruct (s <=? r)%nat; [destruct (cell occ (r - s) c)|destruct (cell (fst strip) (m - (s - r)) c)]; reflexivity.
  - rewrite F3 by congruence. reflexivity.
Qed.
End WholeScan.

(** ** Where the generated strip lies *)
Lemma strip_position a m step d : (1 <= d <= m)%nat -> (1 < m)%nat ->
  grid_point (a - INR m * step, a - step) m (m - d) = a - INR d * step.
Proof.
  intros Hd Hm. unfold grid_point; simpl. rewrite !minus_INR by lia.
  assert (1 < INR m) by (apply (lt_INR 1); auto). simpl (INR 1). field. lra.
Qed.

(** ** Refutations: concrete runs *)
Ltac decide_reals :=
  repeat first
    [ rewrite Rltb_true by lra | rewrite Rltb_false by lra
    | rewrite Reqb_true by lra | rewrite Reqb_false by (intro; lra) ].

Definition col2 (a b : nat) : arr2 (nat * nat) := of_list2 (0, 0)%nat [[(a, a)]; [(b, b)]].

Lemma both_descending :
  let s := Scan2 (col2 1 2) None in
  let apply := jump_apply (fun _ => false) 0%nat (fun _ _ => 0%nat) false
                 (fun _ _ _ => (mk_arr1 0 (fun _ => (0, 0)%nat), mk_arr1 0 (fun _ => 0%nat)))
                 (fun _ _ _ => (mk_arr2 0 0 (fun _ _ => (0, 0)%nat), mk_arr2 0 0 (fun _ _ => 0%nat))) in
  exists t u, apply 0%Z [0; 1]%nat s (1, 0) (1, 0) = Ok t /\
    apply 0%Z [0; 1]%nat (reverse_rows (reverse_lines s)) (0, 1) (0, 1) = Ok u /\
    ~ eq_scan t (reverse_rows (reverse_lines u)).
Proof.
  cbv zeta. unfold jump_apply, descending; cbn [fst snd].
  decide_reals. eexists _, _.
  split; [vm_compute; reflexivity|]. split; [vm_compute; reflexivity|].
  intros [(_ & _ & H) _]. specialize (H 0%nat 0%nat). vm_compute in H.
  specialize (H ltac:(repeat constructor) ltac:(repeat constructor)). discriminate.
Qed.

Lemma jump_factor_nonsquare :
  exists r c lim1 lim2, fst lim1 < snd lim1 /\ fst lim2 < snd lim2 /\
    jump_px_per_volt 1 (Shape2 r c) lim1 lim2 <> Ok (px_per_volt (Shape2 r c) lim1 lim2 1) /\
    jump_px_per_volt 0 (Shape2 r c) lim1 lim2 <> Ok (px_per_volt (Shape2 r c) lim1 lim2 0) /\
    rtn_px_per_volt (Shape2 r c) lim1 lim2 <>
      Ok (Rmax (px_per_volt (Shape2 r c) lim1 lim2 1) (px_per_volt (Shape2 r c) lim1 lim2 0)) /\
    blur_px_per_volt (Shape2 r c) lim1 lim2 <> Ok (px_per_volt (Shape2 r c) lim1 lim2 1).
Proof.
  exists 2%nat, 4%nat, (0, 1), (0, 2). simpl. repeat split; try lra;
    unfold jump_px_per_volt, rtn_px_per_volt, blur_px_per_volt, div_range, fixed_gate, volt_range, px_per_volt, range_along, pixels_along; simpl;
    rewrite ?(Rmax_right 0), ?(Rmin_left 0) by lra; decide_reals; simpl bind; intros H; inversion H as [H1]; revert H1;
    rewrite ?(Rabs_right (1 - 0)), ?(Rabs_right (2 - 0)) by lra.
  - lra.
  - lra.
  - rewrite Rmax_right, Rmax_left by lra. lra.
  - lra.
Qed.

(** a vertical 1D scan: the jump has no effect on the requested voltages *)
Lemma vertical_jump_void (gen1 : limits -> limits -> nat -> arr1 (R * R) * arr1 R) lim1 lim2 s n :
  fst lim1 = snd lim1 ->
  gen1 lim1 (shifted_limits lim2 s ((snd lim1 - fst lim1) / INR n)) n = gen1 lim1 lim2 n.
Proof.
  intros H. f_equal. unfold shifted_limits. rewrite H. destruct lim2 as [a b]; simpl.
  f_equal; unfold Rdiv; ring.
Qed.

Lemma uint8_wraps : exists (poisson : nat -> nat * nat) (widths : nat -> nat -> list nat * nat),
  fst (generate_dot_jumps_blockwise poisson false widths 2%nat 0%nat) = [0; 0]%nat /\
  forall g, fst (poisson g) = 256%nat.
Proof.
  exists (fun g => (256, g)%nat), (fun size g => (repeat 1 size, g)%nat). split; [|reflexivity].
  vm_compute. reflexivity.
Qed.

Definition nan_opt (x : option R) : bool := match x with None => true | _ => false end.
Definition real_gen1 (f : R -> R -> R) (l1 l2 : limits) (n : nat) : arr1 (option R * option R) * arr1 (option R) :=
  let a := sample1 f l1 l2 n in (amap1 (fun x => (Some x, Some x)) a, amap1 Some a).
Definition real_gen2 (f : R -> R -> R) (l1 l2 : limits) (res : nat * nat) : arr2 (option R * option R) * arr2 (option R) :=
  let a := sample2 f l1 l2 res in (amap2 (fun x => (Some x, Some x)) a, amap2 Some a).

Lemma vertical_refutation :
  exists (f : R -> R -> R) (lim1 lim2 : limits) (n i : nat) (noise : list nat) occ' lead',
    fst lim1 = snd lim1 /\ fst lim2 < snd lim2 /\ (i < n)%nat /\ length noise = n /\
    jump_apply nan_opt None (fun _ _ => None) true (real_gen1 f) (real_gen2 f) 0 noise
      (Scan1 (fst (real_gen1 f lim1 lim2 n)) (Some (snd (real_gen1 f lim1 lim2 n)))) lim1 lim2
      = Ok (Scan1 occ' (Some lead')) /\
    let pitch := (snd lim2 - fst lim2) / INR (n - 1) in
    let shown := f (fst lim1) (grid_point lim2 n i - INR (nth i noise 0%nat) * pitch) in
    cell1 lead' i <> Some shown.
Proof.
  exists (fun _ y => y), (0, 0), (0, 1), 2%nat, 1%nat, [0; 1]%nat.
  destruct (jump_apply_1d nan_opt None eq_refl (fun _ _ => None) (real_gen1 (fun _ y => y)) (real_gen2 (fun _ y => y))
              0 [0; 1]%nat (fst (real_gen1 (fun _ y => y) (0, 0) (0, 1) 2)) (snd (real_gen1 (fun _ y => y) (0, 0) (0, 1) 2))
              (0, 0) (0, 1)) as (occ' & lead' & E & L1 & L2 & F); simpl; try lra; auto.
  { intros s Hs. split; [split; reflexivity|reflexivity]. }
  exists occ', lead'. repeat split; try lra; auto.
  destruct (F 1%nat) as [_ F2]; [simpl; lia|]. simpl in F2. rewrite F2. unfold grid_point. simpl.
  intros H. inversion H as [H1]. lra.
Qed.

Lemma grid_refutation :
  exists (f : R -> R -> R) (lim1 lim2 : limits) (r c i : nat) (noise : list nat) occ' lead',
    fst lim1 < snd lim1 /\ fst lim2 < snd lim2 /\ (i < c)%nat /\ (0 < r)%nat /\ length noise = c /\
    jump_apply nan_opt None (fun _ _ => None) true (real_gen1 f) (real_gen2 f) 1 noise
      (Scan2 (fst (real_gen2 f lim1 lim2 (c, r))) (Some (snd (real_gen2 f lim1 lim2 (c, r))))) lim1 lim2
      = Ok (Scan2 occ' (Some lead')) /\
    let pitch := (snd lim1 - fst lim1) / INR (c - 1) in
    let shown := f (grid_point lim1 c i - INR (nth i noise 0%nat) * pitch) (grid_point lim2 r 0) in
    cell lead' 0 i <> Some shown.
Proof.
  exists (fun x _ => x), (0, 1), (0, 1), 2%nat, 2%nat, 1%nat, [0; 2]%nat.
  destruct (jump_apply_2d_1 nan_opt None (fun _ _ => None) (real_gen1 (fun x _ => x)) (real_gen2 (fun x _ => x))
              [0; 2]%nat (fst (real_gen2 (fun x _ => x) (0, 1) (0, 1) (2, 2)%nat)) (snd (real_gen2 (fun x _ => x) (0, 1) (0, 1) (2, 2)%nat))
              (0, 1) (0, 1)) as (occ' & lead' & E & L1 & L2 & F); simpl; try lra; auto;
    try (split; reflexivity); try (intros ? ? ? ?; try split; reflexivity).
  exists occ', lead'. repeat split; try lra; auto.
  destruct (F 0%nat 1%nat) as [_ F2]; [simpl; lia..|]. simpl in F2. rewrite F2. unfold grid_point. simpl.
  intros H. inversion H as [H1]. lra.
Qed.

(** ** Packaged statements *)
Lemma rtn_low_resolution :
  exists (im : image) (lim1 lim2 : limits),
    fst lim1 < snd lim1 /\ fst lim2 < snd lim2 /\
    forall (geometric : R -> nat -> unit -> list nat * unit) normal,
    (forall p size g, length (fst (geometric p size g)) = size /\
       forall w, In w (fst (geometric p size g)) -> (0 < w)%nat) ->
    rtn_noise_function geometric normal (fun g => (true, g)) (fun g => (1 / 100, g)) (fun g => (1, g)) (fun g => (1, g))
      im lim1 lim2 tt = Err ValueError.
Proof.
  exists (Img2 (mk_arr2 10 10 (fun _ _ => 0))), (0, 1), (0, 1). simpl. repeat split; try lra.
  intros geometric normal H.
  assert (K : rtn_px_per_volt (Shape2 10 10) (0, 1) (0, 1) = Ok 10).
  { unfold rtn_px_per_volt, fixed_gate, div_range, volt_range. cbn [fst snd].
    rewrite !(Rmax_right 0), !(Rmin_left 0) by lra. decide_reals. cbn [bind]. f_equal.
    rewrite Rmax_left by lra. simpl. lra. }
  destruct (rtn_active geometric normal (fun g => (true, g)) (fun g => (1 / 100, g)) (fun g => (1, g)) (fun g => (1, g))
              (Img2 (mk_arr2 10 10 (fun _ _ => 0))) (0, 1) (0, 1) tt 10 eq_refl K H) as [_ F].
  apply F; simpl; [lra|]. intro; lra.
Qed.

Lemma both_good kernel : kernel = fermi_kernel \/ kernel = gaussian_kernel -> good_kernel kernel.
Proof. intros [->| ->]; [apply fermi_good|apply gaussian_good]. Qed.
Lemma blur_bounds_both {G} (sample_sigma : G -> R * G) kernel radius freeze st g s lim1 lim2 s' st' g' :
  (kernel = fermi_kernel \/ kernel = gaussian_kernel) ->
  blur_noise_function sample_sigma kernel radius freeze st g s lim1 lim2 = Ok (s', st', g') ->
  nonempty_scan s ->
  line_length s' = line_length s /\ line_count s' = line_count s /\ scan_lead s' = scan_lead s /\
  (forall r lo hi, (r < line_count s)%nat ->
     (forall k, (k < line_length s)%nat -> lo <= fst (scan_line s r k) <= hi) ->
     forall i, (i < line_length s)%nat -> lo <= fst (scan_line s' r i) <= hi) /\
  (forall r lo hi, (r < line_count s)%nat ->
     (forall k, (k < line_length s)%nat -> lo <= snd (scan_line s r k) <= hi) ->
     forall i, (i < line_length s)%nat -> lo <= snd (scan_line s' r i) <= hi) /\
  (forall r lo hi, (r < line_count s)%nat ->
     (forall k, (k < line_length s)%nat -> lo <= fst (scan_line s r k) + snd (scan_line s r k) <= hi) ->
     forall i, (i < line_length s)%nat -> lo <= fst (scan_line s' r i) + snd (scan_line s' r i) <= hi).
Proof. intros HK. apply blur_bounds. apply both_good; auto. Qed.
Lemma blur_reverse_both {G} (sample_sigma : G -> R * G) kernel radius freeze st g s lim1 lim2 s' st' g' :
  (kernel = fermi_kernel \/ kernel = gaussian_kernel) -> nonempty_scan s ->
  blur_noise_function sample_sigma kernel radius freeze st g s lim1 lim2 = Ok (s', st', g') ->
  exists t, blur_noise_function sample_sigma kernel radius freeze st g (reverse_lines s) (snd lim1, fst lim1) lim2
            = Ok (t, st', g') /\ eq_scan t (reverse_lines s').
Proof. intros HK. apply blur_reverse. apply both_good; auto. Qed.

Lemma conversion_square sh lim1 lim2 :
  square sh ->
  (forall axis, (axis = 0 \/ axis = 1)%Z ->
     (if (axis =? 1)%Z then fst lim1 <> snd lim1 else fst lim2 <> snd lim2) ->
     jump_px_per_volt axis sh lim1 lim2 = Ok (px_per_volt sh lim1 lim2 axis)) /\
  (fst lim1 <> snd lim1 -> fst lim2 <> snd lim2 -> (exists r c, sh = Shape2 r c) ->
     rtn_px_per_volt sh lim1 lim2 = Ok (Rmax (px_per_volt sh lim1 lim2 1) (px_per_volt sh lim1 lim2 0)) /\
     blur_px_per_volt sh lim1 lim2 = Ok (px_per_volt sh lim1 lim2 1)) /\
  (forall axis n, sh = Shape1 n -> (axis = 0 \/ axis = 1)%Z ->
     (if (axis =? 1)%Z then fst lim1 <> snd lim1 /\ fst lim2 = snd lim2
      else fst lim2 <> snd lim2 /\ fst lim1 = snd lim1) ->
     rtn_px_per_volt sh lim1 lim2 = Ok (px_per_volt sh lim1 lim2 axis) /\
     blur_px_per_volt sh lim1 lim2 = Ok (px_per_volt sh lim1 lim2 axis)).
Proof.
  intros Hq. split; [intros; apply jump_factor_square; auto|]. split.
  - intros; split; [apply rtn_factor_square|apply blur_factor_square]; auto.
  - intros axis n -> Ha H. apply rtn_factor_1d; auto.
Qed.

Lemma jump_direction {A} (isnan : A -> bool) nan junk have_gen gen1 gen2 axis noise s lim1 lim2 :
  let apply := jump_apply isnan nan junk have_gen gen1 gen2 in
  fst lim1 < snd lim1 -> fst lim2 < snd lim2 ->
  (is_2d s ->
   apply axis noise s (swapped lim1) lim2 = map_ok reverse_lines (apply axis noise (reverse_lines s) lim1 lim2) /\
   apply axis noise s lim1 (swapped lim2) = map_ok reverse_rows (apply axis noise (reverse_rows s) lim1 lim2)) /\
  (~ is_2d s ->
   apply axis noise s (swapped lim1) (swapped lim2) =
   map_ok reverse_lines (apply axis noise (reverse_lines s) lim1 lim2)).
Proof.
  intros apply H1 H2. unfold apply. split; intros D; [split|].
  - apply jump_reverse_g1; auto; lra.
  - apply jump_reverse_g2; auto; lra.
  - apply jump_reverse_1d; auto; lra.
Qed.

Lemma blur_example :
  let s := Scan1 (of_list1 (0, 0) [(0, 1); (1, 0); (1, 0)]) None in
  exists s' st' g', blur_noise_function (fun g : nat => (1, S g)) fermi_kernel (fun _ => 2%nat) false None 0%nat s (0, 1) (0, 0)
    = Ok (s', st', g') /\ ((0 < line_length s)%nat /\ (0 < line_count s)%nat) /\
    (forall i, (i < 3)%nat -> fst (scan_line s' 0 i) + snd (scan_line s' 0 i) = 1) /\
    fst (scan_line s' 0 0) <> fst (scan_line s 0 0).
Proof.
  intros s.
  assert (B : blur_px_per_volt (scan_shape s) (0, 1) (0, 0) = Ok 3).
  { unfold s, blur_px_per_volt, fixed_gate, div_range, volt_range. simpl.
    rewrite !(Rmax_right 0), !(Rmin_left 0) by lra. decide_reals. f_equal. lra. }
  assert (E : blur_noise_function (fun g : nat => (1, S g)) fermi_kernel (fun _ => 2%nat) false None 0%nat s (0, 1) (0, 0)
              = Ok (blur_scan fermi_kernel (fun _ => 2%nat) (1 * 3) s, Some 1, 1%nat)).
  { unfold blur_noise_function. cbn [bind]. rewrite Rltb_true by lra. rewrite B. reflexivity. }
  assert (NE : nonempty_scan s) by (unfold s; split; simpl; lia).
  eexists _, _, _. split; [exact E|]. split; [exact NE|]. split.
  - intros i Hi. destruct (blur_bounds _ _ _ fermi_good _ _ _ _ _ _ _ _ _ E NE) as (_ & _ & _ & _ & _ & T).
    assert (1 <= fst (scan_line (blur_scan fermi_kernel (fun _ => 2%nat) (1 * 3) s) 0 i) +
                 snd (scan_line (blur_scan fermi_kernel (fun _ => 2%nat) (1 * 3) s) 0 i) <= 1); [|lra].
    apply T; [unfold s; simpl; lia| |unfold s; simpl; lia].
    unfold s; simpl. intros [|[|[|k]]] Hk; simpl; lra || lia.
  - unfold s; simpl. unfold filter_line, convolve_line. simpl.
    set (w := normalised (fermi_kernel (1 * 3)) 2).
    assert (P : forall d, 0 < w d) by (intros; apply (weights_pos fermi_kernel (fun _ => 2%nat) (1*3)); intros; apply fermi_kernel_pos; lra).
    pose proof (P (-2)%Z). pose proof (P (-1)%Z). pose proof (P 0%Z). pose proof (P 1%Z). pose proof (P 2%Z).
    match goal with |- ?x <> _ => assert (0 < x) end; [|lra].
    lra.
Qed.

Lemma jump_replay_example :
  let jump := jump_noise_function (fun _ => false) 0%nat (fun _ _ => 0%nat) false
     (fun _ _ _ => (mk_arr1 0 (fun _ => (0, 0)%nat), mk_arr1 0 (fun _ => 0%nat)))
     (fun _ _ _ => (mk_arr2 0 0 (fun _ _ => (0, 0)%nat), mk_arr2 0 0 (fun _ _ => 0%nat)))
     (fun g : nat => (true, S g)) (fun g => (1, S g)) (fun g => (1, S g))
     (fun _ n g => (repeat 1%nat n, S g)) (fun _ g => (1%nat, S g)) in
  let s := Scan2 (of_list2 (0, 0)%nat [[(1, 1); (2, 2)]; [(3, 3); (4, 4)]]%nat) None in
  let t := Scan2 (of_list2 (0, 0)%nat [[(5, 5); (6, 6)]; [(7, 7); (8, 8)]]%nat) None in
  exists s' st' g', jump 1%Z false jump_init 0%nat s (0, 1) (0, 1) = Ok (s', st', g') /\
    js_noise st' = Some [0; 1]%nat /\
    exists t', jump 1%Z true st' 77%nat t (0, 1) (0, 1) = Ok (t', st', 77%nat) /\
      match t' with Scan2 o None => to_list2 o = [[(5, 5); (5, 5)]; [(7, 7); (7, 7)]]%nat | _ => False end.
Proof.
  cbv zeta.
  assert (K : jump_px_per_volt 1 (Shape2 2 2) (0, 1) (0, 1) = Ok 2).
  { unfold jump_px_per_volt, div_range, volt_range. simpl.
    rewrite !(Rmax_right 0), !(Rmin_left 0) by lra. decide_reals. f_equal. lra. }
  unfold jump_noise_function. cbn [js_activated jump_init andb negb scan_shape of_list2 rows cols length hd].
  rewrite K. cbn [bind jump_size Z.eqb Pos.eqb].
  unfold jump_apply, descending; cbn [fst snd]. decide_reals. generalize (sort_limits (0, 1)); intros sl.
  eexists _, _, _. split; [cbv -[Rltb Rmult]; reflexivity|]. split; [reflexivity|].
  eexists. split; [cbv; reflexivity|]. reflexivity.
Qed.
