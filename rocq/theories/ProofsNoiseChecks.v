(** Parameters of distortions for which numpy raises. *)
From Verif Require Import RPrelude Arr ModelJumps ModelDistortions ModelNoiseChecks.
Local Open Scope R_scope.

Section Loop.
Context {V G : Type}.
Variable zero : V.
Variable height : G -> result (V * G).
Variable draw : G -> V * G.

Lemma checked_loop_ok : (forall g, height g = Ok (draw g)) -> forall width size bi noise g,
  checked_loop zero height width size bi noise g = Ok (block_loop zero draw width size bi noise g).
Proof.
  intros H width size. induction width as [|w ws IH]; intros bi noise g; [reflexivity|]. cbn [checked_loop block_loop].
  destruct (0 <? w)%nat.
  - rewrite H. cbn [bind]. destruct (draw g) as [h g1]. cbn [fst snd]. destruct (size <=? _)%nat; [reflexivity|apply IH].
  - cbn [bind]. destruct (size <=? _)%nat; [reflexivity|apply IH].
Qed.
Lemma checked_noise_ok width size g : (forall g, height g = Ok (draw g)) ->
  checked_noise zero height width size g = Ok (block_noise zero draw width size g).
Proof.
  intros H. unfold checked_noise, block_noise. rewrite (checked_loop_ok H). cbn [bind]. destruct (block_loop _ _ _ _ _ _ _). reflexivity.
Qed.
Lemma checked_noise_err e w ws size g : (forall g, height g = Err e) -> (0 < w)%nat -> checked_noise zero height (w :: ws) size g = Err e.
Proof. intros H W. unfold checked_noise. cbn [checked_loop]. rewrite (proj2 (Nat.ltb_lt 0 w) W), H. reflexivity. Qed.
End Loop.

Lemma binomial_ok {G} (binomial : R -> G -> bool * G) ratio g : 0 <= ratio <= 1 -> checked_binomial binomial ratio g = Ok (binomial ratio g).
Proof. intros H. unfold checked_binomial. rewrite !Rltb_false by lra. reflexivity. Qed.
Lemma binomial_err {G} (binomial : R -> G -> bool * G) ratio g : ratio < 0 \/ 1 < ratio -> checked_binomial binomial ratio g = Err ValueError.
Proof. intros [H|H]; unfold checked_binomial; rewrite (Rltb_true _ _ H); [|rewrite Bool.orb_true_r]; reflexivity. Qed.

Section Telegraph.
Context {G : Type}.
Variable geometric : R -> nat -> G -> list nat * G.
Variable normal : R -> R -> G -> R * G.
Variable binomial : R -> G -> bool * G.
Variable sample_scale sample_std sample_height : G -> R * G.
Notation checked := (checked_rtn geometric normal binomial sample_scale sample_std sample_height).

Lemma rtn_possible ratio im lim1 lim2 g : 0 <= ratio <= 1 -> (forall g, 0 <= fst (sample_std g)) ->
  checked ratio im lim1 lim2 g = rtn_noise_function geometric normal (binomial ratio) sample_scale sample_std sample_height im lim1 lim2 g.
Proof.
  intros Hr Hs. unfold checked_rtn, rtn_noise_function. rewrite (binomial_ok _ _ _ Hr). cbn [bind].
  destruct (binomial ratio g) as [[] g1]; cbn [negb]; [|reflexivity]. destruct (sample_scale g1) as [sc g2].
  destruct (rtn_px_per_volt (image_shape im) lim1 lim2) as [k|e]; cbn [bind]; [|reflexivity].
  specialize (Hs g2). destruct (sample_std g2) as [std g3]. cbn [fst] in Hs. destruct (sample_height g3) as [h g4].
  replace (checked_telegraph geometric normal im (sc * k) std h g4) with (random_telegraph_noise geometric normal im (sc * k) std h g4); [reflexivity|].
  unfold checked_telegraph, random_telegraph_noise. destruct (Reqb _ _); [reflexivity|]. destruct (Rltb (sc * k) 1); [reflexivity|]. cbv zeta.
  destruct (geometric _ _ _) as [w g5]. rewrite (checked_noise_ok 0 _ (normal h std)).
  - cbn [bind]. destruct (block_noise _ _ _ _ _). reflexivity.
  - intros g'. unfold checked_normal. rewrite Rltb_false by lra. reflexivity.
Qed.

Lemma rtn_ratio ratio im lim1 lim2 g : ratio < 0 \/ 1 < ratio -> checked ratio im lim1 lim2 g = Err ValueError.
Proof. intros H. unfold checked_rtn. rewrite (binomial_err _ _ _ H). reflexivity. Qed.

Lemma rtn_std ratio im lim1 lim2 g k :
  0 <= ratio <= 1 -> fst (binomial ratio g) = true -> rtn_px_per_volt (image_shape im) lim1 lim2 = Ok k ->
  (forall g, 1 <= fst (sample_scale g) * k) -> (forall g, fst (sample_std g) < 0) -> (0 < shape_size (image_shape im))%nat ->
  (forall p n g, (0 < n)%nat -> exists w ws, fst (geometric p n g) = w :: ws /\ (0 < w)%nat) ->
  checked ratio im lim1 lim2 g = Err ValueError.
Proof.
  intros Hr Hb Hk Hsc Hs Hn Hg. unfold checked_rtn. rewrite (binomial_ok _ _ _ Hr). cbn [bind].
  destruct (binomial ratio g) as [act g1]. cbn [fst] in Hb. subst act. cbn [negb]. specialize (Hsc g1). destruct (sample_scale g1) as [sc g2]. cbn [fst] in Hsc.
  rewrite Hk. cbn [bind]. specialize (Hs g2). destruct (sample_std g2) as [std g3]. cbn [fst] in Hs. destruct (sample_height g3) as [h g4].
  unfold checked_telegraph. rewrite Reqb_false by lra. rewrite Rltb_false by lra. cbv zeta.
  destruct (Hg (1 / (sc * k)) _ g4 Hn) as (w & ws & E & W). destruct (geometric _ _ _) as [l g5]. cbn [fst] in E. subst l.
  rewrite (checked_noise_err 0 _ ValueError); [reflexivity| |exact W]. intros g'. unfold checked_normal. rewrite (Rltb_true _ _ Hs). reflexivity.
Qed.
Lemma rtn_inactive ratio im lim1 lim2 g : 0 <= ratio <= 1 -> fst (binomial ratio g) = false ->
  checked ratio im lim1 lim2 g = Ok (im, false, snd (binomial ratio g)).
Proof.
  intros Hr Hb. unfold checked_rtn. rewrite (binomial_ok _ _ _ Hr). cbn [bind]. destruct (binomial ratio g) as [act g1]. cbn [fst] in Hb. subst act. reflexivity.
Qed.
End Telegraph.

Section Jumps.
Context {A G : Type}.
Variable isnan : A -> bool.
Variable nan : A.
Variable junk : nat -> nat -> A.
Variable have_gen : bool.
Variable gen1 : limits -> limits -> nat -> arr1 (A * A) * arr1 A.
Variable gen2 : limits -> limits -> nat * nat -> arr2 (A * A) * arr2 A.
Variable binomial : R -> G -> bool * G.
Variable sample_scale sample_lam : G -> R * G.
Variable geometric : R -> nat -> G -> list nat * G.
Variable poisson : R -> G -> nat * G.
Notation checked sc lam := (checked_jumps isnan nan junk have_gen gen1 gen2 binomial sc lam geometric poisson).

Lemma div_range_pos n l k : div_range n l = Ok k -> 0 <= k.
Proof.
  unfold div_range. destruct (Reqb_spec (volt_range l) 0) as [E|E]; [discriminate|]. intros [= <-].
  assert (0 <= volt_range l) by (unfold volt_range; pose proof (Rmax_l (fst l) (snd l)); pose proof (Rmin_l (fst l) (snd l)); lra).
  apply Rmult_le_pos; [apply pos_INR|]. apply Rlt_le, Rinv_0_lt_compat. lra.
Qed.
Lemma px_pos axis sh lim1 lim2 k : jump_px_per_volt axis sh lim1 lim2 = Ok k -> 0 <= k.
Proof.
  unfold jump_px_per_volt. destruct sh as [n|r c]; destruct (axis =? 1)%Z; try apply div_range_pos; destruct (axis =? 0)%Z; try apply div_range_pos;
    intros [= <-]; lra.
Qed.

Lemma jumps_possible ratio axis freeze st g s lim1 lim2 : 0 <= ratio <= 1 -> (forall g, 0 <= fst (sample_lam g)) ->
  checked sample_scale sample_lam ratio axis freeze st g s lim1 lim2 =
  jump_noise_function isnan nan junk have_gen gen1 gen2 (binomial ratio) sample_scale sample_lam geometric poisson axis freeze st g s lim1 lim2.
Proof.
  intros Hr Hl. unfold checked_jumps. destruct freeze; [reflexivity|]. unfold jump_noise_function. cbn [andb].
  rewrite (binomial_ok _ _ _ Hr). cbn [bind]. destruct (binomial ratio g) as [[] g1]; cbn [negb]; [|reflexivity].
  destruct (sample_scale g1) as [sc g2]. specialize (Hl g2). destruct (sample_lam g2) as [lam g3]. cbn [fst] in Hl.
  destruct (jump_px_per_volt _ _ _ _) as [k|e] eqn:Ek; cbn [bind]; [|reflexivity]. cbv zeta.
  destruct (jump_size _ _) as [n|e]; cbn [bind]; [|reflexivity]. unfold generate_dot_jumps_blockwise.
  destruct (geometric _ _ _) as [w g4]. rewrite (checked_noise_ok 0%nat _ (poisson (lam * k))).
  - cbn [bind]. destruct (block_noise _ _ _ _ _). reflexivity.
  - intros g'. unfold checked_poisson. rewrite Rltb_false; [reflexivity|]. apply Rmult_le_pos; [exact Hl|]. exact (px_pos _ _ _ _ _ Ek).
Qed.

Lemma jumps_ratio ratio axis st g s lim1 lim2 : ratio < 0 \/ 1 < ratio ->
  checked sample_scale sample_lam ratio axis false st g s lim1 lim2 = Err ValueError.
Proof. intros H. unfold checked_jumps. rewrite (binomial_err _ _ _ H). reflexivity. Qed.

Lemma jumps_lam ratio axis st g s lim1 lim2 k n :
  0 <= ratio <= 1 -> fst (binomial ratio g) = true -> jump_px_per_volt axis (scan_shape s) lim1 lim2 = Ok k -> 0 < k ->
  jump_size axis (scan_shape s) = Ok n -> (0 < n)%nat -> (forall g, fst (sample_lam g) < 0) ->
  (forall p n g, (0 < n)%nat -> exists w ws, fst (geometric p n g) = w :: ws /\ (0 < w)%nat) ->
  checked sample_scale sample_lam ratio axis false st g s lim1 lim2 = Err ValueError.
Proof.
  intros Hr Hb Hk Kp Hn Np Hl Hg. unfold checked_jumps. rewrite (binomial_ok _ _ _ Hr). cbn [bind].
  destruct (binomial ratio g) as [act g1]. cbn [fst] in Hb. subst act. cbn [negb]. destruct (sample_scale g1) as [sc g2].
  specialize (Hl g2). destruct (sample_lam g2) as [lam g3]. cbn [fst] in Hl. rewrite Hk. cbn [bind]. cbv zeta. rewrite Hn. cbn [bind].
  match goal with |- context [geometric ?p n g3] => destruct (Hg p n g3 Np) as (w & ws & E & W); destruct (geometric p n g3) as [l g4] end.
  cbn [fst] in E. subst l. rewrite (checked_noise_err 0%nat _ ValueError); [reflexivity| |exact W].
  intros g'. unfold checked_poisson. rewrite Rltb_true; [reflexivity|].
  replace 0 with (0 * k) by ring. apply Rmult_lt_compat_r; assumption.
Qed.

(** Negative lengths are lengths of one pixel *)
Lemma jumps_length ratio axis freeze st g s lim1 lim2 scale : scale <= 0 ->
  checked (fun g => (scale, g)) sample_lam ratio axis freeze st g s lim1 lim2 = checked (fun g => (0, g)) sample_lam ratio axis freeze st g s lim1 lim2.
Proof.
  intros Hs. unfold checked_jumps. destruct freeze.
  - unfold jump_noise_function. cbn [andb negb]. destruct (negb match js_activated st with Some true => true | _ => false end); reflexivity.
  - destruct (checked_binomial _ _ _) as [[act g1]|e]; cbn [bind]; [|reflexivity]. destruct act; cbn [negb]; [|reflexivity].
    destruct (sample_lam g1) as [lam g3]. destruct (jump_px_per_volt _ _ _ _) as [k|e] eqn:Ek; cbn [bind]; [|reflexivity]. cbv zeta.
    pose proof (px_pos _ _ _ _ _ Ek). rewrite !Rltb_true; [reflexivity|lra|].
    assert (0 <= - scale * k) by (apply Rmult_le_pos; lra). lra.
Qed.
End Jumps.

Lemma blur_width {G} kernel radius freeze st (g : G) s lim1 lim2 sigma : sigma <= 0 -> (freeze = true -> st = Some sigma) ->
  blur_noise_function (fun g => (sigma, g)) kernel radius freeze st g s lim1 lim2 = Ok (s, Some sigma, g).
Proof.
  intros Hs Hf. unfold blur_noise_function. destruct freeze; [rewrite (Hf eq_refl)|]; cbn [bind]; rewrite Rltb_false by lra; reflexivity.
Qed.
