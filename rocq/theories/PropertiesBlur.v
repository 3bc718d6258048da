(** C133: blurring keeps transitions in place. *)
From Coquelicot Require Import Coquelicot.
From Verif Require Import RPrelude Arr ModelJumps ModelDistortions SpecDistortions SpecBlur ProofsDistortions ProofsBlur.
Local Open Scope R_scope.

(** The documented line shape: the derivative of the Fermi-Dirac distribution *)
Theorem C133_derivative x x0 sigma : 0 < sigma ->
  is_derive (fun y => fermi_dirac sigma (y - x0)) x (fermi_dirac_derivative x x0 sigma).
Proof. apply fermi_derivative. Qed.
Print Assumptions C133_derivative.

(** Every blurred value is the weighted mean of the values around it, with the line reflected at its ends. *)
Theorem C133_weights {G} (sample_sigma : G -> R * G) (kernel : R -> Z -> R) radius freeze st g s lim1 lim2 s' st' g' weight :
  (kernel = fermi_kernel /\ weight = fermi_weight \/ kernel = gaussian_kernel /\ weight = gauss_weight) ->
  blur_noise_function sample_sigma kernel radius freeze st g s lim1 lim2 = Ok (s', st', g') ->
  (0 < line_length s)%nat /\ (0 < line_count s)%nat ->
  exists sg, st' = Some sg /\ (0 < sg -> exists k, blur_px_per_volt (scan_shape s) lim1 lim2 = Ok k /\ 0 < k /\
    forall row c e i, (row < line_count s)%nat -> (i < line_length s)%nat ->
    even_extension (line_length s) (fun j => shown c (scan_line s row j)) e ->
    let r := radius (sg * k) in let w d := weight (sg * k) (IZR d) in
    shown c (scan_line s' row i) = window_sum r (fun d => w d * e (Z.of_nat i - d)%Z) / window_sum r w).
Proof. apply blur_weights. Qed.
Print Assumptions C133_weights.

(** A transition at least the radius of the kernel away from the ends of the line: the values at the same distance on both sides still
    add up to the same sum, and nothing changes beyond the radius. *)
Theorem C133_in_place {G} (sample_sigma : G -> R * G) kernel radius freeze st g s lim1 lim2 s' st' g' m a b row c :
  (kernel = fermi_kernel \/ kernel = gaussian_kernel) ->
  blur_noise_function sample_sigma kernel radius freeze st g s lim1 lim2 = Ok (s', st', g') ->
  (0 < line_length s)%nat /\ (0 < line_count s)%nat -> (row < line_count s)%nat -> (m + 1 < line_length s)%nat ->
  (forall k, (k < line_length s)%nat -> shown c (scan_line s row k) = if (k <=? m)%nat then a else b) ->
  (forall sg k, st' = Some sg -> 0 < sg -> blur_px_per_volt (scan_shape s) lim1 lim2 = Ok k ->
    (radius (sg * k)%R <= m + 1 /\ radius (sg * k)%R + m + 1 <= line_length s)%nat) ->
  forall j, (j <= m)%nat -> (m + 1 + j < line_length s)%nat ->
  shown c (scan_line s' row (m - j)) + shown c (scan_line s' row (m + 1 + j)) = a + b /\
  (forall sg k, st' = Some sg -> 0 < sg -> blur_px_per_volt (scan_shape s) lim1 lim2 = Ok k -> (radius (sg * k)%R <= j)%nat ->
     shown c (scan_line s' row (m - j)) = a /\ shown c (scan_line s' row (m + 1 + j)) = b).
Proof. intros K H Ne. exact (blur_in_place sample_sigma kernel radius K freeze st g s lim1 lim2 s' st' g' H Ne m a b row c). Qed.
Print Assumptions C133_in_place.

(** Rising lines stay rising, falling lines falling, if the kernel is shorter than the line. *)
Theorem C133_order_partial {G} (sample_sigma : G -> R * G) kernel radius freeze st g s lim1 lim2 s' st' g' row c :
  (kernel = fermi_kernel \/ kernel = gaussian_kernel) ->
  blur_noise_function sample_sigma kernel radius freeze st g s lim1 lim2 = Ok (s', st', g') ->
  (0 < line_length s)%nat /\ (0 < line_count s)%nat -> (row < line_count s)%nat ->
  (forall sg k, st' = Some sg -> 0 < sg -> blur_px_per_volt (scan_shape s) lim1 lim2 = Ok k -> (radius (sg * k)%R < line_length s)%nat) ->
  (rising (line_length s) (fun i => shown c (scan_line s row i)) -> rising (line_length s) (fun i => shown c (scan_line s' row i))) /\
  (falling (line_length s) (fun i => shown c (scan_line s row i)) -> falling (line_length s) (fun i => shown c (scan_line s' row i))).
Proof. intros K H Ne Hr Sh. exact (blur_keeps_order sample_sigma kernel radius K freeze st g s lim1 lim2 s' st' g' H Ne Sh row c Hr). Qed.
Print Assumptions C133_order_partial.

(** Kernels as long as the line: 0, 1, 1, ..., 1 (64 pixels) falls at the end after blurring with a width of 16 pixels. *)
Theorem C133_order_refuted kernel radius : (kernel = fermi_kernel \/ kernel = gaussian_kernel) -> radius 16 = 64%nat ->
  let s := Scan1 (mk_arr1 64 (fun k => (step_line 0 k, 0))) None in
  exists s', blur_noise_function (fun g : unit => (1/4, g)) kernel radius false None tt s (0, 1) (0, 0) = Ok (s', Some (1/4), tt) /\
    rising 64 (fun k => fst (scan_line s 0 k)) /\ fst (scan_line s' 0 63) < fst (scan_line s' 0 62).
Proof. apply long_kernel. Qed.
Print Assumptions C133_order_refuted.

(** Four pixels with one transition in the middle, radius 1 *)
Example C133_example :
  let s := Scan1 (mk_arr1 4 (fun k => (step_line 1 k, 0))) None in
  exists s', blur_noise_function (fun g : unit => (1/4, g)) gaussian_kernel (fun _ => 1%nat) false None tt s (0, 1) (0, 0) = Ok (s', Some (1/4), tt) /\
    fst (scan_line s' 0 0) = 0 /\ fst (scan_line s' 0 1) + fst (scan_line s' 0 2) = 1 /\ fst (scan_line s' 0 3) = 1 /\
    rising 4 (fun k => fst (scan_line s' 0 k)) /\ even_extension 1 (fun _ => 1) (fun _ => 1).
Proof.
  intros s. assert (E : exists s', blur_noise_function (fun g : unit => (1/4, g)) gaussian_kernel (fun _ => 1%nat) false None tt s (0, 1) (0, 0) = Ok (s', Some (1/4), tt)).
  { eexists. unfold blur_noise_function. cbn [bind]. rewrite Rltb_true by lra. unfold s, scan_shape, blur_px_per_volt, fixed_gate, div_range, volt_range. cbn [len1 fst snd].
    rewrite (Reqb_false 0 1), (Reqb_true 0 0), Rmax_right, Rmin_left by lra. rewrite Reqb_false by lra. cbn [bind]. reflexivity. }
  destruct E as (s' & E). exists s'. split; [exact E|].
  assert (L : forall k, (k < 4)%nat -> shown 0 (scan_line s 0 k) = if (k <=? 1)%nat then 0 else 1).
  { intros k Hk. unfold s. simpl. unfold step_line. destruct (Nat.ltb_spec 1 k), (Nat.leb_spec k 1); lia || lra. }
  assert (Pl : exists k, blur_px_per_volt (scan_shape s) (0, 1) (0, 0) = Ok k).
  { unfold s, scan_shape, blur_px_per_volt, fixed_gate, div_range, volt_range. cbn [len1 fst snd].
    rewrite (Reqb_false 0 1), (Reqb_true 0 0), Rmax_right, Rmin_left by lra. rewrite Reqb_false by lra. eauto. }
  destruct Pl as (k & Ek).
  pose proof (C133_in_place _ _ _ _ _ _ _ _ _ _ _ _ 1 0 1 0 0 (or_intror eq_refl) E ltac:(simpl; lia) ltac:(simpl; lia) ltac:(simpl; lia) L ltac:(simpl; intros; lia)) as P.
  destruct (P 0%nat ltac:(simpl; lia) ltac:(simpl; lia)) as [P0 _].
  destruct (P 1%nat ltac:(simpl; lia) ltac:(simpl; lia)) as [_ P1]. destruct (P1 (1/4) k eq_refl ltac:(lra) Ek ltac:(lia)) as [Q0 Q1].
  simpl in P0, Q0, Q1. rewrite !Rplus_0_l in P0. split; [exact Q0|]. split; [exact P0|]. split; [exact Q1|]. split.
  - apply (proj1 (C133_order_partial _ _ _ _ _ _ _ _ _ _ _ _ 0 0 (or_intror eq_refl) E ltac:(simpl; lia) ltac:(simpl; lia) ltac:(simpl; intros; lia))).
    intros i j Hij. simpl in *. unfold step_line. destruct (Nat.ltb_spec 1 i), (Nat.ltb_spec 1 j); lia || lra.
  - split; [reflexivity|split; reflexivity].
Qed.
