(** Model of the exceptions that the random generator of numpy raises in simcats/distortions/_dot_jumps.py and _random_telegraph_noise.py: binomial
    for a probability outside [0, 1], normal for a negative standard deviation, poisson for a negative mean. The constructors and setters store
    every parameter without a check (_dot_jumps.py:49-55, _random_telegraph_noise.py:49-54). Simplification: not-a-number as parameter and the upper
    limit of numpy for the mean of poisson are left out. *)
From Verif Require Import RPrelude Arr ModelJumps ModelDistortions.
Local Open Scope R_scope.

(** rng.binomial(1, ratio) *)
Definition checked_binomial {G} (binomial : R -> G -> bool * G) (ratio : R) (g : G) : result (bool * G) :=
  raise_if (Rltb ratio 0 || Rltb 1 ratio) ValueError (Ok (binomial ratio g)).
(** rng.normal(height, std) *)
Definition checked_normal {G} (normal : R -> R -> G -> R * G) (height std : R) (g : G) : result (R * G) :=
  raise_if (Rltb std 0) ValueError (Ok (normal height std g)).
(** rng.poisson(lam) *)
Definition checked_poisson {G} (poisson : R -> G -> nat * G) (lam : R) (g : G) : result (nat * G) :=
  raise_if (Rltb lam 0) ValueError (Ok (poisson lam g)).

Section Loop.
Context {V G : Type}.
Variable zero : V.
Variable height : G -> result (V * G).
(** _dot_jumps.py:596-603, _random_telegraph_noise.py:304-311: a height is drawn for quiet blocks as well *)
Fixpoint checked_loop (width : list nat) (size : nat) (bi : bool) (noise : list V) (g : G) : result (list V * G) :=
  match width with
  | [] => Ok (noise, g)
  | w :: ws =>
      let? r := (if (0 <? w)%nat
                 then let? hg := height g in Ok (noise ++ repeat (if bi then fst hg else zero) w, negb bi, snd hg)
                 else Ok (noise, bi, g)) in
      let '(noise', bi', g') := r in
      if (size <=? length noise')%nat then Ok (noise', g') else checked_loop ws size bi' noise' g'
  end.
Definition checked_noise (width : list nat) (size : nat) (g : G) : result (list V * G) :=
  let? r := checked_loop width size false [] g in Ok (firstn size (fst r), snd r).
End Loop.

(** random_telegraph_noise and RandomTelegraphNoise.noise_function *)
Section Telegraph.
Context {G : Type}.
Variable geometric : R -> nat -> G -> list nat * G.
Variable normal : R -> R -> G -> R * G.
Variable binomial : R -> G -> bool * G.
Variable sample_scale sample_std sample_height : G -> R * G.
Definition checked_telegraph (im : image) (scale std height : R) (g : G) : result (image * G) :=
  if Reqb scale 0 then Ok (im, g)
  else if Rltb scale 1 then Err ValueError
  else
    let size := shape_size (image_shape im) in
    let '(lengths, g1) := geometric (1 / scale) size g in
    let? r := checked_noise 0 (checked_normal normal height std) lengths size g1 in
    Ok (add_noise im (fst r), snd r).
Definition checked_rtn (ratio : R) (im : image) (lim1 lim2 : limits) (g : G) : result (image * bool * G) :=
  let? b := checked_binomial binomial ratio g in
  let '(act, g1) := b in
  if negb act then Ok (im, false, g1)
  else
    let '(scale_v, g2) := sample_scale g1 in
    let? k := rtn_px_per_volt (image_shape im) lim1 lim2 in
    let scale := scale_v * k in
    let '(std, g3) := sample_std g2 in
    let '(height, g4) := sample_height g3 in
    let? r := checked_telegraph im scale std height g4 in
    Ok (fst r, true, snd r).
End Telegraph.

(** OccupationDotJumps.noise_function; a frozen call draws nothing *)
Section Jumps.
Context {A G : Type}.
Variable isnan : A -> bool.
Variable nan : A.
Variable junk : nat -> nat -> A.
Variable have_gen : bool.
Variable gen1 : limits -> limits -> nat -> arr1 (A * A) * arr1 A.
Variable gen2 : limits -> limits -> nat * nat -> arr2 (A * A) * arr2 A.
Variable binomial : R -> G -> bool * G.
Variable sample_scale sample_lam : G -> R * G.
Variable geometric : R -> nat -> G -> list nat * G.
Variable poisson : R -> G -> nat * G.
Definition checked_jumps (ratio : R) (axis : Z) (freeze : bool) (st : jump_state) (g : G) (s : scan A) (lim1 lim2 : limits)
  : result (scan A * jump_state * G) :=
  if freeze
  then jump_noise_function isnan nan junk have_gen gen1 gen2 (binomial ratio) sample_scale sample_lam geometric poisson axis true st g s lim1 lim2
  else
    let? b := checked_binomial binomial ratio g in
    let '(act, g1) := b in
    if negb act then Ok (s, mk_jump_state (Some false) (js_noise st), g1)
    else
      let '(scale_v, g2) := sample_scale g1 in
      let '(lam_v, g3) := sample_lam g2 in
      let? k := jump_px_per_volt axis (scan_shape s) lim1 lim2 in
      let scale := if Rltb (scale_v * k) 1 then 1 else scale_v * k in
      let? size := jump_size axis (scan_shape s) in
      let '(w, g4) := geometric (1 / scale) size g3 in
      let? r := checked_noise 0%nat (checked_poisson poisson (lam_v * k)) w size g4 in
      let noise := map uint8 (fst r) in
      let? s' := jump_apply isnan nan junk have_gen gen1 gen2 axis noise s lim1 lim2 in
      Ok (s', mk_jump_state (Some true) (Some noise), snd r).
End Jumps.
