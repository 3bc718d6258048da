(** Specification vocabulary for the distortions of sampled configurations. *)
From Verif Require Import RPrelude ModelSampling ModelNoise ModelConfig SpecSampling.
Local Open Scope R_scope.

(** One pixel of an image of 30 mV with 100 pixels, the scale in which the sampler gives lengths. *)
Definition reference_pixel : R := 0.03 / 100.

(** All values that a strength ever takes lie between two bounds. *)
Definition strength_between {G} (r : rng G) (s : strength) (lo hi : R) : Prop :=
  match s with
  | Fixed x => lo <= x <= hi
  | Drawn a total => forall g sm w g1 fuel n g2 vs sm' g3,
      new_sampler r a total None g = (sm, w, g1) -> sample_many r fuel n sm g2 = Some (vs, sm', g3) ->
      length vs = n /\ Forall (fun v => lo <= v <= hi) vs
  end.

(** Weak noise is preferred: the strength is counted from the lower bound, in units of the range, by an
    exponential number that stays below 0.6 in 99 of 100 draws. *)
Definition mostly_weak {G} (r : rng G) (s : strength) (lo hi : R) : Prop :=
  exists scale, 0 < scale /\ exponential_cdf scale 0.6 = 0.99 /\
  exists a total, s = Drawn a total /\ forall g sm w g1 fuel g2 v sm' g3,
    new_sampler r a total None g = (sm, w, g1) -> sample_parameter r fuel sm g2 = Some (v, sm', g3) ->
    exists g', v = lo + fst (r_exponential r scale g') * (hi - lo).

Definition moderate {G} (r : rng G) (d : distortion) : Prop :=
  match d with
  | FermiDirac s => strength_between r s (reference_pixel / 4) (2 * reference_pixel)
  | DotJumps ratio scale lam axis => 0 < ratio <= 0.01 /\ scale = 100 * reference_pixel /\ lam = 6 * reference_pixel
  | PinkNoise s | WhiteNoise s => strength_between r s 1e-10 0.0005 /\ mostly_weak r s 1e-10 0.0005
  | TelegraphNoise scale std height ratio => 0 < scale /\ 0 < std /\ 0 < height /\ 0 < ratio <= 1 / 6
  end.

(** The kinds of distortions; for dot jumps with the axis. *)
Inductive noise_kind := Blurring | Jumps (axis : nat) | Pink1 | White1 | Telegraphic.
Definition kind_of (d : distortion) : noise_kind :=
  match d with
  | FermiDirac _ => Blurring | DotJumps _ _ _ axis => Jumps axis | PinkNoise _ => Pink1
  | WhiteNoise _ => White1 | TelegraphNoise _ _ _ _ => Telegraphic
  end.

(** Object [o] of a simulation carries out distortion [d]: same kind, same parameters; numbers that are drawn come from
    the sampler of the distortion. *)
Definition takes {G} (draw : sampler_args -> R * R -> param G) (s : strength) (x : param G) : Prop :=
  match s with Fixed v => forall g, x g = (v, g) | Drawn a total => x = draw a total end.
Definition image_realised {G} (draw : sampler_args -> R * R -> param G) (d : distortion) (o : image_noise G) : Prop :=
  match d, o with
  | PinkNoise s, Pink x fmin => takes draw s x /\ fmin = 0
  | WhiteNoise s, White x => takes draw s x
  | TelegraphNoise scale std height ratio, Telegraph ratio' x y z =>
      ratio' = ratio /\ forall g, x g = (scale, g) /\ y g = (std, g) /\ z g = (height, g)
  | _, _ => False
  end.
Definition occ_realised {G} (draw : sampler_args -> R * R -> param G) (kernel : R -> Z -> R) (radius : R -> nat)
  (d : distortion) (o : occ_noise G) : Prop :=
  match d, o with
  | FermiDirac s, Blur _ x k rad => takes draw s x /\ k = kernel /\ rad = radius
  | DotJumps ratio scale lam axis, ModelNoise.Jumps _ axis' ratio' x y =>
      axis' = Z.of_nat axis /\ ratio' = ratio /\ forall g, x g = (scale, g) /\ y g = (lam, g)
  | _, _ => False
  end.
