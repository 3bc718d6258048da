(** Specification of the noise added by lists of distortions: the numbers drawn by each of them in turn, added pixel by pixel. *)
From Verif Require Import RPrelude ModelDistortions ModelNoise SpecHeights.
Local Open Scope R_scope.

(** One height is drawn for each block that begins within the n pixels. *)
Definition heights_drawn {V G} (draw : G -> V * G) (lengths : list nat) (n : nat) (g g' : G) : Prop :=
  exists b, (b <= n)%nat /\ (forall i, (i < n)%nat -> (first_pixel lengths i < n <-> i < b)%nat) /\ g' = after_draws draw b g.

(** Distortion d, called for images with n pixels, adds the numbers z and leaves the generator in state g'. [px]: pixels per volt. *)
Definition adds {G} (src : sources G) (n : nat) (px : result R) (d : image_noise G) (g : G) (z : list R) (g' : G) : Prop :=
  match d with
  | White sigma =>
      let drawn := src_standard src n (snd (sigma g)) in
      0 <= fst (sigma g) /\ z = map (fun x => fst (sigma g) * x) (fst drawn) /\ g' = snd drawn
  | Pink sigma fmin =>
      let drawn := src_powerlaw src n fmin (snd (sigma g)) in
      z = map (fun x => fst (sigma g) * x) (fst drawn) /\ g' = snd drawn
  | Telegraph ratio scale std height =>
      let active := src_binomial src ratio g in
      if fst active then
        let g2 := snd (scale (snd active)) in
        let g3 := snd (std g2) in
        let g4 := snd (height g3) in
        exists per_volt, px = Ok per_volt /\
        let width := fst (scale (snd active)) * per_volt in
        let lengths := src_geometric src (1 / width) n g4 in
        width = 0 /\ z = repeat 0 n /\ g' = g4 \/
        1 <= width /\ drawn_heights 0 (src_normal src (fst (height g3)) (fst (std g2))) (fst lengths) n (snd lengths) z /\
          heights_drawn (src_normal src (fst (height g3)) (fst (std g2))) (fst lengths) n (snd lengths) g'
      else z = repeat 0 n /\ g' = snd active
  end.

Fixpoint adds_all {G} (src : sources G) (n : nat) (px : result R) (ds : list (image_noise G)) (g : G) (z : list R) (g' : G) : Prop :=
  length z = n /\
  match ds with
  | [] => z = repeat 0 n /\ g' = g
  | d :: t => exists z1 g1 z2, adds src n px d g z1 g1 /\ adds_all src n px t g1 z2 g' /\ forall k, nth k z 0 = nth k z1 0 + nth k z2 0
  end.

(** Three potentials: every distortion draws for the sensor dot, then for the first and then for the second barrier. *)
Fixpoint adds3_all {G} (src : sources G) (n : nat) (px : result R) (ds : list (image_noise G)) (g : G) (z0 z1 z2 : list R) (g' : G) : Prop :=
  length z0 = n /\ length z1 = n /\ length z2 = n /\
  match ds with
  | [] => z0 = repeat 0 n /\ z1 = repeat 0 n /\ z2 = repeat 0 n /\ g' = g
  | d :: t => exists a0 a1 a2 b0 b1 b2 ga gb gc, adds src n px d g a0 ga /\ adds src n px d ga a1 gb /\ adds src n px d gb a2 gc /\
      adds3_all src n px t gc b0 b1 b2 g' /\
      forall k, nth k z0 0 = nth k a0 0 + nth k b0 0 /\ nth k z1 0 = nth k a1 0 + nth k b1 0 /\ nth k z2 0 = nth k a2 0 + nth k b2 0
  end.

(** Two scales: the state of the generator after the draws for the first k blocks. *)
Fixpoint after_blocks {G} (quiet_length burst_length : G -> nat * G) (height : G -> R * G) (k : nat) (burst : bool) (g : G) : G :=
  match k with
  | O => g
  | S k' =>
      if burst then after_blocks quiet_length burst_length height k' false (snd (height (snd (burst_length g))))
      else after_blocks quiet_length burst_length height k' true (snd (quiet_length g))
  end.
