(** What dot jumps along both plunger gates should show. *)
From Verif Require Import RPrelude Arr ModelSupport ModelCsd ModelJumps ModelDistortions ModelSensor ModelSimulation ModelInstance ModelNoise SpecCsd SpecSimulation SpecNoise.
Local Open Scope R_scope.

(** The height of the jump of line [i], in pixels: 0 if the jumps are switched off. *)
Definition height_of (st : jump_state) (i : nat) : nat :=
  match js_activated st, js_noise st with Some true, Some l => nth i l 0%nat | _, _ => 0%nat end.
(** The voltage shown by pixel [i] of [n] after a jump of [s] pixels: that of pixel [i - s]; below the swept
    range the pixels are taken to be range / n apart. *)
Definition displaced (l : R * R) (n s i : nat) : R :=
  if (s <=? i)%nat then pixel_voltage l n (i - s) else fst l - INR (s - i) * ((snd l - fst l) / INR n).
(** 2D data with the occupations [f] at the voltages of the pixels *)
Definition samples_2d {W} (f : R -> R -> R * R) (gen : generator W lead_mask) : Prop :=
  forall l1 l2 c r w, fst l1 < snd l1 -> fst l2 < snd l2 -> (1 < c)%nat -> (1 < r)%nat ->
  exists a t, gen l1 l2 (ResArray [Z.of_nat c; Z.of_nat r]) w = (Ok (Occ2 a, Lead2 t), w) /\ rows a = r /\ cols a = c /\ same_shape t a /\
    forall i j, (i < r)%nat -> (j < c)%nat -> cell a i j = f (pixel_voltage l1 c j) (pixel_voltage l2 r i).
(** 1D requests are answered with a line of data. *)
Definition answers_lines {W} (gen : generator W lead_mask) : Prop :=
  forall l1 l2 n w, fst l1 <= snd l1 -> fst l2 <= snd l2 -> (1 < n)%nat -> exists a l, gen l1 l2 (ResInt (Z.of_nat n)) w = (Ok (Occ1 a, Lead1 l), w) /\ len1 a = n /\ length l = n.
(** 2D data in which the pixel in row [i] and column [j] shows the occupations at [x j] and [y i]. *)
Definition shows (f : R -> R -> R * R) (x y : nat -> R) (r c : nat) (ol : occupation * lead_mask) : Prop :=
  exists o t, ol = (Occ2 o, Lead2 t) /\ rows o = r /\ cols o = c /\ same_shape t o /\
    forall i j, (i < r)%nat -> (j < c)%nat -> cell o i j = f (x j) (y i).
(** ** Two objects along the same gate *)
(** The highest of the jumps of [n] lines. *)
Definition highest (h : nat -> nat) (n : nat) : nat := fold_right Nat.max 0%nat (map h (seq 0 n)).
(** The kept noise of the first object is too short for the strip requested by the second one: [n] lines along the
    axis of the jumps, [other] lines along the other axis; a strip of one pixel is requested as a 1D scan. *)
Definition too_short (a b : jump_state) (n other : nat) : Prop :=
  js_activated a = Some true /\
  let m := highest (height_of b) n in (1 < m)%nat /\ (n < m)%nat \/ m = 1%nat /\ (n < other)%nat.
(** The voltage shown by pixel [i]: displaced by [hb i] pixels in the data displaced by [ha]; in the strip of
    [highest hb n] pixels below the range, the first object displaces the pixels of the strip like those of the scan. *)
Definition twice_displaced (l : R * R) (n : nat) (ha hb : nat -> nat) (i : nat) : R :=
  if (hb i <=? i)%nat then displaced l n (ha (i - hb i)%nat) (i - hb i)
  else let m := highest hb n in let step := (snd l - fst l) / INR n in
       displaced (fst l - INR m * step, fst l - step) m (ha (m - (hb i - i))%nat) (m - (hb i - i)).
