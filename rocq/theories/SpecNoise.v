(** Vocabulary for measurements of a simulation with the distortions of the package. *)
From Verif Require Import RPrelude Arr ModelSupport ModelTct ModelCsd ModelJumps ModelDistortions ModelSensor ModelSimulation ModelInstance
  ModelNoise SpecSupport SpecTct SpecCsd SpecSensor SpecDistortions SpecInstance.
Local Open Scope R_scope.

(** Pixel number [k] in scan order of a measurement over the limits [xl], [yl]: voltages [v], occupations
    [o] and measured value [y]. *)
Definition numbered_pixel {W} (m : @measurement W lead_mask response unit) (xl yl : R * R) (k : nat) (v : point) (o : R * R) (y : R) : Prop :=
  match m_csd m, m_occ m with
  | RImage (Img1 c), Occ1 a =>
      (k < len1 a)%nat /\ len1 c = len1 a /\
      v = (pixel_voltage xl (len1 a) k, pixel_voltage yl (len1 a) k) /\ o = cell1 a k /\ y = cell1 c k
  | RImage (Img2 c), Occ2 a =>
      exists i j, (i < rows a)%nat /\ (j < cols a)%nat /\ k = (i * cols a + j)%nat /\ same_shape c a /\
      v = (pixel_voltage xl (cols a) j, pixel_voltage yl (rows a) i) /\ o = cell a i j /\ y = cell c i j
  | _, _ => False
  end.
Definition shape_of_occ (o : occupation) : option shape :=
  match o with Occ1 a => Some (Shape1 (len1 a)) | Occ2 a => Some (Shape2 (rows a) (cols a)) | OccOther => None end.
(** The shape that belongs to a resolution: (g1, g2) in 2D, so (columns, rows). *)
Definition requested (res : resolution) (sh : shape) : Prop :=
  match sh with
  | Shape1 n => res_list res = [Z.of_nat n]
  | Shape2 r c => res_list res = [Z.of_nat c; Z.of_nat r]
  end.
(** numpy draws as many numbers as requested. *)
Definition sources_ok {G} (src : sources G) : Prop :=
  (forall p n g, length (fst (src_geometric src p n g)) = n /\ forall l, In l (fst (src_geometric src p n g)) -> (0 < l)%nat) /\
  (forall n g, length (fst (src_standard src n g)) = n) /\
  (forall n f g, length (fst (src_powerlaw src n f g)) = n).

(** Distortions that never do anything. *)
Definition silent_image {G} (src : sources G) (d : image_noise G) : Prop :=
  match d with
  | Pink sigma _ => forall g, fst (sigma g) = 0
  | White sigma => forall g, fst (sigma g) = 0
  | Telegraph ratio _ _ _ => forall g, fst (src_binomial src ratio g) = false
  end.
Definition silent_occ {G} (src : sources G) (d : occ_noise G) : Prop :=
  match d with
  | Blur _ sigma _ _ => forall g, fst (sigma g) <= 0
  | Jumps _ _ ratio _ _ => forall g, fst (src_binomial src ratio g) = false
  end.

(** The generator that contains all the given distortions. *)
Definition noisy_generator {G} (src : sources G) (gen : generator (noise_world G) lead_mask) (ds : list (occ_noise G))
  : generator (noise_world G) lead_mask :=
  fold_left (fun h d => with_noise h (occ_object src d)) ds gen.
(** A generator of undistorted data: it neither reads nor changes the distortion objects. *)
Definition undistorted {G} (gen : generator (noise_world G) lead_mask) : Prop :=
  forall l1 l2 res w, snd (gen l1 l2 res w) = w /\ forall w', fst (gen l1 l2 res w') = fst (gen l1 l2 res w).
(** Data that does not depend on the voltage of the second gate, and a 2D scan with constant columns. *)
Definition ignores_g2 {W} (gen : generator W lead_mask) : Prop :=
  forall l1 l2 l2' res w, gen l1 l2' res w = gen l1 l2 res w.
Definition constant_columns (a : arr2 (R * R)) : Prop :=
  forall i i' j, (i < rows a)%nat -> (i' < rows a)%nat -> (j < cols a)%nat -> cell a i j = cell a i' j.
(** Data sampled from functions of the voltage of the first gate: occupations [f], lead labels [h]. *)
Definition samples_g1 {W} (f : R -> R * R) (h : R -> nat) (gen : generator W lead_mask) : Prop :=
  (forall l1 l2 n w, exists a l, gen l1 l2 (ResInt (Z.of_nat n)) w = (Ok (Occ1 a, Lead1 l), w) /\ len1 a = n /\ length l = n /\
     forall i, (i < n)%nat -> cell1 a i = f (pixel_voltage l1 n i) /\ nth_error l i = Some (h (pixel_voltage l1 n i))) /\
  (forall l1 l2 c r w, exists a l, gen l1 l2 (ResArray [Z.of_nat c; Z.of_nat r]) w = (Ok (Occ2 a, Lead2 l), w) /\
     rows a = r /\ cols a = c /\ same_shape l a /\
     forall i j, (i < r)%nat -> (j < c)%nat -> cell a i j = f (pixel_voltage l1 c j) /\ cell l i j = h (pixel_voltage l1 c j)).
