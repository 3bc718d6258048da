(** Distortions whose parameters some distribution has, whatever is drawn for them. *)
From Verif Require Import RPrelude ModelNoise.
Local Open Scope R_scope.

Definition nonnegative {G} (p : param G) : Prop := forall g, 0 <= fst (p g).
Definition possible_image {G} (d : image_noise G) : Prop :=
  match d with
  | Pink sigma _ => nonnegative sigma
  | White sigma => nonnegative sigma
  | Telegraph ratio scale std _ => 0 <= ratio <= 1 /\ nonnegative scale /\ nonnegative std
  end.
Definition possible_occupation {G} (d : occ_noise G) : Prop :=
  match d with
  | Blur _ sigma _ _ => nonnegative sigma
  | Jumps _ _ ratio scale lam => 0 <= ratio <= 1 /\ nonnegative scale /\ nonnegative lam
  end.
