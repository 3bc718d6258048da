(** Resolutions that are integers, and resolutions with floats. *)
From Verif Require Import RPrelude ModelCsd ModelResolution.

Definition embed (res : resolution) : any_resolution :=
  match res with ResInt n => AnyInt n | ResArray l => AnySeq (map EInt l) end.
Definition is_float (e : entry) : Prop := exists x, e = EFloat x.
Definition entry_value (e : entry) : R := match e with EInt n => IZR n | EFloat x => x end.
