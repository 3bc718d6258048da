(** Properties of the setters of Simulation. *)
From Verif Require Import RPrelude ModelSettings SpecSettings ProofsSettings.
Local Open Scope R_scope.

(** C47: a setter that raises leaves all properties and all objects as they were, and the value was
    not acceptable. *)
Theorem C47_failed_unchanged : forall f v h s e h' s',
  set_field f v h s = (Err e, (h', s')) -> h' = h /\ s' = s /\ ~ acceptable f (contents h v).
Proof. exact set_failed. Qed.
Print Assumptions C47_failed_unchanged.

(** C47: which exception is raised for a refused value. *)
Theorem C47_exceptions : forall f v h s e st,
  set_field f v h s = (Err e, st) -> e = refusal f (contents h v).
Proof. exact set_refusal. Qed.
Print Assumptions C47_exceptions.

(** C47: every acceptable value is accepted; nothing else is, except an empty array as list. *)
Theorem C47_accepts : forall f v h s,
  (exists h' s', set_field f v h s = (Ok tt, (h', s'))) <->
  acceptable f (contents h v) \/ (list_field f /\ contents h v = AnArray []).
Proof. exact set_accepts_iff. Qed.
Print Assumptions C47_accepts.

(** C47: an accepted value is read back from its property; it is stored in new cells, no existing
    object is changed and no other property. *)
Theorem C47_read_back : forall f v h s h' s',
  set_field f v h s = (Ok tt, (h', s')) ->
  exists e, h' = h ++ e /\ contents h' (get_field f s') = read_back f (contents h v) /\
  (forall a, reachable h' (get_field f s') a -> (length h <= a < length h')%nat) /\ forall g, g <> f -> get_field g s' = get_field g s.
Proof. exact set_read_back. Qed.
Print Assumptions C47_read_back.

(** C47: whatever a user creates, changes and sets, in any order: each property contains what the
    value of the last successful assignment contained at the time of the assignment. *)
Theorem C47_isolated : forall os st st',
  separated st -> run os st = Some st' -> separated st'.
Proof. exact run_separated. Qed.
Print Assumptions C47_isolated.

(** C47: a newly constructed simulation holds copies of its arguments. *)
Theorem C47_constructor : forall args h h' s',
  (forall f a, reachable h (args f) a -> (a < length h)%nat) ->
  construct args h = (Ok tt, (h', s')) ->
  (exists e, h' = h ++ e) /\
  forall f, contents h' (s' f) = read_back f (contents h (args f)) /\
            forall a, reachable h' (s' f) a -> (length h <= a < length h')%nat.
Proof. exact construct_ok. Qed.
Print Assumptions C47_constructor.
Theorem C47_constructor_accepts : forall args h,
  (forall f a, reachable h (args f) a -> (a < length h)%nat) ->
  (forall f, acceptable f (contents h (args f))) -> exists h' s', construct args h = (Ok tt, (h', s')).
Proof. exact construct_accepts. Qed.
Print Assumptions C47_constructor_accepts.
(** The exception of the constructor is that of the first wrong argument. *)
Theorem C47_constructor_refused args h e st : (forall f a, reachable h (args f) a -> (a < length h)%nat) -> construct args h = (Err e, st) ->
  exists before f after, arguments = (before ++ f :: after)%list /\ Forall (fun g => accepted g (contents h (args g))) before /\
    ~ accepted f (contents h (args f)) /\ e = refusal f (contents h (args f)).
Proof. exact (construct_refused args h e st). Qed.
Print Assumptions C47_constructor_refused.
Example C47_example_refused :
  let args f := match f with FLimitG1 => PRef 0 | FLimitG2 => PRef 1 | _ => PNone end in
  let args' f := match f with FLimitG1 => PRef 1 | FLimitG2 => PRef 0 | _ => PNone end in
  fst (construct args [CArray [1; 2; 3]; CList []]) = Err ValueError /\ fst (construct args' [CArray [1; 2; 3]; CList []]) = Err AttributeError.
Proof. split; reflexivity. Qed.

(** The limits are set to an array that is changed afterwards; then a wrong value is refused. *)
Example C47_example :
  let st0 := mk_state [] (fun _ => PNone) [] (fun _ => NoValue) in
  exists st, run [New (CArray [1; 2]); Set_ FLimitG1 (PRef 0); Write 0 (CArray [5; 6]); Set_ FLimitG1 (PNumber 3)] st0 = Some st /\
    separated st0 /\ contents (st_heap st) (st_sim st FLimitG1) = AnArray [1; 2] /\
    contents (st_heap st) (PRef 0) = AnArray [5; 6].
Proof.
  eexists. split; [reflexivity|]. split; [|split; reflexivity].
  constructor; cbn; try contradiction; [|reflexivity]. intros f a [E|(b & l & E & _)]; discriminate.
Qed.

(** C81: a plain list as limits always raises an AttributeError, although the check admits lists. *)
Theorem C81_list_limits_refuted : forall f v h s l,
  In f [FLimitG1; FLimitG2; FLimitS1; FLimitS2] -> lookup h v = Some (CList l) ->
  set_field f v h s = (Err AttributeError, (h, s)).
Proof. exact set_list_limits. Qed.
Print Assumptions C81_list_limits_refuted.
Example C81_example : fst (set_field FLimitG1 (PRef 0) [CList [PNumber 0; PNumber 1]] (fun _ => PNone)) = Err AttributeError.
Proof. reflexivity. Qed.
Example C47_example_exception : fst (set_field FLimitG1 (PRef 0) [CArray [1; 2; 3]] (fun _ => PNone)) = Err ValueError /\
  fst (set_field FOccupation (PNumber 3) [] (fun _ => PNone)) = Err TypeError.
Proof. split; reflexivity. Qed.
