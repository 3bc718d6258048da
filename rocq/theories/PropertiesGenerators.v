(** Property theorems about the random generators of simulations. *)
From Verif Require Import RPrelude ModelGenerators SpecGenerators ExamplesGenerators ProofsGenerators.

(** C153: making a simulation changes no generator that exists, and measuring with it changes no generator but those made for it. *)
Theorem C153_callers {G D X V} (draw : D -> G -> X * G) (to_potential to_response : V -> V) a (h : @generators G) s h1 : exist a h -> new_simulation a h = (s, h1) ->
  (forall r, (r < next h)%nat -> gen h1 r = gen h r) /\
  forall xs g r, (r < next h \/ next h1 <= r)%nat -> snd (measures draw to_potential to_response s xs g) r = g r.
Proof.
  intros E N. split; [exact (proj1 (proj2 (simulation_built a h s h1 E N)))|].
  intros xs g r L. exact (simulation_frame draw to_potential to_response a h s h1 xs g r E N L).
Qed.
Print Assumptions C153_callers.

(** What a simulation measures depends on no generator but those made for it: its distortions draw from the states that the generators
    had at construction, and every list has a set of its own. *)
Theorem C153_apart {G D X V} (draw : D -> G -> X * G) (to_potential to_response : V -> V) a (h : @generators G) s h1 g xs : exist a h -> new_simulation a h = (s, h1) ->
  (forall r, (next h <= r < next h1)%nat -> g r = gen h1 r) ->
  fst (measures draw to_potential to_response s xs g) = measures_apart draw to_potential to_response a xs (gen h) (gen h) (gen h).
Proof. exact (simulation_apart draw to_potential to_response a h s h1 g xs). Qed.
Print Assumptions C153_apart.

(** If the three lists have no generator in common, then the simulation measures what the passed distortions would have given. *)
Theorem C153_in_turn_partial {G D X V} (draw : D -> G -> X * G) (to_potential to_response : V -> V) a (h : @generators G) s h1 xs : exist a h -> new_simulation a h = (s, h1) ->
  separate (occupation_noise a) (potential_noise a) -> separate (occupation_noise a) (response_noise a) -> separate (potential_noise a) (response_noise a) ->
  fst (measures draw to_potential to_response s xs (gen h1)) = fst (measures draw to_potential to_response a xs (gen h)).
Proof.
  intros E N S1 S2 S3. rewrite (separate_apart draw to_potential to_response a (gen h) xs S1 S2 S3).
  exact (simulation_apart draw to_potential to_response a h s h1 (gen h1) xs E N (fun r _ => eq_refl)).
Qed.
Print Assumptions C153_in_turn_partial.

(** FINDING: with a generator in two of the lists it does not: both lists get the same numbers. *)
Theorem C153_in_turn_refuted : exists a (h h1 : @generators nat) (s : @simulation unit nat (list nat)) xs, exist a h /\ new_simulation a h = (s, h1) /\
  fst (measures count (fun v => v) (fun v => v) s xs (gen h1)) = [([], [10], [10; 10])]%nat /\
  fst (measures count (fun v => v) (fun v => v) a xs (gen h)) = [([], [10], [10; 11])]%nat.
Proof. exact one_generator_twice. Qed.
Print Assumptions C153_in_turn_refuted.

(** FINDING: two simulations made one after the other from the same distortions have the same noise, whatever is measured with the first one
    before the second one is made and before the second one is used. *)
Theorem C153_same_refuted {G D X V} (draw : D -> G -> X * G) (to_potential to_response : V -> V) a (h : @generators G) s1 h1 s2 h2 xs ys zs :
  exist a h -> new_simulation a h = (s1, h1) ->
  new_simulation a (mk_generators (next h1) (snd (measures draw to_potential to_response s1 ys (gen h1)))) = (s2, h2) ->
  fst (measures draw to_potential to_response s2 xs (snd (measures draw to_potential to_response s1 zs (gen h2)))) =
  fst (measures draw to_potential to_response s1 xs (gen h1)).
Proof. exact (second_same draw to_potential to_response a h s1 h1 s2 h2 xs ys zs). Qed.
Print Assumptions C153_same_refuted.

(** Drawing with the passed distortions in between gives the second simulation other noise; here the first two numbers are used up. *)
Example C153_example_after_use :
  let '(s1, h1) := new_simulation own_generators three_generators in
  let '(s2, h2) := new_simulation own_generators (mk_generators (next h1) (snd (run_all count (potential_noise own_generators) [] (gen h1)))) in
  fst (measures count (fun v => v) (fun v => v) s1 [[]] (gen h2)) = [([], [10; 11], [10; 11; 30])]%nat /\
  fst (measures count (fun v => v) (fun v => v) s2 [[]] (gen h2)) = [([], [12; 13], [12; 13; 30])]%nat.
Proof. vm_compute. auto. Qed.
(** The two distortions of one list that share a generator draw in turn, also in later measurements. *)
Example C153_example_list :
  let '(s1, h1) := new_simulation own_generators three_generators in
  fst (measures count (fun v => v) (fun v => v) s1 [[]; [7]] (gen h1)) = [([], [10; 11], [10; 11; 30]); ([7], [7; 12; 13], [7; 12; 13; 31])]%nat.
Proof. vm_compute. auto. Qed.
Example C153_example_same :
  let '(s1, h1) := new_simulation own_generators three_generators in
  let '(s2, h2) := new_simulation own_generators h1 in
  fst (measures count (fun v => v) (fun v => v) s1 [[]] (gen h2)) = fst (measures count (fun v => v) (fun v => v) s2 [[]] (gen h2)).
Proof. vm_compute. reflexivity. Qed.
