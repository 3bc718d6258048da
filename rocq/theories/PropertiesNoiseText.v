(** C150: the texts of distortions and samplers. *)
From Coq Require Import String Ascii.
From Verif Require Import RPrelude ModelNoiseText SpecText SpecNoiseText ProofsNoiseText.
Local Open Scope string_scope.

(** The texts of distortions name all parameters in their order, followed by the recorded value or the activation. *)
Theorem C150_noise_partial show cls :
  (forall s r, white_text cls s r = call cls (combine white_names [s; r])) /\
  (forall s l f r, pink_text show cls s l f r = call cls (combine pink_names [s ++ recorded show l; f; r])) /\
  (forall s l, blur_text show cls s l = call cls [("sigma", s ++ recorded show l)]) /\
  (forall s l a ra r act, jumps_text cls s l a ra r act = call cls (combine jumps_names [s; l; a; ra; r]) ++ activity act) /\
  (forall s d h ra r act, telegraph_text cls s d h ra r act = call cls (combine telegraph_names [s; d; h; ra; r]) ++ activity act).
Proof. exact (noise_described show cls). Qed.
Print Assumptions C150_noise_partial.

(** FINDING: so only the texts of white noise are calls with the parameters of the object; ... *)
Theorem C150_noise_refuted show cls :
  (forall s l f r, pink_text show cls s l f r <> call cls (combine pink_names [s; f; r])) /\
  (forall s l, blur_text show cls s l <> call cls [("sigma", s)]) /\
  (forall s l a ra r act cls' args, jumps_text cls s l a ra r act <> call cls' args) /\
  (forall s d h ra r act cls' args, telegraph_text cls s d h ra r act <> call cls' args).
Proof.
  split; [exact (pink_other show cls)|]. split; [exact (blur_other show cls)|].
  split; intros; [rewrite jumps_call|rewrite telegraph_call]; apply no_call.
Qed.
Print Assumptions C150_noise_refuted.

(** The texts of samplers show the last sample, the range from which they draw, and the other parameters; ... *)
Theorem C150_samplers_partial cls :
  (forall last range mean std rng, normal_text cls last range mean std rng = call cls (combine normal_shown [last; range; mean; std; rng])) /\
  (forall last range rng, uniform_text cls last range rng = call cls (combine uniform_shown [last; range; rng])) /\
  (forall last range mean sigma rng, lognormal_text cls last range mean sigma rng = call cls (combine lognormal_shown [last; range; mean; sigma; rng])) /\
  (forall last range scale rng, exponential_text cls last range scale rng = call cls (combine exponential_shown [last; range; scale; rng])).
Proof. exact (samplers_described cls). Qed.
Print Assumptions C150_samplers_partial.

(** FINDING: ... so they are not calls of their constructors, whose first parameter is the total range. *)
Theorem C150_samplers_refuted cls args : Forall (fun a => no_equals (fst a)) args -> (exists v l, args = ("total_range", v) :: l) ->
  (forall last range mean std rng, normal_text cls last range mean std rng <> call cls args) /\
  (forall last range rng, uniform_text cls last range rng <> call cls args) /\
  (forall last range mean sigma rng, lognormal_text cls last range mean sigma rng <> call cls args) /\
  (forall last range scale rng, exponential_text cls last range scale rng <> call cls args).
Proof. exact (samplers_refuted cls args). Qed.
Print Assumptions C150_samplers_refuted.

Example C150_noise_example : jumps_text "OccupationDotJumps" "100" "5" "0" "1" "Generator(PCG64)" None
  = "OccupationDotJumps(scale=100, lam=5, axis=0, ratio=1, rng=Generator(PCG64))[deactivated]".
Proof. reflexivity. Qed.
Example C150_noise_example_blur : blur_text (fun _ => "1.5") "OccupationTransitionBlurringGaussian" "1.5" (Some 1%R) = "OccupationTransitionBlurringGaussian(sigma=1.5[latest=1.5])"
  /\ blur_text (fun _ => "1.5") "OccupationTransitionBlurringGaussian" "1.5" None = "OccupationTransitionBlurringGaussian(sigma=1.5[latest=0])".
Proof. unfold blur_text, latest_text. rewrite Reqb_false by lra. split; reflexivity. Qed.
Example C150_samplers_example : Forall (fun a => no_equals (fst a)) (combine uniform_parameters ["(0, 1)"; "None"; "None"]).
Proof. repeat constructor; cbn; repeat split; discriminate. Qed.
