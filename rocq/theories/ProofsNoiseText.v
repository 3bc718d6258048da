(** Proofs about the texts of distortions and samplers. *)
From Coq Require Import String Ascii.
From Verif Require Import RPrelude ModelNoiseText SpecText SpecNoiseText ProofsText.
Local Open Scope string_scope.

Ltac text := unfold call; cbn; repeat (rewrite app_assoc_s || cbn); reflexivity.
Lemma white_call cls s r : white_text cls s r = call cls (combine white_names [s; r]).
Proof. unfold white_text. text. Qed.
Lemma pink_call show cls s l f r : pink_text show cls s l f r = call cls (combine pink_names [s ++ latest_text show l; f; r]).
Proof. unfold pink_text. generalize (latest_text show l). intros t. text. Qed.
Lemma blur_call show cls s l : blur_text show cls s l = call cls [("sigma", s ++ latest_text show l)].
Proof. unfold blur_text. generalize (latest_text show l). intros t. text. Qed.
Lemma jumps_call cls s l a ra r act : jumps_text cls s l a ra r act = call cls (combine jumps_names [s; l; a; ra; r]) ++ activated_text act.
Proof. unfold jumps_text. generalize (activated_text act). intros t. text. Qed.
Lemma telegraph_call cls s d h ra r act : telegraph_text cls s d h ra r act = call cls (combine telegraph_names [s; d; h; ra; r]) ++ activated_text act.
Proof. unfold telegraph_text. generalize (activated_text act). intros t. text. Qed.

Lemma latest_recorded show l : latest_text show l = recorded show l.
Proof. destruct l as [x|]; [|reflexivity]. unfold latest_text, recorded. destruct (Reqb_spec x 0), (Req_EM_T x 0); try contradiction; reflexivity. Qed.
Lemma activated_activity act : activated_text act = activity act.
Proof. destruct act as [[|]|]; reflexivity. Qed.
Lemma noise_described show cls :
  (forall s r, white_text cls s r = call cls (combine white_names [s; r])) /\
  (forall s l f r, pink_text show cls s l f r = call cls (combine pink_names [s ++ recorded show l; f; r])) /\
  (forall s l, blur_text show cls s l = call cls [("sigma", s ++ recorded show l)]) /\
  (forall s l a ra r act, jumps_text cls s l a ra r act = call cls (combine jumps_names [s; l; a; ra; r]) ++ activity act) /\
  (forall s d h ra r act, telegraph_text cls s d h ra r act = call cls (combine telegraph_names [s; d; h; ra; r]) ++ activity act).
Proof.
  split; [exact (white_call cls)|]. split; [intros; rewrite <- latest_recorded; apply pink_call|]. split; [intros; rewrite <- latest_recorded; apply blur_call|].
  split; intros; rewrite <- activated_activity; [apply jumps_call|apply telegraph_call].
Qed.
Lemma samplers_described cls :
  (forall last range mean std rng, normal_text cls last range mean std rng = call cls (combine normal_shown [last; range; mean; std; rng])) /\
  (forall last range rng, uniform_text cls last range rng = call cls (combine uniform_shown [last; range; rng])) /\
  (forall last range mean sigma rng, lognormal_text cls last range mean sigma rng = call cls (combine lognormal_shown [last; range; mean; sigma; rng])) /\
  (forall last range scale rng, exponential_text cls last range scale rng = call cls (combine exponential_shown [last; range; scale; rng])).
Proof.
  unfold normal_text, uniform_text, lognormal_text, exponential_text. repeat split; intros; text.
Qed.

Lemma ends_app c a b : ends_with c b -> ends_with c (a ++ b).
Proof. intros H. induction a as [|d a IH]; [exact H|]. cbn. destruct (a ++ b); [destruct IH|exact IH]. Qed.
Lemma ends_unique c d s : ends_with c s -> ends_with d s -> c = d.
Proof. induction s as [|x s IH]; [intros []|]. cbn. destruct s; [congruence|exact IH]. Qed.
Lemma call_ends cls args : ends_with ")" (call cls args).
Proof. unfold call. do 3 apply ends_app. reflexivity. Qed.
Lemma activated_ends s act : ends_with "]" (s ++ activated_text act).
Proof. apply ends_app. destruct act as [[|]|]; reflexivity. Qed.
Lemma no_call s cls args act : s ++ activated_text act <> call cls args.
Proof. intros E. pose proof (activated_ends s act) as A. rewrite E in A. discriminate (ends_unique _ _ _ A (call_ends cls args)). Qed.

Fixpoint long (s : string) : nat := match s with EmptyString => 0 | String _ t => S (long t) end.
Lemma long_app a b : long (a ++ b) = (long a + long b)%nat.
Proof. induction a as [|c a IH]; [reflexivity|]. cbn. rewrite IH. reflexivity. Qed.
Lemma latest_long show l : (0 < long (latest_text show l))%nat.
Proof. destruct l as [x|]; cbn; [destruct (Reqb x 0)|]; cbn; lia. Qed.
Lemma pink_other show cls s l f r : pink_text show cls s l f r <> call cls (combine pink_names [s; f; r]).
Proof.
  rewrite pink_call. intros E. apply (f_equal long) in E. pose proof (latest_long show l) as L. revert E L. generalize (latest_text show l). intros t E L.
  unfold call in E. cbn in E. repeat (rewrite long_app in E || cbn in E). lia.
Qed.
Lemma blur_other show cls s l : blur_text show cls s l <> call cls [("sigma", s)].
Proof.
  rewrite blur_call. intros E. apply (f_equal long) in E. pose proof (latest_long show l) as L. revert E L. generalize (latest_text show l). intros t E L.
  unfold call in E. cbn in E. repeat (rewrite long_app in E || cbn in E). lia.
Qed.

Lemma name_split a b r r' : no_equals a -> no_equals b -> a ++ String "=" r = b ++ String "=" r' -> a = b.
Proof.
  revert b. induction a as [|c a IH]; intros [|d b] Ha Hb E; cbn in *; [reflexivity| | |].
  - injection E as E _. destruct Hb as [Hb _]. congruence.
  - injection E as E _. destruct Ha as [Ha _]. congruence.
  - injection E as E E'. subst d. f_equal. apply (IH b); [apply Ha|apply Hb|exact E'].
Qed.
(** a call starts with the name of its first argument *)
Lemma first_argument cls t name value args rest : no_equals name -> no_equals t -> call cls ((name, value) :: args) = cls ++ "(" ++ t ++ "=" ++ rest -> name = t.
Proof.
  intros Hn Ht E. unfold call in E. apply app_inv in E. injection E as E.
  assert (X : exists r, (String.concat ", " (map (fun a : string * string => fst a ++ "=" ++ snd a) ((name, value) :: args)) ++ ")") = name ++ String "=" r).
  { cbn [map fst snd]. destruct args as [|[n v] args]; cbn [String.concat map].
    - exists (value ++ ")"). rewrite !app_assoc_s. reflexivity.
    - eexists. rewrite !app_assoc_s. cbn [append]. reflexivity. }
  destruct X as [q X]. apply (name_split _ _ q rest Hn Ht). rewrite <- X. exact E.
Qed.
Lemma sampler_no_call cls rest args : Forall (fun a => no_equals (fst a)) args -> (forall a, hd_error args = Some a -> fst a <> "last_sample") -> args <> [] ->
  cls ++ "(last_sample=" ++ rest <> call cls args.
Proof.
  intros F H N E. destruct args as [|[name value] args]; [congruence|]. apply (H (name, value) eq_refl). cbn.
  apply (first_argument cls "last_sample" name value args rest); [inversion F; assumption|cbn; repeat split; discriminate|symmetry; exact E].
Qed.
Lemma samplers_refuted cls args : Forall (fun a => no_equals (fst a)) args -> (exists v l, args = ("total_range", v) :: l) ->
  (forall last range mean std rng, normal_text cls last range mean std rng <> call cls args) /\
  (forall last range rng, uniform_text cls last range rng <> call cls args) /\
  (forall last range mean sigma rng, lognormal_text cls last range mean sigma rng <> call cls args) /\
  (forall last range scale rng, exponential_text cls last range scale rng <> call cls args).
Proof.
  intros F (v & l & ->). repeat split; intros; apply sampler_no_call; try exact F; try discriminate; intros a E; injection E as <-; discriminate.
Qed.
