(** Proofs about texts. *)
From Coq Require Import String Ascii.
From Verif Require Import RPrelude ModelText SpecText.
Local Open Scope string_scope.

Lemma app_assoc_s a b c : (a ++ b) ++ c = a ++ (b ++ c).
Proof. induction a; cbn; [reflexivity|]. f_equal. assumption. Qed.
Lemma app_inv a b c : a ++ b = a ++ c -> b = c.
Proof. induction a; cbn; [auto|]. intros H. injection H. auto. Qed.
Lemma app_inv_tail a b c : a ++ String c EmptyString = b ++ String c EmptyString -> a = b.
Proof.
  revert b. induction a as [|x a IH]; intros [|y b]; cbn; intros H; try reflexivity.
  - injection H as _ H. destruct b; discriminate.
  - injection H as _ H. destruct a; discriminate.
  - injection H as -> H. f_equal. apply IH, H.
Qed.
Lemma plain_split a b r r' : plain a -> plain b -> a ++ String "," r = b ++ String "," r' -> a = b /\ r = r'.
Proof.
  revert b. induction a as [|x a IH]; intros [|y b] Pa Pb H; cbn in *.
  - injection H as ->. auto.
  - injection H as <- _. tauto.
  - injection H as -> _. tauto.
  - injection H as -> H. destruct (IH b (proj2 Pa) (proj2 Pb) H) as [-> ->]. auto.
Qed.
Lemma call_distinct cls names vs vs' : Datatypes.length vs = Datatypes.length names -> Datatypes.length vs' = Datatypes.length names -> Forall plain vs -> Forall plain vs' ->
  call cls (combine names vs) = call cls (combine names vs') -> vs = vs'.
Proof.
  unfold call. intros L L' P P' H. apply app_inv, app_inv in H. revert vs vs' L L' P P' H.
  induction names as [|n names IH]; intros [|v vs] [|v' vs'] L L' P P' H; try discriminate; [reflexivity|].
  apply Forall_cons_iff in P, P'. destruct P as [Pv P], P' as [Pv' P'].
  injection L as L. injection L' as L'.
  destruct names as [|m names].
  - destruct vs; [|discriminate]. destruct vs'; [|discriminate]. cbn in H. rewrite !app_assoc_s in H. apply app_inv in H. cbn in H. injection H as H.
    apply app_inv_tail in H. rewrite H. reflexivity.
  - destruct vs as [|w vs]; [discriminate|]. destruct vs' as [|w' vs']; [discriminate|].
    change (String.concat ", " (map _ (combine (n :: m :: names) (v :: w :: vs)))) with ((n ++ "=" ++ v) ++ ", " ++ String.concat ", " (map (fun a => fst a ++ "=" ++ snd a) (combine (m :: names) (w :: vs)))) in H.
    change (String.concat ", " (map _ (combine (n :: m :: names) (v' :: w' :: vs')))) with ((n ++ "=" ++ v') ++ ", " ++ String.concat ", " (map (fun a => fst a ++ "=" ++ snd a) (combine (m :: names) (w' :: vs')))) in H.
    rewrite !app_assoc_s in H. apply app_inv in H.
    set (r := String.concat _ (map _ (combine (m :: names) (w :: vs)))) in *. set (r' := String.concat _ (map _ (combine (m :: names) (w' :: vs')))) in *.
    cbn in H. injection H as H. destruct (plain_split _ _ _ _ Pv Pv' H) as [-> E]. injection E as E. f_equal. apply IH; assumption.
Qed.
Lemma map_show D (show : R -> string) l l' : faithful D show -> Forall D l -> Forall D l' -> map show l = map show l' -> l = l'.
Proof.
  intros [_ I] A. revert l'. induction A as [|x l Dx A IH]; intros l' B H; destruct B as [|y l' Dy B]; try discriminate; [reflexivity|]. injection H as H1 H2. f_equal; auto.
Qed.
Lemma show_plain D (show : R -> string) l : faithful D show -> Forall D l -> Forall plain (map show l).
Proof. intros [P _] A. induction A; constructor; auto. Qed.
Lemma numbers_distinct D show cls names l l' : faithful D show -> Forall D l -> Forall D l' -> Datatypes.length l = Datatypes.length names -> Datatypes.length l' = Datatypes.length names ->
  call cls (combine names (map show l)) = call cls (combine names (map show l')) -> l = l'.
Proof.
  intros F A B L L' H. apply (map_show D show); try assumption. apply (call_distinct cls names) in H; try assumption; [rewrite map_length; assumption|rewrite map_length; assumption|apply (show_plain D); assumption|apply (show_plain D); assumption].
Qed.
Ltac text := unfold call; cbn; repeat (rewrite !app_assoc_s; cbn); reflexivity.
Lemma gauss_call show cls a b c d : gauss_text show cls a b c d = call cls (combine gauss_names (map show [a; b; c; d])).
Proof. unfold gauss_text. text. Qed.
Lemma lorentz_call show cls a b c d : lorentz_text show cls a b c d = call cls (combine lorentz_names (map show [a; b; c; d])).
Proof. unfold lorentz_text. text. Qed.
Lemma rise_call show cls a b c d e f g h : rise_text show cls a b c d e f g h = call cls (combine rise_names (map show [a; b; c; d; e; f; g; h])).
Proof. unfold rise_text. text. Qed.
Lemma barrier_call show cls a b c d e f g h i : barrier_text show cls a b c d e f g h i = call cls (combine barrier_names (map show [a; b; c; d; e; f; g; h; i])).
Proof. unfold barrier_text. text. Qed.
Lemma circle_call show cls a : circle_text show cls a = call cls [("radius", show a)].
Proof. unfold circle_text. text. Qed.
Lemma linear_call show cls a : linear_text show cls a = call cls [("angle", show a)].
Proof. unfold linear_text. text. Qed.
Lemma sensor_call cls a b c d : sensor_text cls a b c d = call cls (combine sensor_names [a; b; c; d]).
Proof. unfold sensor_text. text. Qed.
Lemma geometric_call cls a b c d e : geometric_text cls a b c d e = call cls (combine geometric_names [a; b; c; "'" ++ d ++ "'"; e]).
Proof. unfold geometric_text. text. Qed.
Lemma spaces_app a b : without_spaces (a ++ b) = without_spaces a ++ without_spaces b.
Proof. induction a as [|x a IH]; cbn; [reflexivity|]. destruct (Ascii.eqb x " "); [exact IH|]. cbn. f_equal. exact IH. Qed.
Lemma scan_sensor_call cls a b c d e f g h :
  without_spaces (scan_sensor_text cls a b c d e f g h) = without_spaces (call cls (combine scan_sensor_names [a; b; c; d; e; f; g; h])).
Proof. unfold scan_sensor_text, call. cbn. repeat (rewrite !app_assoc_s; cbn). repeat (rewrite !spaces_app; cbn). reflexivity. Qed.
Lemma simulation_call cls a b c d e f g h i :
  without_spaces (simulation_text cls a b c d e f g h i) = without_spaces (call cls (combine simulation_names [a; b; c; d; e; f; g; h; i])).
Proof. unfold simulation_text, call. cbn. repeat (rewrite !app_assoc_s; cbn). repeat (rewrite !spaces_app; cbn). reflexivity. Qed.
Lemma count_app c a b : count c (a ++ b) = (count c a + count c b)%nat.
Proof. induction a; cbn; [reflexivity|]. rewrite IHa. lia. Qed.
Lemma multi_open show cls p f params : balanced cls -> balanced (show p) -> balanced (show f) -> balanced params -> ~ balanced (multi_text show cls p f params).
Proof. unfold balanced, multi_text. intros H1 H2 H3 H4. rewrite !count_app. cbn. lia. Qed.
Lemma call_balanced cls args : balanced cls -> Forall (fun a => balanced (fst a) /\ balanced (snd a)) args -> balanced (call cls args).
Proof.
  unfold balanced, call. intros C A. rewrite !count_app. cbn. rewrite C.
  assert (E : count "("%char (String.concat ", " (map (fun a => fst a ++ "=" ++ snd a) args)) = count ")"%char (String.concat ", " (map (fun a => fst a ++ "=" ++ snd a) args))).
  { induction A as [|[n v] args [Hn Hv] A IH]; [reflexivity|]. destruct args as [|b args].
    - cbn in *. rewrite !count_app. cbn. lia.
    - change (String.concat ", " (map _ ((n, v) :: b :: args))) with ((n ++ "=" ++ v) ++ ", " ++ String.concat ", " (map (fun a => fst a ++ "=" ++ snd a) (b :: args))).
      rewrite !count_app. cbn [count Ascii.eqb Bool.eqb]. cbn in Hn, Hv. rewrite IH, Hn, Hv. reflexivity. }
  cbn in E. rewrite E. lia.
Qed.
Lemma multi_no_call show cls p f params : balanced cls -> balanced (show p) -> balanced (show f) -> balanced params ->
  ~ balanced (multi_text show cls p f params) /\ ~ exists args, Forall (fun a => balanced (fst a) /\ balanced (snd a)) args /\ multi_text show cls p f params = call cls args.
Proof.
  intros H1 H2 H3 H4. pose proof (multi_open show cls p f params H1 H2 H3 H4) as M. split; [exact M|]. intros (args & A & E). apply M. rewrite E. apply call_balanced; assumption.
Qed.
Lemma texts_distinct D show cls : faithful D show ->
  (forall m s h o m' s' h' o', Forall D [m; s; h; o] -> Forall D [m'; s'; h'; o'] -> gauss_text show cls m s h o = gauss_text show cls m' s' h' o' -> [m; s; h; o] = [m'; s'; h'; o']) /\
  (forall m g h o m' g' h' o', Forall D [m; g; h; o] -> Forall D [m'; g'; h'; o'] -> lorentz_text show cls m g h o = lorentz_text show cls m' g' h' o' -> [m; g; h; o] = [m'; g'; h'; o']) /\
  (forall m a k b nu q c p m' a' k' b' nu' q' c' p', Forall D [m; a; k; b; nu; q; c; p] -> Forall D [m'; a'; k'; b'; nu'; q'; c'; p'] ->
     rise_text show cls m a k b nu q c p = rise_text show cls m' a' k' b' nu' q' c' p' -> [m; a; k; b; nu; q; c; p] = [m'; a'; k'; b'; nu'; q'; c'; p']) /\
  (forall pp fp a k b nu q c o pp' fp' a' k' b' nu' q' c' o', Forall D [pp; fp; a; k; b; nu; q; c; o] -> Forall D [pp'; fp'; a'; k'; b'; nu'; q'; c'; o'] ->
     barrier_text show cls pp fp a k b nu q c o = barrier_text show cls pp' fp' a' k' b' nu' q' c' o' -> [pp; fp; a; k; b; nu; q; c; o] = [pp'; fp'; a'; k'; b'; nu'; q'; c'; o']) /\
  (forall r r', D r -> D r' -> circle_text show cls r = circle_text show cls r' -> r = r') /\
  (forall a a', D a -> D a' -> linear_text show cls a = linear_text show cls a' -> a = a').
Proof.
  intros F. split; [|split; [|split; [|split; [|split]]]]; intros *; intros A B.
  - rewrite !gauss_call. apply (numbers_distinct D show cls gauss_names); auto.
  - rewrite !lorentz_call. apply (numbers_distinct D show cls lorentz_names); auto.
  - rewrite !rise_call. apply (numbers_distinct D show cls rise_names); auto.
  - rewrite !barrier_call. apply (numbers_distinct D show cls barrier_names); auto.
  - rewrite !circle_call. intros H. pose proof (numbers_distinct D show cls ["radius"] [r] [r'] F ltac:(auto) ltac:(auto) eq_refl eq_refl H) as E. injection E. auto.
  - rewrite !linear_call. intros H. pose proof (numbers_distinct D show cls ["angle"] [a] [a'] F ltac:(auto) ltac:(auto) eq_refl eq_refl H) as E. injection E. auto.
Qed.
Lemma two_texts : faithful (fun x => x = 0%R \/ x = 1%R) (fun x => if Reqb x 0 then "0.0" else "1.0").
Proof.
  split.
  - intros x _. destruct (Reqb x 0); cbn; repeat (split; [discriminate|]); exact I.
  - intros x y [-> | ->] [-> | ->]; rewrite ?(Reqb_true 0 0 eq_refl), ?(Reqb_false 1 0) by lra; intros H; try reflexivity; discriminate.
Qed.
Lemma multi_closed show cls p f params :
  multi_text show cls p f params ++ ")" = call cls [("pinch_off", show p); ("fully_conductive", show f); ("*params", params)].
Proof. unfold multi_text, call. cbn. repeat (rewrite !app_assoc_s; cbn). reflexivity. Qed.
