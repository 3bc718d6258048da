(** C150: the texts of objects. *)
From Coq Require Import String Ascii.
From Verif Require Import RPrelude ModelText SpecText ProofsText.
Local Open Scope string_scope.

(** The texts are the calls of the constructors, with all parameters in their order; up to missing spaces after two commas. *)
Theorem C150_calls show cls :
  (forall m s h o, gauss_text show cls m s h o = call cls (combine gauss_names (map show [m; s; h; o]))) /\
  (forall m g h o, lorentz_text show cls m g h o = call cls (combine lorentz_names (map show [m; g; h; o]))) /\
  (forall m a k b nu q c p, rise_text show cls m a k b nu q c p = call cls (combine rise_names (map show [m; a; k; b; nu; q; c; p]))) /\
  (forall pp fp a k b nu q c o, barrier_text show cls pp fp a k b nu q c o = call cls (combine barrier_names (map show [pp; fp; a; k; b; nu; q; c; o]))) /\
  (forall r, circle_text show cls r = call cls [("radius", show r)]) /\
  (forall a, linear_text show cls a = call cls [("angle", show a)]) /\
  (forall p d g o, sensor_text cls p d g o = call cls (combine sensor_names [p; d; g; o])) /\
  (forall t r l c g, geometric_text cls t r l c g = call cls (combine geometric_names [t; r; l; "'" ++ c ++ "'"; g])) /\
  (forall b p sg g d o r f, without_spaces (scan_sensor_text cls b p sg g d o r f) = without_spaces (call cls (combine scan_sensor_names [b; p; sg; g; d; o; r; f]))) /\
  (forall g1 g2 s1 s2 c s o p r, without_spaces (simulation_text cls g1 g2 s1 s2 c s o p r) = without_spaces (call cls (combine simulation_names [g1; g2; s1; s2; c; s; o; p; r]))).
Proof.
  exact (conj (gauss_call show cls) (conj (lorentz_call show cls) (conj (rise_call show cls) (conj (barrier_call show cls) (conj (circle_call show cls) (conj (linear_call show cls)
    (conj (sensor_call cls) (conj (geometric_call cls) (conj (scan_sensor_call cls) (simulation_call cls)))))))))).
Qed.
Print Assumptions C150_calls.

(** The text determines the parameters, if different numbers have different texts without commas, as float64 numbers have in python. *)
Theorem C150_distinct D show cls : faithful D show ->
  (forall m s h o m' s' h' o', Forall D [m; s; h; o] -> Forall D [m'; s'; h'; o'] -> gauss_text show cls m s h o = gauss_text show cls m' s' h' o' -> [m; s; h; o] = [m'; s'; h'; o']) /\
  (forall m g h o m' g' h' o', Forall D [m; g; h; o] -> Forall D [m'; g'; h'; o'] -> lorentz_text show cls m g h o = lorentz_text show cls m' g' h' o' -> [m; g; h; o] = [m'; g'; h'; o']) /\
  (forall m a k b nu q c p m' a' k' b' nu' q' c' p', Forall D [m; a; k; b; nu; q; c; p] -> Forall D [m'; a'; k'; b'; nu'; q'; c'; p'] ->
     rise_text show cls m a k b nu q c p = rise_text show cls m' a' k' b' nu' q' c' p' -> [m; a; k; b; nu; q; c; p] = [m'; a'; k'; b'; nu'; q'; c'; p']) /\
  (forall pp fp a k b nu q c o pp' fp' a' k' b' nu' q' c' o', Forall D [pp; fp; a; k; b; nu; q; c; o] -> Forall D [pp'; fp'; a'; k'; b'; nu'; q'; c'; o'] ->
     barrier_text show cls pp fp a k b nu q c o = barrier_text show cls pp' fp' a' k' b' nu' q' c' o' -> [pp; fp; a; k; b; nu; q; c; o] = [pp'; fp'; a'; k'; b'; nu'; q'; c'; o']) /\
  (forall r r', D r -> D r' -> circle_text show cls r = circle_text show cls r' -> r = r') /\
  (forall a a', D a -> D a' -> linear_text show cls a = linear_text show cls a' -> a = a').
Proof. exact (texts_distinct D show cls). Qed.
Print Assumptions C150_distinct.
(** Calls have as many closing as opening parentheses if the arguments have. *)
Theorem C150_balanced cls args : balanced cls -> Forall (fun a => balanced (fst a) /\ balanced (snd a)) args -> balanced (call cls args).
Proof. exact (call_balanced cls args). Qed.
Print Assumptions C150_balanced.

(** The text of a barrier function with several GLFs has not: its last parenthesis is missing. *)
Theorem C150_multi_refuted show cls p f params : balanced cls -> balanced (show p) -> balanced (show f) -> balanced params ->
  ~ balanced (multi_text show cls p f params) /\ ~ exists args, Forall (fun a => balanced (fst a) /\ balanced (snd a)) args /\ multi_text show cls p f params = call cls args.
Proof. exact (multi_no_call show cls p f params). Qed.
Print Assumptions C150_multi_refuted.
(** With it the text is that of a call. *)
Theorem C150_multi_closed show cls p f params :
  multi_text show cls p f params ++ ")" = call cls [("pinch_off", show p); ("fully_conductive", show f); ("*params", params)].
Proof. exact (multi_closed show cls p f params). Qed.
Print Assumptions C150_multi_closed.

Example C150_example : gauss_text (fun _ => "1.5") "SensorPeakGaussian" 1 2 3 4 = "SensorPeakGaussian(mu0=1.5, sigma=1.5, height=1.5, offset=1.5)".
Proof. reflexivity. Qed.
Example C150_example_multi : multi_text (fun _ => "1.5") "BarrierFunctionMultiGLF" 1 2 "(1.0, 2.0)" = "BarrierFunctionMultiGLF(pinch_off=1.5, fully_conductive=1.5, *params=(1.0, 2.0)".
Proof. reflexivity. Qed.
(** The hypothesis of C150_distinct is satisfied by two texts for two numbers. *)
Example C150_example_faithful : faithful (fun x => x = 0%R \/ x = 1%R) (fun x => if Reqb x 0 then "0.0" else "1.0").
Proof. exact two_texts. Qed.
