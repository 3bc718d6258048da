(** Texts of python calls. *)
From Coq Require Import String Ascii.
From Verif Require Import RPrelude.
Local Open Scope string_scope.

(** The call of a class with keyword arguments, separated by commas and spaces. *)
Definition call (cls : string) (args : list (string * string)) : string :=
  cls ++ "(" ++ String.concat ", " (map (fun a => fst a ++ "=" ++ snd a) args) ++ ")".
Fixpoint without_spaces (s : string) : string :=
  match s with EmptyString => EmptyString | String c t => if Ascii.eqb c " " then without_spaces t else String c (without_spaces t) end.
(** A text without commas, like the text of a number. *)
Fixpoint plain (s : string) : Prop := match s with EmptyString => True | String c t => c <> ","%char /\ plain t end.
Fixpoint count (c : ascii) (s : string) : nat := match s with EmptyString => 0 | String d t => (if Ascii.eqb c d then 1 else 0) + count c t end.
Definition balanced (s : string) : Prop := count "("%char s = count ")"%char s.
(** Different numbers of the set D (the float64 numbers, say) have different texts without commas. *)
Definition faithful (D : R -> Prop) (show : R -> string) : Prop :=
  (forall x, D x -> plain (show x)) /\ forall x y, D x -> D y -> show x = show y -> x = y.

(** The parameters of the constructors. *)
Definition gauss_names := ["mu0"; "sigma"; "height"; "offset"].
Definition lorentz_names := ["mu0"; "gamma"; "height"; "offset"].
Definition rise_names := ["mu0"; "asymptote_left"; "asymptote_right"; "growth_rate"; "asymmetry"; "shape_factor"; "denominator_offset"; "fully_conductive_percentage"].
Definition barrier_names := ["pinch_off_percentage"; "fully_conductive_percentage"; "asymptote_left"; "asymptote_right"; "growth_rate"; "asymmetry"; "shape_factor"; "denominator_offset"; "offset"].
Definition sensor_names := ["sensor_peak_function"; "alpha_dot"; "alpha_gate"; "offset_mu_sens"].
Definition scan_sensor_names := ["barrier_functions"; "sensor_peak_function"; "alpha_sensor_gate"; "alpha_gate"; "alpha_dot"; "offset_mu_sens"; "final_rise"; "sensor_peak_deformations"].
Definition geometric_names := ["tct_params"; "rotation"; "lut_entries"; "cdf_type"; "cdf_gamma_factor"].
Definition simulation_names := ["volt_limits_g1"; "volt_limits_g2"; "volt_limits_sensor_g1"; "volt_limits_sensor_g2"; "ideal_csd_config"; "sensor";
  "occupation_distortions"; "sensor_potential_distortions"; "sensor_response_distortions"].
