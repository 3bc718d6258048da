(** The texts of sensor functions, sensors, geometric CSDs and simulations: __repr__.

    The text of a number is left open ([show], python's str), and so are the texts of arrays and of the contents of attributes: these are
    arguments of type [string]. [cls] is self.__class__.__name__. *)
From Coq Require Import String.
From Verif Require Import RPrelude.
Local Open Scope string_scope.

Section Numbers.
Variable show : R -> string.
(** _sensor_peak_gaussian.py:83-87 *)
Definition gauss_text (cls : string) (mu0 sigma height offset : R) : string :=
  cls ++ "(mu0=" ++ show mu0 ++ ", sigma=" ++ show sigma ++ ", height=" ++ show height ++ ", offset=" ++ show offset ++ ")".
(** _sensor_peak_lorentzian.py:82-86 *)
Definition lorentz_text (cls : string) (mu0 gamma height offset : R) : string :=
  cls ++ "(mu0=" ++ show mu0 ++ ", gamma=" ++ show gamma ++ ", height=" ++ show height ++ ", offset=" ++ show offset ++ ")".
(** _sensor_rise_glf.py:221-228 *)
Definition rise_text (cls : string) (mu0 asymptote_left asymptote_right growth_rate asymmetry shape_factor denominator_offset fully_conductive_percentage : R) : string :=
  cls ++ "(mu0=" ++ show mu0 ++ ", asymptote_left=" ++ show asymptote_left ++ ", asymptote_right=" ++ show asymptote_right ++ ", "
  ++ "growth_rate=" ++ show growth_rate ++ ", asymmetry=" ++ show asymmetry ++ ", shape_factor=" ++ show shape_factor ++ ", "
  ++ "denominator_offset=" ++ show denominator_offset ++ ", " ++ "fully_conductive_percentage=" ++ show fully_conductive_percentage ++ ")".
(** _barrier_function_glf.py:272-280 *)
Definition barrier_text (cls : string)
  (pinch_off_percentage fully_conductive_percentage asymptote_left asymptote_right growth_rate asymmetry shape_factor denominator_offset offset : R) : string :=
  cls ++ "(pinch_off_percentage=" ++ show pinch_off_percentage ++ ", " ++ "fully_conductive_percentage=" ++ show fully_conductive_percentage ++ ", "
  ++ "asymptote_left=" ++ show asymptote_left ++ ", asymptote_right=" ++ show asymptote_right ++ ", "
  ++ "growth_rate=" ++ show growth_rate ++ ", asymmetry=" ++ show asymmetry ++ ", shape_factor=" ++ show shape_factor ++ ", "
  ++ "denominator_offset=" ++ show denominator_offset ++ ", offset=" ++ show offset ++ ")".
(** _sensor_peak_deformation_circle.py:106-109, _sensor_peak_deformation_linear.py:74-77 *)
Definition circle_text (cls : string) (radius : R) : string := cls ++ "(radius=" ++ show radius ++ ")".
Definition linear_text (cls : string) (angle : R) : string := cls ++ "(angle=" ++ show angle ++ ")".
(** _barrier_function_multi_glf.py:153-157; the parameters are a tuple *)
Definition multi_text (cls : string) (pinch_off fully_conductive : R) (params : string) : string :=
  cls ++ "(pinch_off=" ++ show pinch_off ++ ", fully_conductive=" ++ show fully_conductive ++ ", *params=" ++ params.
End Numbers.

(** _sensor_generic.py:155-159 *)
Definition sensor_text (cls peak alpha_dot alpha_gate offset : string) : string :=
  cls ++ "(sensor_peak_function=" ++ peak ++ ", alpha_dot=" ++ alpha_dot ++ ", alpha_gate=" ++ alpha_gate ++ ", offset_mu_sens=" ++ offset ++ ")".
(** _sensor_scan_sensor_generic.py:383-390 *)
Definition scan_sensor_text (cls barriers peak alpha_sensor_gate alpha_gate alpha_dot offset rise deformations : string) : string :=
  cls ++ "(barrier_functions=" ++ barriers ++ ",sensor_peak_function=" ++ peak ++ ", "
  ++ "alpha_sensor_gate=" ++ alpha_sensor_gate ++ ", alpha_gate=" ++ alpha_gate ++ ", "
  ++ "alpha_dot=" ++ alpha_dot ++ ", offset_mu_sens=" ++ offset ++ ", "
  ++ "final_rise=" ++ rise ++ ", sensor_peak_deformations=" ++ deformations ++ ")".
(** _ideal_csd_geometric_class.py:154-158 *)
Definition geometric_text (cls tcts rotation lut cdf gamma : string) : string :=
  cls ++ "(tct_params=" ++ tcts ++ ", rotation=" ++ rotation ++ ", lut_entries=" ++ lut ++ ", cdf_type='" ++ cdf ++ "', cdf_gamma_factor=" ++ gamma ++ ")".
(** _simulation.py:838-842 *)
Definition simulation_text (cls g1 g2 sg1 sg2 csd sensor occ pot resp : string) : string :=
  cls ++ "(volt_limits_g1=" ++ g1 ++ ", volt_limits_g2=" ++ g2 ++ ", volt_limits_sensor_g1=" ++ sg1 ++ ", volt_limits_sensor_g2=" ++ sg2
  ++ ",ideal_csd_config=" ++ csd ++ ", sensor=" ++ sensor ++ ", occupation_distortions=" ++ occ ++ ", sensor_potential_distortions=" ++ pot
  ++ ", sensor_response_distortions=" ++ resp ++ ")".
