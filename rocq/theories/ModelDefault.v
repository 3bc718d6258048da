(** The default configuration GaAs_v1, simcats/_default_configs.py:24-88, without its distortions. The ideal
    CSD of GaAs_v2_extended_sensor (lines 89-131) has the same parameters and voltage limits. *)
From Verif Require Import RPrelude Arr ModelSupport ModelTct ModelCsd ModelSensor ModelInstance ModelConfig.
Local Open Scope R_scope.

(** Lines 24-25 *)
Definition limits_g1 : R * R := (-0.2, -0.087).
Definition limits_g2 : R * R := (-0.2, -0.047).
(** Lines 26-54 *)
Definition default_tcts : list tct_params := [
  mk_tct 0.01075474 0.01549732 0.42465033 (-0.38038481) (-0.02750187) (-0.17179705) (-0.02674207) (-0.17171497);
  mk_tct 0.01075474 0.01549732 0.40341781 (-0.36136557) (-0.04171389) (-0.16351316) (-0.04012621) (-0.16343108);
  mk_tct 0.01075474 0.01549732 0.38324692 (-0.34329729) (-0.05592591) (-0.15564346) (-0.05351035) (-0.15556138);
  mk_tct 0.01075474 0.01549732 0.36408457 (-0.32613243) (-0.07013794) (-0.14816725) (-0.06689448) (-0.14808517);
  mk_tct 0.01075474 0.01549732 0.34588034 (-0.30982581) (-0.08434996) (-0.14106485) (-0.08027862) (-0.14098277);
  mk_tct 0.01075474 0.01549732 0.32858633 (-0.29433452) (-0.09856198) (-0.13431757) (-0.09366276) (-0.13423549);
  mk_tct 0.01075474 0.01549732 0.31215701 (-0.27961779) (-0.112774) (-0.12790766) (-0.1070469) (-0.12782558);
  mk_tct 0.01075474 0.01549732 0.20758441 (-0.18594583) (-0.12698603) (-0.12181824) (-0.12125892) (-0.12173616);
  mk_tct 0.01075474 0.01549732 0.13804363 (-0.12365398) (-0.14119805) (-0.11603329) (-0.13547094) (-0.11595121);
  mk_tct 0.01075474 0.01549732 0.09179902 (-0.0822299) (-0.15541007) (-0.11053759) (-0.14968296) (-0.1104555);
  mk_tct 0.01075474 0.01549732 0.06104635 (-0.05468288) (-0.16962209) (-0.10531667) (-0.16389499) (-0.10523459);
  mk_tct 0.01075474 0.01549732 0.04059582 (-0.03636412) (-0.18383412) (-0.1003568) (-0.17810701) (-0.10027472);
  mk_tct 0.01075474 0.01549732 0.02699622 (-0.02418214) (-0.19804614) (-0.09564492) (-0.19231903) (-0.09556284);
  mk_tct 0.01075474 0.01549732 0.01795249 (-0.01608112) (-0.21225816) (-0.09116864) (-0.20653105) (-0.09108656)].
(** Lines 55-58 *)
Definition default_csd : geometric := mk_geometric default_tcts (- (PI / 4)) (Some 1000%nat) Sigmoid None.
(** Lines 59-68 *)
Definition default_peaks : list lorentz :=
  [mk_lorentz (-0.12096) 0.00095 0.026245 (-0.253275); mk_lorentz (-0.11596) 0.001 0.027245 (-0.253275);
   mk_lorentz (-0.11096) 0.00105 0.028245 (-0.253275); mk_lorentz (-0.10596) 0.0011 0.029245 (-0.253275);
   mk_lorentz (-0.10096) 0.00115 0.030245 (-0.253275)].
Definition default_sensor_v1 : generic_sensor :=
  mk_generic (Some (map lorentz_peak default_peaks)) (-0.00044775, -0.0002922) (0.08949, 0.116395) (-0.0818745).
