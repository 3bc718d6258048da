(** A sampled sensor with a visible peak. *)
From Verif Require Import RPrelude Arr ModelSupport ModelSampling ModelSensor ModelSimulation ModelConfig ModelSampledSim SpecSampling SpecSensor SpecConfig
  ProofsConfig ExamplesConfig.
Local Open Scope R_scope.

Lemma peaks_prefix n h base ps g ps' g' : add_scan_peaks middle 1 n h base ps g = (Ok ps', g') -> scan_peaks_ok base ps -> exists t, ps' = (ps ++ t)%list.
Proof.
  revert ps g. induction n as [|n IH]; intros ps g E K; cbn [add_scan_peaks] in E.
  - apply ret_inv in E. destruct E as [<- _]. exists []. rewrite app_nil_r. reflexivity.
  - apply bind_ok in E. destruct E as (ps1 & g1 & E1 & E). destruct (add_scan_peak_inv middle 1 middle_ok _ _ _ _ _ _ E1 K) as (q & -> & K').
    destruct (IH _ _ E K') as (t & ->). exists (q :: t). rewrite <- app_assoc. reflexivity.
Qed.
Lemma first_height h base g ps' g' n : 0 < h -> add_scan_peaks middle 1 (S n) h base [] g = (Ok ps', g') -> exists pk, In pk ps' /\ lz_height pk = h.
Proof.
  intros Hh E. cbn [add_scan_peaks] in E. destruct g. apply bind_ok in E. destruct E as (ps1 & g1 & E1 & E). pose proof E1 as E2.
  unfold add_scan_peak in E1. apply bind_ok in E1. destruct E1 as ([m gam] & g2 & _ & E1). destruct g2.
  rewrite (bind_go _ _ _ _ _ (middle_above (- h) _ 0 ltac:(lra))) in E1. apply bind_ok in E1. destruct E1 as (pk & g3 & Ep & E1).
  apply ret_inv in E1. destruct E1 as [<- _]. destruct (add_scan_peak_inv middle 1 middle_ok _ _ _ _ _ _ E2 (no_peaks base)) as (q & Eq & K).
  destruct (peaks_prefix _ _ _ _ _ _ _ E K) as (t & ->). exists pk. split; [left; reflexivity|].
  unfold lift, new_lorentz, raise_if in Ep. destruct (Rleb gam 0); [discriminate|]. apply (f_equal fst) in Ep. cbn in Ep. injection Ep as <-. cbn. lra.
Qed.
Lemma middle_visible q compensated : 0 < q <= 1 -> exists p s pk, sample_scan_sensor middle 1 q compensated tt = (Ok p, tt) /\ sensor_of p = Ok s /\
  In pk (sp_peaks p) /\ 0 < lz_height pk.
Proof.
  intros Q. destruct (run_scan q compensated Q) as (p & H). exists p. assert (Made : exists s, sensor_of p = Ok s) by (eexists; reflexivity). destruct Made as [s Made].
  exists s. pose proof H as H'. unfold sample_scan_sensor in H.
  do 4 (apply bind_ok in H; destruct H as (? & ? & _ & H)). apply bind_ok in H. destruct H as ([gates dots] & g5 & H5 & H).
  do 2 (apply bind_ok in H; destruct H as (? & ? & _ & H)). apply bind_ok in H. destruct H as ([ps rise] & g8 & H8 & H).
  do 2 (apply bind_ok in H; destruct H as ([? ?] & ? & _ & H)). apply ret_inv in H. destruct H as [<- _]. cbn [sp_peaks].
  match type of H8 with sample_sensor_function middle 1 ?o q ?g = _ => set (off := o) in H8; destruct g end.
  unfold sample_sensor_function in H8.
  rewrite (bind_go _ _ _ _ _ (middle_normal 0.04804196857755959 (0.07543071921134054 * q) 0 1 ltac:(lra))) in H8.
  apply bind_ok in H8. destruct H8 as (xx & gg & H9 & H8). apply (sample_uniform_range middle 1 middle_ok) in H9.
  apply bind_ok in H8. destruct H8 as (ps1 & gh & H10 & H8).
  do 3 (apply bind_ok in H8; destruct H8 as (? & ? & _ & H8)). apply ret_inv in H8. destruct H8 as [H8 _]. apply pair_equal_spec in H8. destruct H8 as [-> _].
  apply (int_part_range xx 20 30) in H9. destruct (Z.to_nat (Int_part xx)) as [|n] eqn:En; [lia|].
  destruct (first_height (0.07543071921134054 * q) _ _ _ _ _ ltac:(lra) H10) as (pk & I & Eh). exists pk. repeat split; auto. rewrite Eh. lra.
Qed.
