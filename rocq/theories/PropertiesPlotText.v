(** Property C161: the texts and calls of plots. *)
From Coq Require Import String.
From Flocq Require Import Core.
From Verif Require Import Prelude RPrelude Arr ModelPlot SpecPlot ModelPlotText SpecPlotText ProofsPlotText.
Local Open Scope R_scope.
Local Open Scope string_scope.

(** The image is that of C109. *)
Theorem C161_plot_2d csd l1 l2 title bar gl unit save sort nx ny g1 g2 :
  (2 <= rows csd)%nat -> (2 <= cols csd)%nat -> names gl g1 g2 -> (0 <= nx)%Z -> (0 <= ny)%Z ->
  let fig := plot_csd_2d (fun v => v) csd l1 l2 sort (Z.to_nat nx) (Z.to_nat ny) in
  exists cs, plot_csd (Data2 csd) l1 l2 title bar gl unit save sort nx ny = (cs, None) /\
    filter is_data cs = [Imshow (f2_image fig) (f2_aspect fig)] /\
    (exists t, filter is_xticks cs = [XTicks t] /\ true_ticks (cols csd) (axis sort l1) (Z.to_nat nx) t) /\
    (exists t, filter is_yticks cs = [YTicks t] /\ true_ticks (rows csd) (axis sort l2) (Z.to_nat ny) t) /\
    filter is_xlabel cs = [XLabel (g1 ++ " [" ++ unit ++ "]")] /\ filter is_ylabel cs = [YLabel (Some (g2 ++ " [" ++ unit ++ "]"))] /\
    finished title bar save cs.
Proof. exact (plot_2d csd l1 l2 title bar gl unit save sort nx ny g1 g2). Qed.
Print Assumptions C161_plot_2d.

(** The line is that of C110; the limits of gate 2 are turned together with those of gate 1. *)
Theorem C161_plot_1d csd l1 l2 title ylab gl unit save sort nx ny g1 g2 :
  (2 <= len1 csd)%nat -> names gl g1 g2 -> (0 <= nx)%Z -> (0 <= ny)%Z ->
  exists cs lo hi, plot_csd (Data1 csd) l1 l2 title ylab gl unit save sort nx ny = (cs, None) /\
    filter is_data cs = [PlotLine (f1_line (plot_csd_1d (fun v => v) csd l1 l2 sort (Z.to_nat nx)))] /\
    (exists t, filter is_xticks cs = [XTicks t] /\
       true_pairs (len1 csd) (axis sort l1) (if (sort && Rltb (snd l1) (fst l1))%bool then (snd l2, fst l2) else l2) (Z.to_nat nx) t) /\
    filter is_yticks cs = [YTicksAt (linspace lo hi (Z.to_nat ny))] /\
    (forall i, (i < len1 csd)%nat -> lo <= cell1 csd i <= hi) /\
    (exists i j, (i < len1 csd)%nat /\ (j < len1 csd)%nat /\ lo = cell1 csd i /\ hi = cell1 csd j) /\
    filter is_xlabel cs = [XLabel ("(" ++ g1 ++ ";" ++ g2 ++ ") [" ++ unit ++ "]")] /\ filter is_ylabel cs = [YLabel ylab] /\
    finished title None save cs.
Proof. exact (plot_1d csd l1 l2 title ylab gl unit save sort nx ny g1 g2). Qed.
Print Assumptions C161_plot_1d.

(** Exceptions: fewer than two names of gates, negative numbers of ticks, an empty line. Data with other numbers of
    dimensions raise no exception, and nothing is drawn. *)
Theorem C161_raises csd l1 l2 title sl gl unit save sort nx ny :
  snd (plot_csd csd l1 l2 title sl gl unit save sort nx ny) =
  match csd with
  | DataOther => None
  | Data2 _ => if too_few gl then Some IndexError else if (nx <? 0)%Z || (ny <? 0)%Z then Some ValueError else None
  | Data1 a => if too_few gl then Some IndexError else if (nx <? 0)%Z || (ny <? 0)%Z || (len1 a =? 0)%nat then Some ValueError else None
  end.
Proof. exact (plot_raises csd l1 l2 title sl gl unit save sort nx ny). Qed.
Print Assumptions C161_raises.
Theorem C161_silent csd l1 l2 title sl gl unit save sort nx ny e : snd (plot_csd csd l1 l2 title sl gl unit save sort nx ny) = Some e ->
  silent (fst (plot_csd csd l1 l2 title sl gl unit save sort nx ny)).
Proof. exact (plot_silent csd l1 l2 title sl gl unit save sort nx ny e). Qed.
Print Assumptions C161_silent.
Theorem C161_other_refuted l1 l2 title sl gl unit save sort nx ny : plot_csd DataOther l1 l2 title sl gl unit save sort nx ny = ([], None).
Proof. reflexivity. Qed.
Print Assumptions C161_other_refuted.

(** Ticks more than a thousandth apart have different texts. *)
Theorem C161_distinct_partial csd l1 l2 title bar gl unit save sort nx ny : (2 <= rows csd)%nat -> (2 <= cols csd)%nat -> (2 <= nx)%Z -> (2 <= ny)%Z ->
  forall cs, plot_csd (Data2 csd) l1 l2 title bar gl unit save sort nx ny = (cs, None) ->
  (forall t, In (XTicks t) cs -> 1 / 1000 < Rabs (snd l1 - fst l1) / (IZR nx - 1) -> NoDup (map snd t)) /\
  (forall t, In (YTicks t) cs -> 1 / 1000 < Rabs (snd l2 - fst l2) / (IZR ny - 1) -> NoDup (map snd t)).
Proof. exact (plot_2d_distinct csd l1 l2 title bar gl unit save sort nx ny). Qed.
Print Assumptions C161_distinct_partial.
(** A window of 1 mV with the default number of ticks: the first two texts agree. *)
Theorem C161_distinct_refuted csd : exists p q t,
  In (XTicks ((p, "0.000") :: (q, "0.000") :: t)) (fst (plot_csd (Data2 csd) (0, 1 / 1000) (0, 1) None None None "V" None true 5 5)).
Proof.
  do 3 eexists. unfold plot_csd. cbn [get_item nth_error bind]. rewrite calls_2d_figure by lia. cbn [fst app]. right. left. f_equal.
  unfold axis, ascending. cbn [fst snd]. rewrite Rmin_left, Rmax_right by lra. unfold linspace. change (Z.to_nat 5) with 5%nat. cbn [seq map combine].
  assert (E : forall x, 0 <= x < 1 / 2000 -> fmt3 x = "0.000").
  { intros x Hx. unfold fmt3. rewrite Rltb_false by lra. rewrite (Znearest_imp (fun n => negb (Z.even n)) (x * 1000) 0); [reflexivity|]. apply Rabs_lt. lra. }
  rewrite (E (0 + INR 0 * ((1 / 1000 - 0) / INR (5 - 1)))) by (cbn; lra). rewrite (E (0 + INR 1 * ((1 / 1000 - 0) / INR (5 - 1)))) by (cbn; lra). reflexivity.
Qed.
Print Assumptions C161_distinct_refuted.

(** A small negative voltage *)
Example C161_example : fmt3 (- (1 / 5000)) = "-0.000" /\ fmt3 (- (6 / 5)) = "-1.200" /\ shown "-1.200" = Some (true, 1200%N).
Proof.
  split; [|split; [|reflexivity]]; unfold fmt3; rewrite Rltb_true by lra.
  - rewrite (Znearest_imp (fun n => negb (Z.even n)) _ 0); [reflexivity|]. apply Rabs_lt. lra.
  - rewrite (Znearest_imp (fun n => negb (Z.even n)) _ (-1200)); [reflexivity|]. apply Rabs_lt. lra.
Qed.
Example C161_example_calls : exists cs, plot_csd (Data2 (mk_arr2 2 2 (fun _ _ => 0))) (0, 1) (0, 1) None None None "V" None true 5 5 = (cs, None) /\
  filter is_xlabel cs = [XLabel "g1 [V]"] /\ filter is_ylabel cs = [YLabel (Some "g2 [V]")] /\ filter is_save cs = [].
Proof.
  destruct (plot_2d (mk_arr2 2 2 (fun _ _ => 0)) (0, 1) (0, 1) None None None "V" None true 5 5 "g1" "g2") as (cs & E & _ & _ & _ & X & Y & _ & _ & Sv & _);
    [cbn; lia|cbn; lia|split; reflexivity|lia|lia|]. exists cs. auto.
Qed.
