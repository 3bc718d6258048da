(** Proofs about the texts of plots. *)
From Coq Require Import NArith Nnat String Ascii DecimalString DecimalN DecimalFacts.
From Flocq Require Import Core.
From Verif Require Import Prelude RPrelude Arr ModelPlot SpecPlot ProofsPlot ModelPlotText SpecPlotText.
Local Open Scope R_scope.
Local Open Scope string_scope.

Lemma before_uint d t : before_point (NilEmpty.string_of_uint d ++ "." ++ t) = NilEmpty.string_of_uint d.
Proof. induction d; cbn in *; [reflexivity|..]; f_equal; assumption. Qed.
Lemma after_uint d t : after_point (NilEmpty.string_of_uint d ++ "." ++ t) = t.
Proof. induction d; cbn in *; auto. Qed.
Lemma before_decimal k t : before_point (decimal k ++ "." ++ t) = decimal k.
Proof. unfold decimal, NilZero.string_of_uint. destruct (N.to_uint k) eqn:E; [reflexivity|..]; rewrite before_uint; reflexivity. Qed.
Lemma after_decimal k t : after_point (decimal k ++ "." ++ t) = t.
Proof. unfold decimal, NilZero.string_of_uint. destruct (N.to_uint k) eqn:E; [reflexivity|..]; rewrite after_uint; reflexivity. Qed.
Lemma shown_decimal k t : shown (decimal k ++ t) = option_map (pair false) (unsigned (decimal k ++ t)).
Proof. unfold decimal, NilZero.string_of_uint. destruct (N.to_uint k) eqn:E; reflexivity. Qed.
Lemma read_decimal k : exists u, NilZero.uint_of_string (decimal k) = Some u /\ N.of_uint u = k.
Proof.
  exists (N.to_uint k). split; [|apply DecimalN.Unsigned.of_to]. apply NilZero.usu.
  intros E. pose proof (DecimalN.Unsigned.of_to k) as F. rewrite E in F. cbn in F. subst k. discriminate E.
Qed.
Lemma digits_split n : digit (n / 100) ++ digit (n / 10) ++ digit n =
  digit (n mod 1000 / 100) ++ digit (n mod 1000 / 10) ++ digit (n mod 1000).
Proof.
  pose proof (N.div_mod n 1000 ltac:(lia)) as E. set (k := (n / 1000)%N) in *. set (m := (n mod 1000)%N) in *.
  assert (D : forall a b c, (a = b + 10 * c)%N -> digit a = digit b).
  { intros a b c ->. unfold digit. rewrite N.mul_comm, N.mod_add by lia. reflexivity. }
  rewrite (D (n / 100)%N (m / 100)%N k), (D (n / 10)%N (m / 10)%N (10 * k)%N), (D n m (100 * k)%N); [reflexivity|lia|..].
  - rewrite E. replace (1000 * k + m)%N with (m + (100 * k) * 10)%N by lia. rewrite N.div_add by lia. lia.
  - rewrite E. replace (1000 * k + m)%N with (m + (10 * k) * 100)%N by lia. rewrite N.div_add by lia. lia.
Qed.
Definition reads_back (m : N) : bool :=
  match NilZero.uint_of_string (digit (m / 100) ++ digit (m / 10) ++ digit m) with Some f => (N.of_uint f =? m)%N | None => false end.
Lemma read_digits m : (m < 1000)%N -> exists f, NilZero.uint_of_string (digit (m / 100) ++ digit (m / 10) ++ digit m) = Some f /\ N.of_uint f = m.
Proof.
  intros H. assert (A : forallb (fun i => reads_back (N.of_nat i)) (seq 0 1000) = true) by (vm_compute; reflexivity).
  rewrite forallb_forall in A. specialize (A (N.to_nat m)). rewrite N2Nat.id in A. unfold reads_back in A.
  destruct (NilZero.uint_of_string _) as [f|]. 2: { discriminate A. apply in_seq. lia. }
  exists f. split; [reflexivity|]. apply N.eqb_eq, A, in_seq. lia.
Qed.
Lemma unsigned_text n : unsigned (decimal (n / 1000) ++ "." ++ digit (n / 100) ++ digit (n / 10) ++ digit n) = Some n.
Proof.
  unfold unsigned. rewrite before_decimal, after_decimal, digits_split.
  destruct (read_decimal (n / 1000)) as (u & -> & Eu). destruct (read_digits (n mod 1000)) as (f & -> & Ef); [apply N.mod_lt; lia|].
  change (_ =? 3)%nat with true. cbv iota. rewrite Eu, Ef. f_equal. pose proof (N.div_mod n 1000 ltac:(lia)). lia.
Qed.
Lemma fmt3_shown x : shown (fmt3 x) = Some (Rltb x 0, Z.abs_N (ZnearestE (x * 1000))).
Proof.
  unfold fmt3. destruct (Rltb x 0).
  - change (option_map (pair true) (unsigned (decimal (Z.abs_N (ZnearestE (x * 1000)) / 1000) ++ "." ++ digit (Z.abs_N (ZnearestE (x * 1000)) / 100)
      ++ digit (Z.abs_N (ZnearestE (x * 1000)) / 10) ++ digit (Z.abs_N (ZnearestE (x * 1000))))) = Some (true, Z.abs_N (ZnearestE (x * 1000)))).
    rewrite unsigned_text. reflexivity.
  - cbn [append]. rewrite shown_decimal, unsigned_text. reflexivity.
Qed.
Lemma fmt3_text x : text_of (fmt3 x) x.
Proof.
  exists (Z.abs_N (ZnearestE (x * 1000))). split; [apply fmt3_shown|].
  rewrite N2Z.inj_abs_N, abs_IZR. pose proof (Znearest_half (fun n => negb (Z.even n)) (x * 1000)) as H. set (z := IZR (ZnearestE (x * 1000))) in *.
  pose proof (Rabs_triang_inv2 x (z / 1000)) as T. replace (Rabs z / 1000) with (Rabs (z / 1000)).
  - eapply Rle_trans; [exact T|]. replace (x - z / 1000) with ((x * 1000 - z) / 1000) by field. unfold Rdiv. rewrite Rabs_mult, (Rabs_pos_eq (/ 1000)) by lra. lra.
  - unfold Rdiv. rewrite Rabs_mult, (Rabs_pos_eq (/ 1000)) by lra. reflexivity.
Qed.
(** The same text is given to close voltages only. *)
Lemma text_close s x y : text_of s x -> text_of s y -> Rabs (x - y) <= 1 / 1000.
Proof.
  intros (n & E & H) (m & F & K). rewrite E in F. injection F as Es En. subst m. apply Rabs_le_inv in H, K. apply Rabs_le.
  destruct (Rltb_spec x 0) as [Hx|Hx], (Rltb_spec y 0) as [Hy|Hy]; try discriminate Es.
  - rewrite !Rabs_left in * by lra. lra.
  - rewrite !Rabs_right in * by lra. lra.
Qed.

Lemma calls_all l : calls (map Ok l) = (l, None).
Proof. induction l as [|c l IH]; [reflexivity|]. cbn [map calls]. rewrite IH. reflexivity. Qed.
Lemma combine_map_r {X Y Z} (f : Y -> Z) (l : list X) k : combine l (map f k) = map (fun t => (fst t, f (snd t))) (combine l k).
Proof. revert k. induction l as [|x l IH]; intros [|y k]; cbn; [reflexivity..|]. rewrite IH. reflexivity. Qed.

Lemma ticks_texts n num l : (2 <= n)%nat -> true_ticks n l num (combine (linspace 0 (INR n - 1) num) (map fmt3 (linspace (fst l) (snd l) num))).
Proof.
  intros Hn. split; [rewrite combine_length, map_length, !length_linspace; lia|]. apply Forall_forall. intros t Ht. rewrite combine_map_r in Ht.
  apply in_map_iff in Ht. destruct Ht as (q & <- & Hq).
  pose proof (tick_true (fun v => v) n num l q Hn) as T. unfold ticks in T. rewrite map_id in T. destruct (T Hq) as [A B]. cbn [fst snd].
  split; [exact A|]. rewrite B. apply fmt3_text.
Qed.
Lemma pair_texts n num l1 l2 : (2 <= n)%nat -> true_pairs n l1 l2 num (combine (linspace 0 (INR n - 1) num)
  (map (fun v => "(" ++ fmt3 (fst v) ++ ";" ++ fmt3 (snd v) ++ ")") (combine (linspace (fst l1) (snd l1) num) (linspace (fst l2) (snd l2) num)))).
Proof.
  intros Hn. split; [rewrite combine_length, map_length, combine_length, !length_linspace; lia|]. apply Forall_forall. intros t Ht. rewrite combine_map_r in Ht.
  apply in_map_iff in Ht. destruct Ht as (q & <- & Hq). cbn [fst snd]. apply In_nth_error in Hq. destruct Hq as [i Hi].
  apply combine_split in Hi. destruct Hi as [Hp Hv]. apply combine_split in Hv. destruct Hv as [H1 H2].
  pose proof (fun l v H => tick_true (fun v => v) n num l (fst q, v) Hn H) as T. unfold ticks in T.
  pose proof (nth_error_In _ _ (combine_join _ _ _ _ _ Hp H1)) as I1. pose proof (nth_error_In _ _ (combine_join _ _ _ _ _ Hp H2)) as I2.
  pose proof (T l1 (fst (snd q))) as T1. pose proof (T l2 (snd (snd q))) as T2. rewrite map_id in T1, T2.
  destruct (T1 I1) as [A B1]. destruct (T2 I2) as [_ B2]. cbn [fst snd] in *. split; [exact A|].
  exists (fmt3 (fst (snd q))), (fmt3 (snd (snd q))). split; [reflexivity|]. rewrite <- B1, <- B2. split; apply fmt3_text.
Qed.

Lemma names_get gl g1 g2 : names gl g1 g2 ->
  get_item (match gl with None => ["g1"; "g2"] | Some l => l end) 0 = Ok g1 /\ get_item (match gl with None => ["g1"; "g2"] | Some l => l end) 1 = Ok g2.
Proof. destruct gl as [l|]; cbn [names]; [intros [rest ->]|intros [-> ->]]; split; reflexivity. Qed.
Lemma np_linspace_ok a b num : (0 <= num)%Z -> np_linspace a b num = Ok (linspace a b (Z.to_nat num)).
Proof. intros H. unfold np_linspace. rewrite (proj2 (Z.ltb_ge num 0) H). reflexivity. Qed.
Lemma np_linspace_neg a b num : (num < 0)%Z -> np_linspace a b num = Err ValueError.
Proof. intros H. unfold np_linspace. rewrite (proj2 (Z.ltb_lt num 0) H). reflexivity. Qed.

Section TwoD.
Variables (csd : arr2 R) (l1 l2 : R * R) (title bar : option string) (gl : option (list string)) (unit : string) (save : option string) (sort : bool) (nx ny : Z).
(** The calls in terms of the figure of ModelPlot. *)
Lemma calls_2d_figure x y : (0 <= nx)%Z -> (0 <= ny)%Z ->
  let fig := plot_csd_2d (fun v => v) csd l1 l2 sort (Z.to_nat nx) (Z.to_nat ny) in
  calls (calls_2d csd l1 l2 title bar x y save sort nx ny) =
  (([Imshow (f2_image fig) (f2_aspect fig);
     XTicks (combine (linspace 0 (INR (cols csd) - 1) (Z.to_nat nx)) (map fmt3 (linspace (fst (axis sort l1)) (snd (axis sort l1)) (Z.to_nat nx))));
     YTicks (combine (linspace 0 (INR (rows csd) - 1) (Z.to_nat ny)) (map fmt3 (linspace (fst (axis sort l2)) (snd (axis sort l2)) (Z.to_nat ny))));
     XLabel x; YLabel (Some y)] ++ match bar with Some t => [Colorbar t] | None => [] end ++ match title with Some t => [Title t] | None => [] end
    ++ [TightLayout] ++ match save with Some t => [SaveFig t] | None => [] end ++ [ShowFig])%list, None).
Proof.
  intros Hx Hy fig. unfold fig, calls_2d, plot_csd_2d, axis. destruct sort; cbn [andb].
  - destruct (descending l2) eqn:D2; destruct (descending l1) eqn:D1; cbn [f2_image f2_aspect]; rewrite !np_linspace_ok by assumption;
      try rewrite <- (ascending_desc _ D2); try rewrite <- (ascending_asc _ D2); try rewrite <- (ascending_desc _ D1); try rewrite <- (ascending_asc _ D1);
      destruct bar, title, save; reflexivity.
  - cbn [f2_image f2_aspect]; rewrite !np_linspace_ok by assumption; destruct bar, title, save; reflexivity.
Qed.
Lemma plot_2d g1 g2 : (2 <= rows csd)%nat -> (2 <= cols csd)%nat -> names gl g1 g2 -> (0 <= nx)%Z -> (0 <= ny)%Z ->
  let fig := plot_csd_2d (fun v => v) csd l1 l2 sort (Z.to_nat nx) (Z.to_nat ny) in
  exists cs, plot_csd (Data2 csd) l1 l2 title bar gl unit save sort nx ny = (cs, None) /\
    filter is_data cs = [Imshow (f2_image fig) (f2_aspect fig)] /\
    (exists t, filter is_xticks cs = [XTicks t] /\ true_ticks (cols csd) (axis sort l1) (Z.to_nat nx) t) /\
    (exists t, filter is_yticks cs = [YTicks t] /\ true_ticks (rows csd) (axis sort l2) (Z.to_nat ny) t) /\
    filter is_xlabel cs = [XLabel (g1 ++ " [" ++ unit ++ "]")] /\ filter is_ylabel cs = [YLabel (Some (g2 ++ " [" ++ unit ++ "]"))] /\
    finished title bar save cs.
Proof.
  intros Hr Hc Hg Hx Hy fig. destruct (names_get gl g1 g2 Hg) as [G1 G2]. eexists. split.
  - unfold plot_csd. rewrite G1, G2. cbn [bind]. exact (calls_2d_figure _ _ Hx Hy).
  - fold fig. split; [destruct bar, title, save; reflexivity|].
    split; [eexists; split; [destruct bar, title, save; reflexivity|apply ticks_texts; exact Hc]|].
    split; [eexists; split; [destruct bar, title, save; reflexivity|apply ticks_texts; exact Hr]|].
    split; [destruct bar, title, save; reflexivity|]. split; [destruct bar, title, save; reflexivity|].
    split; [destruct bar, title, save; reflexivity|]. split; [destruct bar, title, save; reflexivity|]. split; [destruct bar, title, save; reflexivity|].
    rewrite !app_assoc. eexists. split; [reflexivity|]. destruct bar, title, save; reflexivity.
Qed.
End TwoD.

Section OneD.
Variables (csd : arr1 R) (l1 l2 : R * R) (title ylab : option string) (gl : option (list string)) (unit : string) (save : option string) (sort : bool) (nx ny : Z).
Lemma fold_least f (ord : R -> R -> Prop) : (forall a b, ord (f a b) a /\ ord (f a b) b /\ (f a b = a \/ f a b = b)) -> (forall a b c, ord a b -> ord b c -> ord a c) -> (forall a, ord a a) ->
  forall l x, (forall y, In y (x :: l) -> ord (fold_left f l x) y) /\ In (fold_left f l x) (x :: l).
Proof.
  intros F T Rf. induction l as [|z l IH]; intros x; cbn [fold_left].
  - split; [intros y [->|[]]; apply Rf|left; reflexivity].
  - destruct (IH (f x z)) as [A B]. destruct (F x z) as (P & Q & E). split.
    + intros y [->|[->|H]].
      * eapply T; [apply A; left; reflexivity|exact P].
      * eapply T; [apply A; left; reflexivity|exact Q].
      * apply A. right. exact H.
    + destruct B as [B|B]; [|right; right; exact B]. rewrite <- B. destruct E as [->| ->]; [left|right; left]; reflexivity.
Qed.
Lemma np_min a : (0 < len1 a)%nat -> exists lo, np_reduce Rmin a = Ok lo /\ (forall i, (i < len1 a)%nat -> lo <= cell1 a i) /\ exists i, (i < len1 a)%nat /\ lo = cell1 a i.
Proof.
  intros H. unfold np_reduce. destruct (len1 a) as [|n] eqn:E; [lia|]. cbn [seq map].
  pose proof (fold_least Rmin Rle) as F. destruct (F) with (l := map (cell1 a) (seq 1 n)) (x := cell1 a 0%nat) as [A B].
  { intros x y. split; [apply Rmin_l|]. split; [apply Rmin_r|]. unfold Rmin. destruct (Rle_dec x y); auto. } { intros. lra. } { intros. lra. }
  eexists. split; [reflexivity|]. split.
  - intros i Hi. apply A. change (cell1 a 0%nat :: map (cell1 a) (seq 1 n)) with (map (cell1 a) (seq 0 (S n))). apply in_map, in_seq. lia.
  - change (cell1 a 0%nat :: map (cell1 a) (seq 1 n)) with (map (cell1 a) (seq 0 (S n))) in B. apply in_map_iff in B. destruct B as (i & Ei & Hi). exists i. apply in_seq in Hi. split; [lia|auto].
Qed.
Lemma np_max a : (0 < len1 a)%nat -> exists hi, np_reduce Rmax a = Ok hi /\ (forall i, (i < len1 a)%nat -> cell1 a i <= hi) /\ exists i, (i < len1 a)%nat /\ hi = cell1 a i.
Proof.
  intros H. unfold np_reduce. destruct (len1 a) as [|n] eqn:E; [lia|]. cbn [seq map].
  pose proof (fold_least Rmax Rge) as F. destruct (F) with (l := map (cell1 a) (seq 1 n)) (x := cell1 a 0%nat) as [A B].
  { intros x y. split; [apply Rle_ge, Rmax_l|]. split; [apply Rle_ge, Rmax_r|]. unfold Rmax. destruct (Rle_dec x y); auto. } { intros. lra. } { intros. lra. }
  eexists. split; [reflexivity|]. split.
  - intros i Hi. apply Rge_le, A. change (cell1 a 0%nat :: map (cell1 a) (seq 1 n)) with (map (cell1 a) (seq 0 (S n))). apply in_map, in_seq. lia.
  - change (cell1 a 0%nat :: map (cell1 a) (seq 1 n)) with (map (cell1 a) (seq 0 (S n))) in B. apply in_map_iff in B. destruct B as (i & Ei & Hi). exists i. apply in_seq in Hi. split; [lia|auto].
Qed.

(** The drawn line and the turned limits of gate 2. *)
Definition line := f1_line (plot_csd_1d (fun v => v) csd l1 l2 sort (Z.to_nat nx)).
Definition turned : R * R := if (sort && Rltb (snd l1) (fst l1))%bool then (snd l2, fst l2) else l2.
Lemma line_bounds lo hi : (0 < len1 csd)%nat -> (forall i, (i < len1 line)%nat -> lo <= cell1 line i <= hi) -> (forall i, (i < len1 csd)%nat -> lo <= cell1 csd i <= hi).
Proof.
  intros H. unfold line, plot_csd_1d. destruct (sort && descending l1)%bool; cbn [f1_line]; [|auto]. intros A i Hi.
  specialize (A (len1 csd - 1 - i)%nat). unfold flip1 in A. cbn [len1 cell1] in A. replace (len1 csd - 1 - (len1 csd - 1 - i))%nat with i in A by lia. apply A. lia.
Qed.
Lemma line_value i : (i < len1 line)%nat -> exists j, (j < len1 csd)%nat /\ cell1 line i = cell1 csd j.
Proof.
  unfold line, plot_csd_1d. destruct (sort && descending l1)%bool; cbn [f1_line]; [|eauto]. unfold flip1. cbn [len1 cell1]. intros H. exists (len1 csd - 1 - i)%nat. split; [lia|reflexivity].
Qed.
Lemma line_length : len1 line = len1 csd.
Proof. unfold line, plot_csd_1d. destruct (sort && descending l1)%bool; reflexivity. Qed.
Lemma calls_1d_figure x lo hi : (0 <= nx)%Z -> (0 <= ny)%Z -> np_reduce Rmin line = Ok lo -> np_reduce Rmax line = Ok hi ->
  calls (calls_1d csd l1 l2 title x ylab save sort nx ny) =
  (([PlotLine line;
     XTicks (combine (linspace 0 (INR (len1 csd) - 1) (Z.to_nat nx)) (map (fun v => ("(" ++ fmt3 (fst v) ++ ";" ++ fmt3 (snd v) ++ ")")%string)
       (combine (linspace (fst (axis sort l1)) (snd (axis sort l1)) (Z.to_nat nx)) (linspace (fst turned) (snd turned) (Z.to_nat nx)))));
     YTicksAt (linspace lo hi (Z.to_nat ny)); XLabel x; YLabel ylab] ++ match title with Some t => [Title t] | None => [] end
    ++ [TightLayout] ++ match save with Some t => [SaveFig t] | None => [] end ++ [ShowFig])%list, None).
Proof.
  intros Hx Hy. unfold line, turned, calls_1d, plot_csd_1d, axis. change (Rltb (snd l1) (fst l1)) with (descending l1). destruct sort; cbn [andb].
  - destruct (descending l1) eqn:D1; cbn [f1_line]; intros -> ->; rewrite !np_linspace_ok by assumption; cbn [bind]; rewrite !np_linspace_ok by assumption; cbn [bind];
      try rewrite <- (ascending_desc _ D1); try rewrite <- (ascending_asc _ D1); destruct title, save; reflexivity.
  - cbn [f1_line]; intros -> ->; rewrite !np_linspace_ok by assumption; cbn [bind]; rewrite !np_linspace_ok by assumption; destruct title, save; reflexivity.
Qed.
Lemma plot_1d g1 g2 : (2 <= len1 csd)%nat -> names gl g1 g2 -> (0 <= nx)%Z -> (0 <= ny)%Z ->
  exists cs lo hi, plot_csd (Data1 csd) l1 l2 title ylab gl unit save sort nx ny = (cs, None) /\
    filter is_data cs = [PlotLine line] /\
    (exists t, filter is_xticks cs = [XTicks t] /\ true_pairs (len1 csd) (axis sort l1) turned (Z.to_nat nx) t) /\
    filter is_yticks cs = [YTicksAt (linspace lo hi (Z.to_nat ny))] /\
    (forall i, (i < len1 csd)%nat -> lo <= cell1 csd i <= hi) /\ (exists i j, (i < len1 csd)%nat /\ (j < len1 csd)%nat /\ lo = cell1 csd i /\ hi = cell1 csd j) /\
    filter is_xlabel cs = [XLabel ("(" ++ g1 ++ ";" ++ g2 ++ ") [" ++ unit ++ "]")] /\ filter is_ylabel cs = [YLabel ylab] /\
    finished title None save cs.
Proof.
  intros Hn Hg Hx Hy. destruct (names_get gl g1 g2 Hg) as [G1 G2].
  destruct (np_min line) as (lo & El & Bl & il & Hil & Vl); [rewrite line_length; lia|]. destruct (np_max line) as (hi & Eh & Bh & ih & Hih & Vh); [rewrite line_length; lia|].
  eexists. exists lo, hi. split.
  - unfold plot_csd. rewrite G1, G2. cbn [bind]. exact (calls_1d_figure _ _ _ Hx Hy El Eh).
  - split; [destruct title, save; reflexivity|].
    split; [eexists; split; [destruct title, save; reflexivity|apply pair_texts; exact Hn]|].
    split; [destruct title, save; reflexivity|].
    split; [apply line_bounds; [lia|]; intros i Hi; split; auto|].
    split. { destruct (line_value il Hil) as (a & Ha & Ea). destruct (line_value ih Hih) as (b & Hb & Eb). exists a, b. rewrite Vl, Vh. auto. }
    split; [destruct title, save; reflexivity|]. split; [destruct title, save; reflexivity|].
    split; [destruct title, save; reflexivity|]. split; [destruct title, save; reflexivity|]. split; [destruct title, save; reflexivity|].
    rewrite !app_assoc. eexists. split; [reflexivity|]. destruct title, save; reflexivity.
Qed.
End OneD.

(** ** Exceptions *)
Lemma calls_app_ok l k : calls (map Ok l ++ k)%list = ((l ++ fst (calls k))%list, snd (calls k)).
Proof. induction l as [|c l IH]; cbn [map app calls]; [destruct (calls k); reflexivity|]. rewrite IH. reflexivity. Qed.
Lemma raises_2d csd l1 l2 title bar x y save sort nx ny : snd (calls (calls_2d csd l1 l2 title bar x y save sort nx ny)) = if (nx <? 0)%Z || (ny <? 0)%Z then Some ValueError else None.
Proof.
  destruct (Z.ltb_spec nx 0) as [Hx|Hx]; cbn [orb].
  - unfold calls_2d. destruct (sort && descending l2)%bool, (sort && descending l1)%bool; rewrite !(np_linspace_neg _ _ nx) by assumption; reflexivity.
  - destruct (Z.ltb_spec ny 0) as [Hy|Hy].
    + unfold calls_2d. destruct (sort && descending l2)%bool, (sort && descending l1)%bool; rewrite !(np_linspace_ok _ _ nx), !(np_linspace_neg _ _ ny) by assumption; reflexivity.
    + rewrite calls_2d_figure by assumption. reflexivity.
Qed.
Lemma raises_1d csd l1 l2 title x y save sort nx ny : snd (calls (calls_1d csd l1 l2 title x y save sort nx ny)) = if (nx <? 0)%Z || (ny <? 0)%Z || (len1 csd =? 0)%nat then Some ValueError else None.
Proof.
  destruct (Z.ltb_spec nx 0) as [Hx|Hx]; cbn [orb].
  { unfold calls_1d. destruct (sort && descending l1)%bool; rewrite !(np_linspace_neg _ _ nx) by assumption; reflexivity. }
  destruct (Nat.eqb_spec (len1 csd) 0) as [Hn|Hn].
  { rewrite orb_true_r. unfold calls_1d. destruct (sort && descending l1)%bool; rewrite !(np_linspace_ok _ _ nx) by assumption; cbn [bind]; unfold np_reduce, flip1; cbn [len1]; rewrite Hn; reflexivity. }
  rewrite orb_false_r. set (ln := line csd l1 l2 sort nx).
  destruct (np_min ln) as (lo & El & _); [unfold ln; rewrite line_length; lia|]. destruct (np_max ln) as (hi & Eh & _); [unfold ln; rewrite line_length; lia|].
  destruct (Z.ltb_spec ny 0) as [Hy|Hy].
  - unfold ln, line, plot_csd_1d in El, Eh. unfold calls_1d. destruct (sort && descending l1)%bool; cbn [f1_line] in El, Eh; rewrite !(np_linspace_ok _ _ nx) by assumption; cbn [bind]; rewrite El, Eh; cbn [bind]; rewrite !(np_linspace_neg _ _ ny) by assumption; reflexivity.
  - rewrite (calls_1d_figure csd l1 l2 title y save sort nx ny x lo hi Hx Hy El Eh). reflexivity.
Qed.
Lemma plot_raises csd l1 l2 title sl gl unit save sort nx ny :
  snd (plot_csd csd l1 l2 title sl gl unit save sort nx ny) =
  match csd with
  | DataOther => None
  | Data2 _ => if too_few gl then Some IndexError else if (nx <? 0)%Z || (ny <? 0)%Z then Some ValueError else None
  | Data1 a => if too_few gl then Some IndexError else if (nx <? 0)%Z || (ny <? 0)%Z || (len1 a =? 0)%nat then Some ValueError else None
  end.
Proof.
  destruct csd as [a|a|]; [| |reflexivity]; unfold plot_csd, too_few; destruct gl as [[|g1 [|g2 l]]|]; cbn [get_item nth_error bind length Nat.ltb Nat.leb snd];
    try reflexivity; try apply raises_1d; apply raises_2d.
Qed.
(** Nothing is shown or saved if there is an exception. *)
Lemma calls_in l c : In c (fst (calls l)) -> In (Ok c) l.
Proof.
  induction l as [|[d|e] l IH]; cbn [calls fst]; [intros []| |intros []].
  destruct (calls l) as [cs o]; cbn [fst] in *. intros [->|H]; [left; reflexivity|right; exact (IH H)].
Qed.
Lemma calls_app l k e : snd (calls (l ++ map Ok k)%list) = Some e -> fst (calls (l ++ map Ok k)%list) = fst (calls l).
Proof.
  induction l as [|[d|e'] l IH]; cbn [app calls]; [rewrite calls_all; discriminate| |reflexivity].
  destruct (calls (l ++ map Ok k)%list) as [cs o]; destruct (calls l) as [cs' o']; cbn [fst snd] in *. intros H. rewrite (IH H). reflexivity.
Qed.
Lemma silent_calls l k e : (forall c, In (Ok c) l -> c <> ShowFig /\ forall p, c <> SaveFig p) -> snd (calls (l ++ map Ok k)%list) = Some e -> silent (fst (calls (l ++ map Ok k)%list)).
Proof.
  intros H E. rewrite (calls_app _ _ _ E). split.
  - intros A. apply calls_in, H in A. destruct A as [A _]. auto.
  - intros p A. apply calls_in, H in A. destruct A as [_ A]. exact (A p eq_refl).
Qed.
Lemma bind_in {X} (x : result X) (k : X -> result call) c : Ok c = bind x k -> exists y, k y = Ok c.
Proof. destruct x as [y|e]; cbn; [intros E; exists y; symmetry; exact E|discriminate]. Qed.
Lemma plot_silent csd l1 l2 title sl gl unit save sort nx ny e : snd (plot_csd csd l1 l2 title sl gl unit save sort nx ny) = Some e ->
  silent (fst (plot_csd csd l1 l2 title sl gl unit save sort nx ny)).
Proof.
  assert (Nil : silent []) by (split; [intros []|intros p []]).
  destruct csd as [a|a|]; [| |discriminate]; unfold plot_csd; destruct (bind _ _) as [x|e'] eqn:Eb; try (intros _; exact Nil); [|destruct x as [x y]].
  - unfold calls_1d. destruct (if (sort && descending l1)%bool then _ else _) as [[a' m1] m2].
    match goal with |- snd (calls (?l ++ ?o1 ++ [Ok TightLayout] ++ ?o2 ++ [Ok ShowFig])%list) = _ -> _ =>
      replace (l ++ o1 ++ [Ok TightLayout] ++ o2 ++ [Ok ShowFig])%list with
        (l ++ map Ok (match title with Some t => [Title t] | None => [] end ++ [TightLayout] ++ match save with Some t => [SaveFig t] | None => [] end ++ [ShowFig]))%list
        by (destruct title, save; reflexivity) end.
    apply silent_calls. intros c H. cbn [In] in H. destruct H as [H|[H|[H|[H|[H|[]]]]]];
      first [injection H as <-|symmetry in H; repeat (apply bind_in in H; destruct H as [? H]; symmetry in H); injection H as ->]; (split; [|intros ?]; discriminate).
  - unfold calls_2d. destruct (if (sort && descending l2)%bool then _ else _) as [a1 m2]. destruct (if (sort && descending l1)%bool then _ else _) as [a2 m1].
    match goal with |- snd (calls (?l ++ ?o0 ++ ?o1 ++ [Ok TightLayout] ++ ?o2 ++ [Ok ShowFig])%list) = _ -> _ =>
      replace (l ++ o0 ++ o1 ++ [Ok TightLayout] ++ o2 ++ [Ok ShowFig])%list with
        (l ++ map Ok (match sl with Some t => [Colorbar t] | None => [] end ++ match title with Some t => [Title t] | None => [] end ++ [TightLayout]
          ++ match save with Some t => [SaveFig t] | None => [] end ++ [ShowFig]))%list
        by (destruct sl, title, save; reflexivity) end.
    apply silent_calls. intros c H. cbn [In] in H. destruct H as [H|[H|[H|[H|[H|[]]]]]];
      first [injection H as <-|symmetry in H; repeat (apply bind_in in H; destruct H as [? H]; symmetry in H); injection H as ->]; (split; [|intros ?]; discriminate).
Qed.

(** ** Texts of different ticks *)
Lemma distinct_ticks n l num t : (2 <= n)%nat -> (2 <= num)%nat -> 1 / 1000 < Rabs (snd l - fst l) / INR (num - 1) ->
  t = combine (linspace 0 (INR n - 1) num) (map fmt3 (linspace (fst l) (snd l) num)) -> NoDup (map snd t).
Proof.
  intros Hn Hnum Hs ->. apply NoDup_nth_error. intros i j Hi E. rewrite map_length, combine_length, map_length, !length_linspace in Hi.
  assert (Hj : (j < num)%nat).
  { destruct (Nat.lt_ge_cases j num) as [H|H]; [exact H|]. exfalso. rewrite (proj2 (nth_error_None _ j)) in E by (rewrite map_length, combine_length, map_length, !length_linspace; lia).
    apply nth_error_None in E. rewrite map_length, combine_length, map_length, !length_linspace in E. lia. }
  assert (G : forall k, (k < num)%nat -> nth_error (map snd (combine (linspace 0 (INR n - 1) num) (map fmt3 (linspace (fst l) (snd l) num)))) k =
    Some (fmt3 (fst l + INR k * ((snd l - fst l) / INR (num - 1))))).
  { intros k Hk. rewrite nth_error_map. rewrite (combine_join _ _ k (0 + INR k * ((INR n - 1 - 0) / INR (num - 1))) (fmt3 (fst l + INR k * ((snd l - fst l) / INR (num - 1))))); [reflexivity|..].
    - apply nth_error_linspace, Hk.
    - rewrite nth_error_map, nth_error_linspace by exact Hk. reflexivity. }
  rewrite !G in E by lia. injection E as E.
  pose proof (text_close _ _ _ (fmt3_text (fst l + INR i * ((snd l - fst l) / INR (num - 1)))) ltac:(rewrite E; apply fmt3_text)) as C.
  destruct (Nat.eq_dec i j) as [|D]; [assumption|exfalso].
  replace (fst l + INR i * ((snd l - fst l) / INR (num - 1)) - (fst l + INR j * ((snd l - fst l) / INR (num - 1)))) with ((INR i - INR j) * ((snd l - fst l) / INR (num - 1))) in C by ring.
  rewrite Rabs_mult in C. unfold Rdiv at 1 in C. rewrite Rabs_mult in C. assert (P : 0 < INR (num - 1)) by (apply lt_0_INR; lia).
  rewrite (Rabs_pos_eq (/ _)) in C by (left; apply Rinv_0_lt_compat, P).
  assert (1 <= Rabs (INR i - INR j)).
  { destruct (Nat.lt_ge_cases i j) as [L|L].
    - rewrite Rabs_left by (apply lt_INR in L; lra). assert (INR (S i) <= INR j) by (apply le_INR; lia). rewrite S_INR in H. lra.
    - assert (L' : (S j <= i)%nat) by lia. apply le_INR in L'. rewrite S_INR in L'. rewrite Rabs_pos_eq by lra. lra. }
  unfold Rdiv in Hs, C. nra.
Qed.
Lemma plot_2d_distinct csd l1 l2 title bar gl unit save sort nx ny : (2 <= rows csd)%nat -> (2 <= cols csd)%nat -> (2 <= nx)%Z -> (2 <= ny)%Z ->
  forall cs, plot_csd (Data2 csd) l1 l2 title bar gl unit save sort nx ny = (cs, None) ->
  (forall t, In (XTicks t) cs -> 1 / 1000 < Rabs (snd l1 - fst l1) / (IZR nx - 1) -> NoDup (map snd t)) /\
  (forall t, In (YTicks t) cs -> 1 / 1000 < Rabs (snd l2 - fst l2) / (IZR ny - 1) -> NoDup (map snd t)).
Proof.
  intros Hr Hc Hx Hy cs E. assert (Dn : forall z l, (2 <= z)%Z -> 1 / 1000 < Rabs (snd l - fst l) / (IZR z - 1) ->
    1 / 1000 < Rabs (snd (axis sort l) - fst (axis sort l)) / INR (Z.to_nat z - 1)).
  { intros z l Hz H. rewrite minus_INR by lia. rewrite INR_IZR_INZ, Z2Nat.id by lia. change (INR 1) with 1.
    replace (Rabs (snd (axis sort l) - fst (axis sort l))) with (Rabs (snd l - fst l)); [exact H|].
    unfold axis, ascending. destruct sort; [|reflexivity]. cbn [fst snd]. unfold Rmin, Rmax. destruct (Rle_dec (fst l) (snd l)); [reflexivity|]. apply Rabs_minus_sym. }
  unfold plot_csd in E. destruct (bind _ _) as [[x y]|e] eqn:Eb; [|discriminate E]. rewrite calls_2d_figure in E by lia. injection E as <-.
  split; intros t Ht Hs.
  - cbn [app In] in Ht. destruct Ht as [Ht|[Ht|Ht]]; [discriminate Ht|injection Ht as <-; apply (distinct_ticks (cols csd) (axis sort l1) (Z.to_nat nx)); [lia|lia|apply Dn; assumption|reflexivity]|].
    exfalso. destruct bar, title, save; cbn in Ht; repeat (destruct Ht as [Ht|Ht]; [discriminate Ht|]); exact Ht.
  - cbn [app In] in Ht. destruct Ht as [Ht|[Ht|[Ht|Ht]]]; [discriminate Ht|discriminate Ht|injection Ht as <-; apply (distinct_ticks (rows csd) (axis sort l2) (Z.to_nat ny)); [lia|lia|apply Dn; assumption|reflexivity]|].
    exfalso. destruct bar, title, save; cbn in Ht; repeat (destruct Ht as [Ht|Ht]; [discriminate Ht|]); exact Ht.
Qed.
