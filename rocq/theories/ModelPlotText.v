(** Model of plot_csd, simcats/support_functions/_plotting.py: the calls of matplotlib with their texts.

    The calls of matplotlib are recorded; they are assumed to succeed. Voltages are real numbers, so a text "-0.000" is produced for
    negative voltages only, while the code also writes it for a voltage of -0.0. Arrays that have neither one nor two dimensions
    are [DataOther]. *)
From Coq Require Import String Ascii DecimalString.
From Flocq Require Import Core.
From Verif Require Import Prelude RPrelude Arr ModelPlot.
Local Open Scope R_scope.
Local Open Scope string_scope.

(** The digits of a natural number. *)
Definition decimal (k : N) : string := NilZero.string_of_uint (N.to_uint k).
Definition digit (k : N) : string := String (ascii_of_N (48 + k mod 10)) "".
(** "%.3f" % x.round(3): numpy multiplies by 1000, rounds to the nearest integer (ties to even) and divides *)
Definition fmt3 (x : R) : string :=
  let n := Z.abs_N (ZnearestE (x * 1000)) in
  (if Rltb x 0 then "-" else "") ++ decimal (n / 1000) ++ "." ++ digit (n / 100) ++ digit (n / 10) ++ digit n.

Inductive call :=
| Imshow (image : arr2 R) (aspect : R)
| PlotLine (line : arr1 R)
| XTicks (ticks : list (R * string))
| YTicks (ticks : list (R * string))
| YTicksAt (positions : list R)
| XLabel (text : string)
| YLabel (text : option string)
| Colorbar (text : string)
| Title (text : string)
| TightLayout
| SaveFig (path : string)
| ShowFig.
(** The calls before the first exception. *)
Fixpoint calls (l : list (result call)) : list call * option exn :=
  match l with
  | [] => ([], None)
  | Ok c :: l => let '(cs, e) := calls l in (c :: cs, e)
  | Err e :: _ => ([], Some e)
  end.

(** np.linspace *)
Definition np_linspace (a b : R) (num : Z) : result (list R) :=
  if (num <? 0)%Z then Err ValueError else Ok (linspace a b (Z.to_nat num)).
(** np.min, np.max of a one dimensional array *)
Definition np_reduce (f : R -> R -> R) (a : arr1 R) : result R :=
  match map (cell1 a) (seq 0 (len1 a)) with [] => Err ValueError | x :: l => Ok (fold_left f l x) end.

Definition optional (c : option call) : list (result call) := match c with Some c => [Ok c] | None => [] end.

(** _plot_csd_2d, lines 113-150 *)
Definition calls_2d (csd : arr2 R) (l1 l2 : R * R) (title cb_label : option string) (x_label y_label : string) (save_path : option string)
  (sort_volts : bool) (num_xticks num_yticks : Z) : list (result call) :=
  let '(csd, l2) := if (sort_volts && descending l2)%bool then (flip_rows csd, swap l2) else (csd, l2) in
  let '(csd, l1) := if (sort_volts && descending l1)%bool then (flip_cols csd, swap l1) else (csd, l1) in
  let x_extent := Rmax (fst l1) (snd l1) - Rmin (fst l1) (snd l1) in
  let y_extent := Rmax (fst l2) (snd l2) - Rmin (fst l2) (snd l2) in
  [Ok (Imshow csd ((y_extent / INR (rows csd)) / (x_extent / INR (cols csd))));
   (let? p := np_linspace 0 (INR (cols csd) - 1) num_xticks in let? v := np_linspace (fst l1) (snd l1) num_xticks in Ok (XTicks (combine p (map fmt3 v))));
   (let? p := np_linspace 0 (INR (rows csd) - 1) num_yticks in let? v := np_linspace (fst l2) (snd l2) num_yticks in Ok (YTicks (combine p (map fmt3 v))));
   Ok (XLabel x_label); Ok (YLabel (Some y_label))]
  ++ optional (option_map Colorbar cb_label) ++ optional (option_map Title title) ++ [Ok TightLayout]
  ++ optional (option_map SaveFig save_path) ++ [Ok ShowFig].

(** _plot_csd_1d, lines 181-205 *)
Definition calls_1d (csd : arr1 R) (l1 l2 : R * R) (title : option string) (x_label : string) (y_label save_path : option string)
  (sort_volts : bool) (num_xticks num_yticks : Z) : list (result call) :=
  let '(csd, l1, l2) := if (sort_volts && descending l1)%bool then (flip1 csd, swap l1, swap l2) else (csd, l1, l2) in
  [Ok (PlotLine csd);
   (let? v1 := np_linspace (fst l1) (snd l1) num_xticks in let? v2 := np_linspace (fst l2) (snd l2) num_xticks in
    let? p := np_linspace 0 (INR (len1 csd) - 1) num_xticks in
    Ok (XTicks (combine p (map (fun v => "(" ++ fmt3 (fst v) ++ ";" ++ fmt3 (snd v) ++ ")") (combine v1 v2)))));
   (let? lo := np_reduce Rmin csd in let? hi := np_reduce Rmax csd in let? p := np_linspace lo hi num_yticks in Ok (YTicksAt p));
   Ok (XLabel x_label); Ok (YLabel y_label)]
  ++ optional (option_map Title title) ++ [Ok TightLayout] ++ optional (option_map SaveFig save_path) ++ [Ok ShowFig].

Inductive plot_data := Data1 (a : arr1 R) | Data2 (a : arr2 R) | DataOther.

(** plot_csd, lines 50-80 *)
Definition plot_csd (csd : plot_data) (l1 l2 : R * R) (title sensor_label : option string) (gate_labels : option (list string))
  (voltage_unit : string) (save_path : option string) (sort_volts : bool) (num_xticks num_yticks : Z) : list call * option exn :=
  let gates := match gate_labels with None => ["g1"; "g2"] | Some l => l end in
  match csd with
  | Data1 a =>
      match (let? g1 := get_item gates 0 in let? g2 := get_item gates 1 in Ok ("(" ++ g1 ++ ";" ++ g2 ++ ") [" ++ voltage_unit ++ "]")) with
      | Ok x_label => calls (calls_1d a l1 l2 title x_label sensor_label save_path sort_volts num_xticks num_yticks)
      | Err e => ([], Some e)
      end
  | Data2 a =>
      match (let? g1 := get_item gates 0 in let? g2 := get_item gates 1 in Ok (g1 ++ " [" ++ voltage_unit ++ "]", g2 ++ " [" ++ voltage_unit ++ "]")) with
      | Ok (x_label, y_label) => calls (calls_2d a l1 l2 title sensor_label x_label y_label save_path sort_volts num_xticks num_yticks)
      | Err e => ([], Some e)
      end
  | DataOther => ([], None)
  end.
