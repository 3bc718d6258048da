(** What the texts of a plot should say. *)
From Coq Require Import String Ascii DecimalString.
From Verif Require Import Prelude RPrelude Arr SpecPlot ModelPlotText.
Local Open Scope R_scope.
Local Open Scope string_scope.

(** The text before and after the first point. *)
Fixpoint before_point (s : string) : string :=
  match s with "" => "" | String c s => if Ascii.eqb c "." then "" else String c (before_point s) end.
Fixpoint after_point (s : string) : string :=
  match s with "" => "" | String c s => if Ascii.eqb c "." then s else after_point s end.
(** The number shown by a text with three decimals, in thousandths. *)
Definition unsigned (s : string) : option N :=
  if (String.length (after_point s) =? 3)%nat then
    match NilZero.uint_of_string (before_point s), NilZero.uint_of_string (after_point s) with
    | Some u, Some f => Some (N.of_uint u * 1000 + N.of_uint f)%N
    | _, _ => None
    end
  else None.
Definition shown (s : string) : option (bool * N) :=
  match s with
  | String "-" s => option_map (pair true) (unsigned s)
  | _ => option_map (pair false) (unsigned s)
  end.
(** The text shows [x], rounded to three decimals. *)
Definition text_of (s : string) (x : R) : Prop :=
  exists n, shown s = Some (Rltb x 0, n) /\ Rabs (Rabs x - IZR (Z.of_N n) / 1000) <= 1 / 2000.

(** [num] ticks with the texts of the voltages of their positions, which are within the image *)
Definition true_ticks (n : nat) (l : R * R) (num : nat) (t : list (R * string)) : Prop :=
  length t = num /\ Forall (fun t => 0 <= fst t <= INR n - 1 /\ text_of (snd t) (volt_at n l (fst t))) t.
(** The same for the pairs of voltages of a 1D sweep *)
Definition true_pairs (n : nat) (l1 l2 : R * R) (num : nat) (t : list (R * string)) : Prop :=
  length t = num /\ Forall (fun t => 0 <= fst t <= INR n - 1 /\ exists a b, snd t = "(" ++ a ++ ";" ++ b ++ ")" /\
    text_of a (volt_at n l1 (fst t)) /\ text_of b (volt_at n l2 (fst t))) t.

Definition is_data (c : call) : bool := match c with Imshow _ _ | PlotLine _ => true | _ => false end.
Definition is_xticks (c : call) : bool := match c with XTicks _ => true | _ => false end.
Definition is_yticks (c : call) : bool := match c with YTicks _ | YTicksAt _ => true | _ => false end.
Definition is_xlabel (c : call) : bool := match c with XLabel _ => true | _ => false end.
Definition is_ylabel (c : call) : bool := match c with YLabel _ => true | _ => false end.
Definition is_bar (c : call) : bool := match c with Colorbar _ => true | _ => false end.
Definition is_title (c : call) : bool := match c with Title _ => true | _ => false end.
Definition is_save (c : call) : bool := match c with SaveFig _ => true | _ => false end.
Definition is_show (c : call) : bool := match c with ShowFig => true | _ => false end.
(** The names of the gates. *)
Definition names (gate_labels : option (list string)) (g1 g2 : string) : Prop :=
  match gate_labels with None => g1 = "g1" /\ g2 = "g2" | Some l => exists rest, l = g1 :: g2 :: rest end.
(** A title, a colour bar and a file only on request; the figure is shown once, after everything else. *)
Definition finished (title bar save_path : option string) (cs : list call) : Prop :=
  filter is_title cs = match title with Some t => [Title t] | None => [] end /\
  filter is_bar cs = match bar with Some t => [Colorbar t] | None => [] end /\
  filter is_save cs = match save_path with Some t => [SaveFig t] | None => [] end /\
  exists cs', cs = (cs' ++ [ShowFig])%list /\ filter is_show cs' = [].
(** Fewer than two names of gates are given. *)
Definition too_few (gl : option (list string)) : bool := match gl with Some l => (length l <? 2)%nat | None => false end.
(** Nothing is shown or saved. *)
Definition silent (cs : list call) : Prop := ~ In ShowFig cs /\ forall p, ~ In (SaveFig p) cs.
