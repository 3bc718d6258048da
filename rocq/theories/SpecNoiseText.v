(** The parameters of the constructors of distortions and samplers. *)
From Coq Require Import String Ascii.
From Verif Require Import RPrelude.
Local Open Scope string_scope.

Definition white_names := ["sigma"; "rng"].
Definition pink_names := ["sigma"; "fmin"; "rng"].
Definition jumps_names := ["scale"; "lam"; "axis"; "ratio"; "rng"].
Definition telegraph_names := ["scale"; "std"; "height"; "ratio"; "rng"].
(** A recorded value is shown in brackets, with 0 if there is none yet; whether the distortion was active in the last call is shown as well. *)
Definition recorded (show : R -> string) (l : option R) : string :=
  "[latest=" ++ match l with None => "0" | Some x => if Req_EM_T x 0 then "0" else show x end ++ "]".
Definition activity (last_call : option bool) : string :=
  match last_call with None => "[deactivated]" | Some b => "[" ++ (if b then "" else "de") ++ "activated]" end.
(** What the texts of samplers show *)
Definition normal_shown := ["last_sample"; "range"; "mean"; "std"; "rng"].
Definition uniform_shown := ["last_sample"; "range"; "rng"].
Definition lognormal_shown := ["last_sample"; "range"; "mean"; "sigma"; "rng"].
Definition exponential_shown := ["last_sample"; "range"; "scale"; "rng"].
(** The constructors of all samplers have a parameter for the total range and none for the last sample. *)
Definition normal_parameters := ["total_range"; "std"; "mean"; "sampling_range"; "rng"].
Definition uniform_parameters := ["total_range"; "sampling_range"; "rng"].
Definition lognormal_parameters := ["total_range"; "sampling_range"; "rng"; "mean"; "sigma"].
Definition exponential_parameters := ["total_range"; "scale"; "sampling_range"; "rng"].
(** Names consist of letters and underscores here; what matters is that they contain no equals sign. *)
Fixpoint no_equals (s : string) : Prop := match s with EmptyString => True | String c t => c <> "="%char /\ no_equals t end.
Fixpoint ends_with (c : ascii) (s : string) : Prop :=
  match s with EmptyString => False | String d EmptyString => d = c | String _ t => ends_with c t end.
