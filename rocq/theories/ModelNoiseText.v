(** The texts of distortions and samplers: __repr__.

    The texts of the attributes are arguments of type [string]: a parameter is a number or a sampler, the generator is a numpy object.
    [cls] is self.__class__.__name__. *)
From Coq Require Import String.
From Verif Require Import RPrelude.
Local Open Scope string_scope.

(** _white_noise.py:88-89 *)
Definition white_text (cls sigma rng : string) : string := cls ++ "(sigma=" ++ sigma ++ ", rng=" ++ rng ++ ")".
(** The latest sigma: None before the first call; None and 0 are false *)
Definition latest_text (show : R -> string) (latest : option R) : string :=
  match latest with
  | Some x => if Reqb x 0 then "[latest=0]" else "[latest=" ++ show x ++ "]"
  | None => "[latest=0]"
  end.
(** _pink_noise.py:100-105 *)
Definition pink_text (show : R -> string) (cls sigma : string) (latest : option R) (fmin rng : string) : string :=
  cls ++ "(sigma=" ++ sigma ++ latest_text show latest ++ ", fmin=" ++ fmin ++ ", rng=" ++ rng ++ ")".
(** _transition_blurring.py:126-130, 242-246 *)
Definition blur_text (show : R -> string) (cls sigma : string) (latest : option R) : string :=
  cls ++ "(sigma=" ++ sigma ++ latest_text show latest ++ ")".
(** The activation: None before the first call *)
Definition activated_text (activated : option bool) : string := match activated with Some true => "[activated]" | _ => "[deactivated]" end.
(** _dot_jumps.py:560-564 *)
Definition jumps_text (cls scale lam axis ratio rng : string) (activated : option bool) : string :=
  cls ++ "(scale=" ++ scale ++ ", lam=" ++ lam ++ ", axis=" ++ axis ++ ", " ++ "ratio=" ++ ratio ++ ", rng=" ++ rng ++ ")" ++ activated_text activated.
(** _random_telegraph_noise.py:167-172 *)
Definition telegraph_text (cls scale std height ratio rng : string) (activated : option bool) : string :=
  cls ++ "(scale=" ++ scale ++ ", std=" ++ std ++ ", height=" ++ height ++ ", ratio=" ++ ratio ++ ", rng=" ++ rng ++ ")" ++ activated_text activated.

(** _parameter_sampling.py:107-111, 164-165, 233-238, 318-322; [range] is the range from which the sampler draws *)
Definition normal_text (cls last range mean std rng : string) : string :=
  cls ++ "(last_sample=" ++ last ++ ", range=" ++ range ++ ", mean=" ++ mean ++ ", std=" ++ std ++ ", rng=" ++ rng ++ ")".
Definition uniform_text (cls last range rng : string) : string := cls ++ "(last_sample=" ++ last ++ ", range=" ++ range ++ ", rng=" ++ rng ++ ")".
Definition lognormal_text (cls last range mean sigma rng : string) : string :=
  cls ++ "(last_sample=" ++ last ++ ", range=" ++ range ++ ", mean=" ++ mean ++ ", sigma=" ++ sigma ++ ", rng=" ++ rng ++ ")".
Definition exponential_text (cls last range scale rng : string) : string :=
  cls ++ "(last_sample=" ++ last ++ ", range=" ++ range ++ ", scale=" ++ scale ++ ", rng=" ++ rng ++ ")".
