(** Model of simcats/support_functions/_parameter_sampling.py.

    The numpy generator is an abstract state [G] with four operations returning a number and the next
    state. Rejection loops get a bound on the number of draws and return [None] when it is used up, so
    that a call which never returns is [None] for every bound. The warning of the constructors is a
    boolean. *)
From Verif Require Import RPrelude.
Local Open Scope R_scope.

Section Sampling.
Context {G : Type}.

(** numpy.random.Generator *)
Record rng := mk_rng {
  r_uniform : R -> R -> G -> R * G;      (* low, high *)
  r_normal : R -> R -> G -> R * G;       (* loc, scale *)
  r_lognormal : R -> R -> G -> R * G;    (* mean, sigma *)
  r_exponential : R -> G -> R * G        (* scale *) }.

(** The class with its own constructor arguments; the mean of NormalSamplingRange may be None. *)
Inductive sampler_args := ANormal (std : R) (mean : option R) | AUniform | ALogNormal (mean sigma : R) | AExponential (scale : R).
(** Attributes: __range, __last_sample and the distribution parameters. *)
Inductive distribution := DNormal (mean std : R) | DUniform | DLogNormal (mean sigma : R) | DExponential (scale : R).
Record sampler := mk_sampler { sm_dist : distribution; sm_range : R * R; sm_last : option R }.

Variable r : rng.

(** Narrowing of the range, lines 74-88 (identical in 139-153 and 201-219) *)
Definition narrow (total : R * R) (sampling_range : option R) (g : G) : (R * R) * bool * G :=
  match sampling_range with
  | None => (total, false, g)
  | Some w =>
      if Rleb (snd total - fst total) w then (total, true, g)
      else let '(c, g1) := r_uniform r (fst total + 1 / 2 * w) (snd total - 1 / 2 * w) g in
           ((c - 1 / 2 * w, c + 1 / 2 * w), false, g1)
  end.
(** Narrowing of ExponentialSamplingRange, lines 286-303; np.min and np.max of the pair *)
Definition narrow_exponential (total : R * R) (sampling_range : option R) (g : G) : (R * R) * bool * G :=
  let lo := Rmin (fst total) (snd total) in
  let hi := Rmax (fst total) (snd total) in
  match sampling_range with
  | None => (total, false, g)
  | Some w =>
      if Rleb (hi - lo) w then (total, true, g)
      else let '(c, g1) := r_uniform r (lo + 1 / 2 * w) (hi - 1 / 2 * w) g in
           (if Rltb (fst total) (snd total) then (c - 1 / 2 * w, c + 1 / 2 * w) else (c + 1 / 2 * w, c - 1 / 2 * w), false, g1)
  end.

(** The constructors, lines 44-94, 116-154, 170-220 and 244-305: sampler, warning, generator state *)
Definition new_sampler (a : sampler_args) (total : R * R) (sampling_range : option R) (g : G) : sampler * bool * G :=
  match a with
  | ANormal std mean =>
      let '(rg, w, g1) := narrow total sampling_range g in
      (mk_sampler (DNormal (match mean with Some m => m | None => (fst rg + snd rg) / 2 end) std) rg None, w, g1)
  | AUniform => let '(rg, w, g1) := narrow total sampling_range g in (mk_sampler DUniform rg None, w, g1)
  | ALogNormal mean sigma =>
      let '(rg, w, g1) := narrow total sampling_range g in (mk_sampler (DLogNormal mean sigma) rg None, w, g1)
  | AExponential scale =>
      let '(rg, w, g1) := narrow_exponential total sampling_range g in (mk_sampler (DExponential scale) rg None, w, g1)
  end.

(** One draw of the distribution, lines 97 / 100, 157, 223 / 226 and 308 / 311 *)
Definition draw (d : distribution) (rg : R * R) (g : G) : R * G :=
  match d with
  | DNormal mean std => r_normal r mean std g
  | DUniform => r_uniform r (fst rg) (snd rg) g
  | DLogNormal mean sigma => r_lognormal r mean sigma g
  | DExponential scale => let '(e, g1) := r_exponential r scale g in (fst rg + e * (snd rg - fst rg), g1)
  end.
(** The condition for another draw, lines 99, 225 and 310; none for the uniform distribution *)
Definition rejected (d : distribution) (rg : R * R) (v : R) : bool :=
  match d with
  | DUniform => false
  | DNormal _ _ | DLogNormal _ _ => Rltb v (fst rg) || Rltb (snd rg) v
  | DExponential _ => Rltb v (Rmin (fst rg) (snd rg)) || Rltb (Rmax (fst rg) (snd rg)) v
  end.
Fixpoint draw_until (fuel : nat) (d : distribution) (rg : R * R) (g : G) : option (R * G) :=
  match fuel with
  | O => None
  | S k => let '(v, g1) := draw d rg g in if rejected d rg v then draw_until k d rg g1 else Some (v, g1)
  end.

(** sample_parameter, lines 96-102, 156-159, 222-228 and 307-313 *)
Definition sample_parameter (fuel : nat) (s : sampler) (g : G) : option (R * sampler * G) :=
  match draw_until fuel (sm_dist s) (sm_range s) g with
  | None => None
  | Some (v, g1) => Some (v, mk_sampler (sm_dist s) (sm_range s) (Some v), g1)
  end.
(** last_sample, lines 104, 161, 230 and 315 *)
Definition last_sample (s : sampler) : option R := sm_last s.

(** A number of consecutive calls of sample_parameter on the same object. *)
Fixpoint sample_many (fuel n : nat) (s : sampler) (g : G) : option (list R * sampler * G) :=
  match n with
  | O => Some ([], s, g)
  | S k => match sample_parameter fuel s g with
           | None => None
           | Some (v, s1, g1) =>
               match sample_many fuel k s1 g1 with
               | None => None
               | Some (vs, s2, g2) => Some (v :: vs, s2, g2)
               end
           end
  end.
End Sampling.
Arguments rng : clear implicits.
