(** Occupations and 1D lead transition masks in double precision.

    float64 numbers are the reals of Flocq's binary64 format without overflow (all numbers here are far
    below 2^1024); [fl] rounds to nearest, ties to even. The functions [tanh] and [arctan] of numpy are
    not modelled, only what the code does with their results. *)
From Flocq Require Import Core.
From Verif Require Import RPrelude Arr ModelSupport ModelTct ModelCsd.
Local Open Scope R_scope.

Definition binary64 : Z -> Z := FLT_exp (-1074) 53.
Definition double (x : R) : Prop := generic_format radix2 binary64 x.
Definition fl (x : R) : R := round radix2 binary64 ZnearestE x.

(** sigmoid_cdf, _cumulative_distribution_functions.py:29, from the value of tanh. *)
Definition float_sigmoid (tanh_value : R) : R := fl (1/2 * fl (1 + tanh_value)).
(** cauchy_cdf, line 69, from the value of arctan; [pi] is np.pi. *)
Definition float_cauchy (pi arctan_value : R) : R := fl (fl (fl (1 / pi) * arctan_value) + 1/2).

(** multi_sigmoid_cdf and multi_cauchy_cdf, lines 48 and 88: python's [sum] of the values of the single CDFs. *)
Definition float_sum (values : list R) : R := fold_left (fun s v => fl (s + v)) values 0.

(** _occupation_func, lines 42-56: one CDF value for each electron. *)
Definition float_occupation (values : list R) : R * R :=
  let max_occ := fl (INR (2 * length values) / 2) in
  let occ_1 := float_sum values in
  (occ_1, fl (max_occ - occ_1)).

(** generate_lead_transition_mask_1d with rounded sums (line 30); [lead_mask_1d] adds the exact zeros. *)
Definition float_lead_mask_1d (occ : list (R * R)) : result (list nat) :=
  lead_mask_1d (map (fun o => (fl (fst o + snd o), 0)) occ).
