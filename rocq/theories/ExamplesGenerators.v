(** Generators that count, and distortions that append what they draw *)
From Verif Require Import RPrelude ModelGenerators.

Definition count (d : unit) (n : nat) : nat * nat := (n, S n).
Definition append_draw (i : nat) (v : list nat) : @program unit nat (list nat) := Ask i tt (fun x => Return (v ++ [x])).
(** a distortion with its own generator, and one with a sampler as parameter *)
Definition appender (r : ref) : @noise unit nat (list nat) := mk_noise (append_draw 0) r [].
Definition sampled_appender (r q : ref) : @noise unit nat (list nat) := mk_noise (append_draw 0) r [q].
(** three generators in the states 10, 20 and 30 *)
Definition three_generators : @generators nat := mk_generators 3 (fun r => (10 * S r)%nat).
(** potential and response distortions with generators of their own, and with one generator for both *)
Definition own_generators : simulation := mk_simulation [] [appender 0; sampled_appender 1 0] [appender 2].
Definition one_generator : simulation := mk_simulation [] [appender 0] [appender 0].
