(** Indices computed from a Python int and a uint8 number in _dot_jumps.py.

    The jump heights are stored as uint8 (line 606 / 740). numpy is not pinned (pyproject.toml:41), and the
    result of arithmetic between a Python int and a uint8 scalar depends on its version: an int64 number
    before numpy 2, a uint8 number from numpy 2 on (NEP 50), where a Python int that is no uint8 raises
    OverflowError and results are reduced modulo 256. The other model files have the indices of the first
    kind (ModelJumps). *)
From Verif Require Import RPrelude Arr ModelJumps.

Inductive numpy := Numpy1 | Numpy2.
(** [i + a] and [i - a] for a Python int [i >= 0] and a uint8 number [a] *)
Definition int_plus (v : numpy) (i a : nat) : result Z :=
  match v with
  | Numpy1 => Ok (Z.of_nat i + Z.of_nat a)%Z
  | Numpy2 => raise_if (256 <=? i) OverflowError (Ok ((Z.of_nat i + Z.of_nat a) mod 256)%Z)
  end.
Definition int_minus (v : numpy) (i a : nat) : result Z :=
  match v with
  | Numpy1 => Ok (Z.of_nat i - Z.of_nat a)%Z
  | Numpy2 => raise_if (256 <=? i) OverflowError (Ok ((Z.of_nat i - Z.of_nat a) mod 256)%Z)
  end.
(** [x + k] for a number [x] of the previous kind and a Python int [k] *)
Definition plus_int (v : numpy) (x : Z) (k : nat) : result Z :=
  match v with
  | Numpy1 => Ok (x + Z.of_nat k)%Z
  | Numpy2 => raise_if (256 <=? k) OverflowError (Ok ((x + Z.of_nat k) mod 256)%Z)
  end.

(** np.maximum(0, j - noise[j] + k), lines 662-679 and 751: the pixel shown at [j + k] *)
Definition shown_index (v : numpy) (j nj k : nat) : result nat :=
  let? x := int_minus v j nj in
  let? y := plus_int v x k in
  Ok (Z.to_nat (Z.max 0 y)).

Section ReadBack.
Context {A : Type}.
(** Lines 391-394: the scan read back from the 2D array, to which [added] columns (rows) were added.
    [added] is np.max of the heights, a uint8 number, if pixels were generated. *)
Definition read_1 (v : numpy) (out : arr2 A) (n added : nat) : result (list A) :=
  mapM (fun i => let? k := int_plus v i added in get2 out i (Z.to_nat k)) (seq 0 n).
Definition read_0 (v : numpy) (out : arr2 A) (n added : nat) : result (list A) :=
  mapM (fun i => let? k := int_plus v i added in get2 out (Z.to_nat k) i) (seq 0 n).
End ReadBack.
