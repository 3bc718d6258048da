(** Model of simcats/distortions/_dot_jumps.py.

    Array entries have an arbitrary type [A] with a NaN test; the noise values are natural numbers
    (inside the class the noise array is concatenated with an int64 array before use, so the index
    arithmetic of the loops is exact integer arithmetic; a direct call of [dot_jumps_blockwise]
    without noise would use uint8 index arithmetic, which depends on the numpy version and is not
    modelled).  Random numbers come from an abstract generator state [G]. *)
From Verif Require Import RPrelude Arr.
Local Open Scope nat_scope.

Section BlockLoop.
(** The block loop shared (textually identical) by generate_dot_jumps_blockwise
    (_dot_jumps.py:596-603), dot_jumps_pixelwise (_dot_jumps.py:729-736) and random_telegraph_noise
    (_random_telegraph_noise.py:304-311): [width] are the geometric draws, [draw] the height of a
    block (poisson or normal). The height is drawn for quiet blocks, too, and multiplied by 0;
    finite heights are assumed ([0 * h = zero]). *)
Context {V G : Type}.
Variable zero : V.
Variable draw : G -> V * G.

Fixpoint block_loop (width : list nat) (size : nat) (bi : bool) (noise : list V) (g : G) : list V * G :=
  match width with
  | [] => (noise, g)                                    (* the range(size) is exhausted *)
  | w :: ws =>
      let '(noise', bi', g') :=
        if 0 <? w then
          let '(h, g1) := draw g in
          (noise ++ repeat (if bi then h else zero) w, negb bi, g1)
        else (noise, bi, g) in
      if size <=? length noise' then (noise', g')        (* break *)
      else block_loop ws size bi' noise' g'
  end.

(** noise = noise[:size] *)
Definition block_noise (width : list nat) (size : nat) (g : G) : list V * G :=
  let '(n, g') := block_loop width size false [] g in (firstn size n, g').
End BlockLoop.

Section DotJumps.
Context {A : Type}.
Variable isnan : A -> bool.

(** ** dot_jumps_blockwise, axis == 1 (_dot_jumps.py:650-666). [shifted] starts as np.empty: its
    contents are arbitrary. np.maximum(0, j - noise[j] + k) is the truncated subtraction of
    naturals. The assignment [j = j + noise[j]] at the end of the body has no effect on a Python
    for loop. *)
Definition jump_write_1 (original shifted : arr2 A) (nj i j k : nat) : result (arr2 A) :=
  let? v := get2 original i (j + k - nj) in
  if isnan v then
    let? w := get2 original i (j + k) in set2 shifted i (j + k) w
  else set2 shifted i (j + k) v.

Fixpoint jump_k_1 (n : nat) (original shifted : arr2 A) (nj i j k : nat) : result (arr2 A) :=
  match n with
  | O => Ok shifted
  | S n' =>
      if cols original <=? j + k then Ok shifted            (* break *)
      else let? s := jump_write_1 original shifted nj i j k in
           jump_k_1 n' original s nj i j (S k)
  end.

Definition jump_j_1 (original : arr2 A) (noise : list nat) (i : nat) (shifted : arr2 A) (j : nat) : result (arr2 A) :=
  let? nj := get_item noise j in jump_k_1 (nj + 1) original shifted nj i j 0.

Definition jumps_axis_1 (original empty : arr2 A) (noise : list nat) : result (arr2 A) :=
  foldM (fun s i => foldM (jump_j_1 original noise i) (seq 0 (cols original)) s)
        (seq 0 (rows original)) empty.

(** axis == 0 (_dot_jumps.py:667-680) *)
Definition jump_write_0 (original shifted : arr2 A) (nj i j k : nat) : result (arr2 A) :=
  let? v := get2 original (j + k - nj) i in
  if isnan v then
    let? w := get2 original (j + k) i in set2 shifted (j + k) i w
  else set2 shifted (j + k) i v.

Fixpoint jump_k_0 (n : nat) (original shifted : arr2 A) (nj i j k : nat) : result (arr2 A) :=
  match n with
  | O => Ok shifted
  | S n' =>
      if rows original <=? j + k then Ok shifted
      else let? s := jump_write_0 original shifted nj i j k in
           jump_k_0 n' original s nj i j (S k)
  end.

Definition jump_j_0 (original : arr2 A) (noise : list nat) (i : nat) (shifted : arr2 A) (j : nat) : result (arr2 A) :=
  let? nj := get_item noise j in jump_k_0 (nj + 1) original shifted nj i j 0.

Definition jumps_axis_0 (original empty : arr2 A) (noise : list nat) : result (arr2 A) :=
  foldM (fun s i => foldM (jump_j_0 original noise i) (seq 0 (rows original)) s)
        (seq 0 (cols original)) empty.

(** dot_jumps_blockwise with given noise (_dot_jumps.py:645-684), returning the distorted image.
    [scale_is_zero] is the test [scale == 0] (False for the [None] passed by frozen calls). *)
Definition dot_jumps_blockwise (original empty : arr2 A) (scale_is_zero : bool) (noise : list nat) (axis : Z)
  : result (arr2 A) :=
  if scale_is_zero then Ok original
  else if (axis =? 1)%Z then jumps_axis_1 original empty noise
  else if (axis =? 0)%Z then jumps_axis_0 original empty noise
  else Err NotImplementedError.

(** ** dot_jumps_pixelwise with given noise array (_dot_jumps.py:742-754). *)
Fixpoint pix_k (n : nat) (original shifted : arr2 A) (nij i j k : nat) : result (arr2 A) :=
  match n with
  | O => Ok shifted
  | S n' =>
      if cols original <=? j + k then Ok shifted
      else let? v := get2 original i (j + k - nij) in
           let? s := set2 shifted i (j + k) v in
           pix_k n' original s nij i j (S k)
  end.
Definition pix_j (original : arr2 A) (noise : arr2 nat) (i : nat) (shifted : arr2 A) (j : nat) : result (arr2 A) :=
  let? nij := get2 noise i j in pix_k (nij + 1) original shifted nij i j 0.
Definition dot_jumps_pixelwise (original empty : arr2 A) (scale_is_zero : bool) (noise : arr2 nat) : result (arr2 A) :=
  if scale_is_zero then Ok original
  else foldM (fun s i => foldM (pix_j original noise i) (seq 0 (cols original)) s)
             (seq 0 (rows original)) empty.
End DotJumps.

(** ** The distortion class. *)
(** generate_dot_jumps_blockwise (_dot_jumps.py:590-607). [widths] models
    rng.geometric(p=1/scale, size=size); astype("uint8") reduces modulo 256. *)
Definition uint8 (x : nat) : nat := x mod 256.
Arguments uint8 x : simpl never.
Definition generate_dot_jumps_blockwise {G} (poisson : G -> nat * G) (scale_is_zero : bool)
    (widths : nat -> G -> list nat * G) (size : nat) (g : G) : list nat * G :=
  if scale_is_zero then (repeat 0 size, g)
  else
    let '(w, g1) := widths size g in
    let '(n, g2) := block_noise 0 poisson w size g1 in
    (map uint8 n, g2).

Definition list_max (l : list nat) : nat := fold_right Nat.max 0 l.

Section JumpClass.
Context {A : Type}.
Variable isnan : A -> bool.
Variable nan : A.

Notation occ1 := (arr1 (A * A)).       (* occupations of a 1D scan, shape (n, 2) *)
Notation occ2 := (arr2 (A * A)).       (* occupations of a 2D scan, shape (rows, cols, 2) *)
Definition limits := (R * R)%type.

(** What a call of generate_csd returns for the 1D / 2D scans requested by the jump code. It is an
    arbitrary function here (user supplied closure). *)
Variable gen1 : limits -> limits -> nat -> occ1 * arr1 A.        (* 1D: limits g1, limits g2, resolution *)
Variable gen2 : limits -> limits -> nat * nat -> occ2 * arr2 A.  (* 2D: resolution (g1, g2) *)

(** np.full NaN + np.fill_diagonal (_dot_jumps.py:303-308) *)
Definition diag_embed (a : arr1 A) : arr2 A :=
  mk_arr2 (len1 a) (len1 a) (fun r c => if r =? c then cell1 a r else nan).
(** hstack of a NaN column and fill_diagonal of the widened array (lines 331-334, 337-344):
    the new diagonal starts in the new column. *)
Definition push_col (diag : arr1 A) (a : arr2 A) : arr2 A :=
  mk_arr2 (rows a) (S (cols a))
    (fun r c => if r =? c then cell1 diag r
                else match c with O => nan | S c' => cell a r c' end).
(** vstack of a NaN row (lines 357-360, 363-370) *)
Definition push_row (diag : arr1 A) (a : arr2 A) : arr2 A :=
  mk_arr2 (S (rows a)) (cols a)
    (fun r c => if r =? c then cell1 diag r
                else match r with O => nan | S r' => cell a r' c end).

(** _noise_function_1d for one component (occupation of dot 1, of dot 2, or the lead transitions;
    the code treats the three identically, lines 302-414). [component] extracts it from the generated
    data; [have_gen] says whether generate_csd is not None. The code calls generate_csd once for the
    three components; here the (pure) [gen1] is applied per component. *)
Open Scope R_scope.
Definition shifted_limits (l : limits) (s : nat) (step : R) : limits :=
  (fst l - INR s * step, snd l - INR s * step).

Definition jump1d_component (have_gen : bool) (axis : Z) (lim1 lim2 : limits) (noise : list nat)
    (scale_is_zero : bool) (component : occ1 * arr1 A -> arr1 A) (empty : nat -> nat -> arr2 A)
    (data : arr1 A) : result (arr1 A) :=
  let n := len1 data in
  let max_jump := list_max noise in
  let use_gen := (have_gen && (0 <? max_jump)%nat)%bool in
  let added := if use_gen then max_jump else O in
  (* lines 320 and 346: in both branches the step size is computed from the g1 limits *)
  let step := (snd lim1 - fst lim1) / INR n in
  let img :=
    if use_gen then
      if (axis =? 1)%Z then
        fold_left (fun im i => push_col (component (gen1 (shifted_limits lim1 (i + 1) step) lim2 n)) im)
                  (seq 0 max_jump) (diag_embed data)
      else if (axis =? 0)%Z then
        fold_left (fun im i => push_row (component (gen1 lim1 (shifted_limits lim2 (i + 1) step) n)) im)
                  (seq 0 max_jump) (diag_embed data)
      else diag_embed data
    else diag_embed data in
  let? out := dot_jumps_blockwise isnan img (empty (rows img) (cols img)) scale_is_zero
                (repeat O added ++ noise) axis in
  if (axis =? 1)%Z then
    Ok (mk_arr1 n (fun i => cell out i (i + added)))
  else
    Ok (mk_arr1 n (fun i => cell out (i + added) i)).

(** _noise_function_2d for one component (lines 458-558). *)
Definition hstack (a b : arr2 A) : arr2 A :=
  mk_arr2 (rows b) (cols a + cols b)
    (fun r c => if (c <? cols a)%nat then cell a r c else cell b r (c - cols a)).
Definition vstack (a b : arr2 A) : arr2 A :=
  mk_arr2 (rows a + rows b) (cols b)
    (fun r c => if (r <? rows a)%nat then cell a r c else cell b (r - rows a) c).

(** the generated strip as an image: for max_jump = 1 a 1D scan is requested and reshaped
    (lines 469-478 and 485-494). *)
Definition strip_axis_1 (component1 : occ1 * arr1 A -> arr1 A) (component2 : occ2 * arr2 A -> arr2 A)
    (lim1 lim2 : limits) (m : nat) (img : arr2 A) : arr2 A :=
  let step := (snd lim1 - fst lim1) / INR (cols img) in
  let l1 := (fst lim1 - INR m * step, fst lim1 - step) in
  if (1 <? m)%nat then component2 (gen2 l1 lim2 (m, rows img))
  else let s := component1 (gen1 l1 lim2 (rows img)) in
       mk_arr2 (rows img) m (fun r _ => cell1 s r).
Definition strip_axis_0 (component1 : occ1 * arr1 A -> arr1 A) (component2 : occ2 * arr2 A -> arr2 A)
    (lim1 lim2 : limits) (m : nat) (img : arr2 A) : arr2 A :=
  let step := (snd lim2 - fst lim2) / INR (rows img) in
  let l2 := (fst lim2 - INR m * step, fst lim2 - step) in
  if (1 <? m)%nat then component2 (gen2 lim1 l2 (cols img, m))
  else let s := component1 (gen1 lim1 l2 (cols img)) in
       mk_arr2 m (cols img) (fun _ c => cell1 s c).

Definition jump2d_component (have_gen : bool) (axis : Z) (lim1 lim2 : limits) (noise : list nat)
    (scale_is_zero : bool) (component1 : occ1 * arr1 A -> arr1 A) (component2 : occ2 * arr2 A -> arr2 A)
    (empty : nat -> nat -> arr2 A) (img : arr2 A) : result (arr2 A) :=
  let max_jump := list_max noise in
  let use_gen := (have_gen && (0 <? max_jump)%nat)%bool in
  let added := if use_gen then max_jump else O in
  let stacked :=
    if use_gen then
      if (axis =? 1)%Z then hstack (strip_axis_1 component1 component2 lim1 lim2 max_jump img) img
      else if (axis =? 0)%Z then vstack (strip_axis_0 component1 component2 lim1 lim2 max_jump img) img
      else img
    else img in
  (* lines 505 and 532: any other axis leaves the image alone *)
  if negb ((axis =? 1)%Z || (axis =? 0)%Z) then Ok img else
  let? out := dot_jumps_blockwise isnan stacked (empty (rows stacked) (cols stacked)) scale_is_zero
                (repeat O added ++ noise) axis in
  if (axis =? 1)%Z then
    Ok (mk_arr2 (rows img) (cols img) (fun r c => cell out r (c + added)))
  else
    Ok (mk_arr2 (rows img) (cols img) (fun r c => cell out (r + added) c)).
Close Scope R_scope.
End JumpClass.
