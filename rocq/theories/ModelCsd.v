(** Model of the ideal charge stability diagrams of simcats/ideal_csd/geometric:
    lead transition masks, electron occupations and the driver ideal_csd_geometric. *)
From Verif Require Import RPrelude Arr ModelSupport ModelTct.
Local Open Scope R_scope.

(** A dictionary of TCT functions (key = TCT number): arguments lut_entries and x_eval (array). *)
Definition tct_function := option nat -> list R -> result (list R).
Definition tct_dict := list (nat * tct_function).

(** func(x_eval=number): the array result's only entry. *)
Definition call_number (f : tct_function) (lut : option nat) (x : R) : result R :=
  let? ys := f lut [x] in get_item ys 0.

(** A Python dictionary lookup. *)
Fixpoint dict_get {A} (d : list (nat * A)) (k : nat) : result A :=
  match d with
  | [] => Err KeyError
  | (k', v) :: t => if (k' =? k)%nat then Ok v else dict_get t k
  end.

(** dict(sorted(d.items())): ascending keys (keys of a dictionary are distinct). *)
Fixpoint insert_item {A} (x : nat * A) (l : list (nat * A)) : list (nat * A) :=
  match l with
  | [] => [x]
  | y :: t => if (fst x <=? fst y)%nat then x :: y :: t else y :: insert_item x t
  end.
Definition sorted_items {A} (l : list (nat * A)) : list (nat * A) := fold_right insert_item [] l.

(** ** _generate_lead_transition_mask.py *)

(** Assigning a number to a cell of a uint8 array (numpy wraps modulo 256). *)
Definition to_uint8 (z : Z) : nat := Z.to_nat (z mod 256).

(** generate_lead_transition_mask_1d, lines 30-42. The total occupation is a float; storing it in the
    uint8 array truncates it. *)
Definition lead_mask_1d (occ : list (R * R)) : result (list nat) :=
  let total := map (fun o => fst o + snd o) occ in
  let n := length total in
  let ids := filter (fun i => negb (Reqb (nth i total 0) (nth (S i) total 0))) (seq 0 (n - 1)) in
  foldM (fun res i =>
           let? a := get_item total i in
           let? b := get_item total (S i) in
           if Rltb a b then set_item res (S i) (to_uint8 (Int_part b))
           else set_item res i (to_uint8 (Int_part a)))
        ids (repeat 0%nat n).

(** Python index into an axis of length n: negative indices count from the end. *)
Definition np_index (n : nat) (z : Z) : result nat :=
  if ((0 <=? z) && (z <? Z.of_nat n))%Z then Ok (Z.to_nat z)
  else if ((- Z.of_nat n <=? z) && (z <? 0))%Z then Ok (Z.to_nat (z + Z.of_nat n))
  else Err IndexError.

Definition set_pixel {A} (a : arr2 A) (i j : Z) (x : A) : result (arr2 A) :=
  let? i' := np_index (rows a) i in
  let? j' := np_index (cols a) j in
  set2 a i' j' x.

(** Step size, lines 91-92. *)
Definition pixel_step (lims : R * R) (res : nat) : R := (snd lims - fst lims) / (INR res - 1).

(** Sampled x-values of the transitions, lines 98-105. *)
Definition mask_samples (xl yl : R * R) (xres yres : nat) (rotation : R) : list R :=
  let corners := [(fst xl, fst yl); (fst xl, snd yl); (snd xl, fst yl); (snd xl, snd yl)] in
  let xs := map fst (rotate_points (- rotation) corners) in
  let lo := fold_right Rmin (hd 0 xs) xs in
  let hi := fold_right Rmax (hd 0 xs) xs in
  let x_step := pixel_step xl xres in
  linspace (lo - x_step) (hi + x_step) ((xres + yres) * 4).

(** Lines 117-122: is the (rotated) transition point inside the image? *)
Definition mask_valid (xl yl : R * R) (xs ys : R) (q : point) : bool :=
  Rltb (fst xl - 1/2 * xs) (fst q) && Rltb (fst q) (snd xl + 1/2 * xs) &&
  Rltb (fst yl - 1/2 * ys) (snd q) && Rltb (snd q) (snd yl + 1/2 * ys).

(** np.floor_divide(v + 0.5 * step - lim[0], step).astype(int), lines 132-133. *)
Definition pixel_id (lims : R * R) (step v : R) : Z := Int_part ((v + 1/2 * step - fst lims) / step).

(** Lines 109-134 for one TCT. Fancy-index assignment of a scalar: all pixels get the same value. *)
Definition mask_add_tct (xl yl : R * R) (samples : list R) (rotation : R) (lut : option nat)
  (mask : arr2 nat) (tct : nat * tct_function) : result (arr2 nat) :=
  let xs := pixel_step xl (cols mask) in
  let ys := pixel_step yl (rows mask) in
  let? y := snd tct lut samples in
  let points := filter (mask_valid xl yl xs ys) (rotate_points rotation (combine samples y)) in
  foldM (fun m q => set_pixel m (pixel_id yl ys (snd q)) (pixel_id xl xs (fst q))
                              (to_uint8 (Z.of_nat (fst tct))))
        points mask.

(** generate_lead_transition_mask_2d, lines 82-136, on an image of zeros. *)
Definition lead_mask_2d (yres xres : nat) (xl yl : R * R) (tcts : tct_dict) (rotation : R)
  (lut : option nat) : result (arr2 nat) :=
  foldM (mask_add_tct xl yl (mask_samples xl yl xres yres rotation) rotation lut)
        tcts (mk_arr2 yres xres (fun _ _ => 0%nat)).

(** ** _get_electron_occupation.py *)

Inductive cdf_kind := Sigmoid | Cauchy | UnknownCdf.

(** _occupation_func, lines 42-56 (one point). *)
Definition occupation_func (kind : cdf_kind) (params : list R) (l0 l1 pt : point) : result (R * R) :=
  let max_occ := INR (length params) / 2 in
  let dist := signed_dist pt l0 l1 in
  let? occ_1 := match kind with
                | Sigmoid => multi_sigmoid_cdf dist params
                | Cauchy => multi_cauchy_cdf dist params
                | UnknownCdf => Err ValueError
                end in
  Ok (occ_1, max_occ - occ_1).

(** Lines 131-140. *)
Definition default_gamma_factor (kind : cdf_kind) (gf : option R) : result R :=
  match gf, kind with
  | Some g, _ => Ok g
  | None, Sigmoid => Ok (22 / 10)
  | None, Cauchy => Ok (615 / 100)
  | None, UnknownCdf => Err ValueError
  end.

(** range(0, shape[0], 2) *)
Fixpoint every_other {A} (l : list A) : list A :=
  match l with
  | a :: _ :: t => a :: every_other t
  | [a] => [a]
  | [] => []
  end.

(** Lines 208-232: reference line and CDF parameters of a region. The except clause turns a KeyError
    into an IndexError. *)
Definition key_to_index {A} (r : result A) : result A :=
  match r with Err KeyError => Err IndexError | _ => r end.
Definition region_setup (coords : list (nat * list anchors)) (gamma_factor : R) (reg : nat)
  : result (point * point * list R) :=
  let? upper := key_to_index (dict_get coords (S reg)) in
  let? a := get_item upper 1 in
  let? own := key_to_index (dict_get coords reg) in
  let? b := get_item own 0 in
  let l0 := snd (fst a) in
  let l1 := snd (fst b) in
  let entry (q : anchors) :=
    let '(al, ac, ar) := q in
    let coupling := signed_dist ar l0 l1 - signed_dist al l0 l1 in
    [signed_dist ac l0 l1; coupling / gamma_factor] in
  Ok (l0, l1, flat_map entry (every_other own)).

(** np.unique of natural numbers *)
Definition unique (l : list nat) : list nat :=
  filter (fun r => existsb (Nat.eqb r) l) (seq 0 (S (list_max l))).

(** Lines 199-251: loop over the regions; [pixels] lists voltage point and region number of every
    pixel in row-major order. *)
Definition fill_occupations (kind : cdf_kind) (coords : list (nat * list anchors)) (gamma_factor : R)
  (pixels : list (point * nat)) : result (list (R * R)) :=
  foldM (fun occ reg =>
           if (reg =? 0)%nat then Ok occ
           else
             let? s := region_setup coords gamma_factor reg in
             let '(l0, l1, params) := s in
             mapM (fun po : (point * nat) * (R * R) =>
                     let '((pt, r), o) := po in
                     if (r =? reg)%nat then occupation_func kind params l0 l1 pt else Ok o)
                  (combine pixels occ))
        (unique (map snd pixels)) (map (fun _ => (0, 0)) pixels).

(** Lines 186-196: region numbers of a 1D scan; descending TCT numbers, lower ones overwrite. *)
Definition regions_1d (points : list point) (tcts : tct_dict) (rotation : R) (lut : option nat)
  : result (list nat) :=
  let rot := rotate_points (- rotation) points in
  foldM (fun mask tct =>
           let? ys := snd tct lut (map fst rot) in
           Ok (map (fun pym : (point * R) * nat =>
                      let '((q, y), m) := pym in
                      if Rltb (snd q) y then (fst tct - 1)%nat else m)
                   (combine (combine rot ys) mask)))
        (rev (sorted_items tcts)) (repeat 0%nat (length points)).

(** Lines 174-178: the number of TCTs passed by a point (stop at the first one above it). *)
Fixpoint passed (tcts : tct_dict) (lut : option nat) (q : point) (reg_val : nat) : result nat :=
  match tcts with
  | [] => Ok reg_val
  | (k, f) :: t => let? y := call_number f lut (fst q) in
                   if Rleb y (snd q) then passed t lut q k else Ok reg_val
  end.

(** Pixels in row-major order (the order of np.where). *)
Definition pixels_of (nr nc : nat) : list (nat * nat) :=
  flat_map (fun i => map (fun j => (i, j)) (seq 0 nc)) (seq 0 nr).

(** Lines 161-179. [labels] is the result of dip.Label (0 = background); the first pixel of each
    region decides. The mask is a uint8 array. *)
Definition regions_2d (mask labels : arr2 nat) (col_values row_values : nat -> R) (tcts : tct_dict)
  (rotation : R) (lut : option nat) : result (arr2 nat) :=
  let all := pixels_of (rows mask) (cols mask) in
  let regs := filter (fun r => negb (r =? 0)%nat) (unique (map (fun ij => cell labels (fst ij) (snd ij)) all)) in
  foldM (fun m reg =>
           match filter (fun ij => (cell labels (fst ij) (snd ij) =? reg)%nat) all with
           | [] => Err IndexError
           | (i, j) :: _ =>
               let q := rotate_point (- rotation) (col_values j, row_values i) in
               let? v := passed (sorted_items tcts) lut q 0 in
               Ok (mk_arr2 (rows m) (cols m)
                     (fun i' j' => if (cell labels i' j' =? reg)%nat then to_uint8 (Z.of_nat v) else cell m i' j'))
           end)
        regs mask.

(** Entry of np.linspace(lims[0], lims[1], n). *)
Definition grid (lims : R * R) (n i : nat) : R := fst lims + INR i * ((snd lims - fst lims) / INR (n - 1)).

(** get_electron_occupation for 1D, n pixels. *)
Definition occupation_1d (n : nat) (xl yl : R * R) (coords : list (nat * list anchors)) (tcts : tct_dict)
  (rotation : R) (lut : option nat) (kind : cdf_kind) (gf : option R) : result (list (R * R)) :=
  let? g := default_gamma_factor kind gf in
  let points : list point := map (fun i => (grid xl n i, grid yl n i) : point) (seq 0 n) in
  let? regs := regions_1d points tcts rotation lut in
  fill_occupations kind coords g (combine points regs).

(** get_electron_occupation for 2D. [label] stands for dip.Label with connectivity 1. *)
Definition occupation_2d (label : arr2 nat -> arr2 nat) (mask : arr2 nat) (xl yl : R * R)
  (coords : list (nat * list anchors)) (tcts : tct_dict)
  (rotation : R) (lut : option nat) (kind : cdf_kind) (gf : option R) : result (arr2 (R * R)) :=
  let? g := default_gamma_factor kind gf in
  let nr := rows mask in let nc := cols mask in
  let? regs := regions_2d mask (label mask) (grid xl nc) (grid yl nr) tcts rotation lut in
  let? occ := fill_occupations kind coords g
      (map (fun ij => ((grid xl nc (snd ij), grid yl nr (fst ij)), cell regs (fst ij) (snd ij)))
           (pixels_of nr nc)) in
  Ok (mk_arr2 nr nc (fun i j => nth (i * nc + j) occ (0, 0))).

(** ** _ideal_csd_geometric.py *)

Inductive csd_data :=
| Csd1 (occ : list (R * R)) (lead : list nat)
| Csd2 (occ : arr2 (R * R)) (lead : arr2 nat).

(** resolution: an int or an array *)
Inductive resolution := ResInt (n : Z) | ResArray (l : list Z).
Definition res_list (r : resolution) : list Z := match r with ResInt n => [n] | ResArray l => l end.

(** Line 86: limits[0] == limits[1]; too short limits raise IndexError. *)
Definition fixed_voltage (l : list R) : result bool :=
  let? a := get_item l 0 in let? b := get_item l 1 in Ok (Reqb a b).

(** Lines 85-125: validation; returns the two limits as pairs. The check of lines 107-115 repeats
    that of line 86. *)
Definition check_request (l1 l2 : list R) (res : list Z) : result ((R * R) * (R * R)) :=
  let? _ := (if (length res =? 2)%nat then
               let? f1 := fixed_voltage l1 in
               if f1 then Err ValueError
               else let? f2 := fixed_voltage l2 in if f2 then Err ValueError else Ok tt
             else Ok tt) in
  match l1, l2 with
  | [a1; b1], [a2; b2] =>
      raise_if (2 <? length res)%nat ValueError
      (raise_if ((length res =? 2)%nat && existsb (fun r => r <=? 1)%Z res) ValueError
       (Ok ((a1, b1), (a2, b2))))
  | _, _ => Err ValueError
  end.

Definition np_sort (l : R * R) : R * R := if Rleb (fst l) (snd l) then l else (snd l, fst l).

(** ideal_csd_geometric, lines 81-187. np.zeros of a negative size raises ValueError; an empty
    resolution reaches the return statement without having assigned the result. *)
Definition ideal_csd_geometric (label : arr2 nat -> arr2 nat) (params : list tct_params)
  (l1 l2 : list R) (res : resolution) (rotation : R) (lut : option nat) (kind : cdf_kind)
  (gf : option R) : result csd_data :=
  let? lims := check_request l1 l2 (res_list res) in
  let (xl, yl) := lims in
  let tcts := initialize_tct_functions params 1 in
  let coords := calculate_all_bezier_anchors params 1 rotation in
  match res_list res with
  | [n] =>
      raise_if (n <? 0)%Z ValueError
      (let? occ := occupation_1d (Z.to_nat n) xl yl coords tcts rotation lut kind gf in
       let? lead := lead_mask_1d occ in
       Ok (Csd1 occ lead))
  | [nx; ny] =>
      let sx := np_sort xl in let sy := np_sort yl in
      let? lead := lead_mask_2d (Z.to_nat ny) (Z.to_nat nx) sx sy tcts rotation lut in
      let? occ := occupation_2d label lead sx sy coords tcts rotation lut kind gf in
      let (lead, occ) := if Rltb (snd yl) (fst yl) then (flip_rows lead, flip_rows occ) else (lead, occ) in
      let (lead, occ) := if Rltb (snd xl) (fst xl) then (flip_cols lead, flip_cols occ) else (lead, occ) in
      Ok (Csd2 occ lead)
  | _ => Err UnboundLocalError
  end.
