(** Properties of the dot jumps that depend on the version of numpy. *)
From Verif Require Import RPrelude Arr ModelJumps ModelPromotion ProofsPromotion.

(** C105 1D scans with dot jumps are read back from the diagonal *)
Theorem C105_numpy1_partial {A} (out : arr2 A) n added :
  (n <= rows out -> n + added <= cols out -> read_1 Numpy1 out n added = Ok (map (fun i => cell out i (i + added)) (seq 0 n))) /\
  (n <= cols out -> n + added <= rows out -> read_0 Numpy1 out n added = Ok (map (fun i => cell out (i + added) i) (seq 0 n))).
Proof. exact (conj (read_1_numpy1 out n added) (read_0_numpy1 out n added)). Qed.
Print Assumptions C105_numpy1_partial.

(** With numpy 2 this holds for scans of up to 256 - added pixels, *)
Theorem C105_numpy2_partial {A} (out : arr2 A) n added : n + added <= 256 ->
  (n <= rows out -> n + added <= cols out -> read_1 Numpy2 out n added = read_1 Numpy1 out n added) /\
  (n <= cols out -> n + added <= rows out -> read_0 Numpy2 out n added = read_0 Numpy1 out n added).
Proof. exact (read_same out n added). Qed.
Print Assumptions C105_numpy2_partial.

(** but more than 256 pixels raise OverflowError, and below that the pixels beyond 256 - added are taken
    from the wrong side of the diagonal. *)
Theorem C105_long_scan_refuted {A} (out : arr2 A) n added : 256 < n ->
  (n <= rows out -> n + added <= cols out -> read_1 Numpy2 out n added = Err OverflowError) /\
  (n <= cols out -> n + added <= rows out -> read_0 Numpy2 out n added = Err OverflowError).
Proof. exact (fun H => conj (fun Hr Hc => read_1_numpy2_large out n added Hr Hc H) (fun Hr Hc => read_0_numpy2_large out n added Hr Hc H)). Qed.
Print Assumptions C105_long_scan_refuted.
Theorem C105_wrapped_refuted {A} (out : arr2 A) n added i :
  n <= rows out -> n + added <= cols out -> n <= 256 -> added < 256 -> i < n -> 256 <= i + added ->
  exists l, read_1 Numpy2 out n added = Ok l /\ nth_error l i = Some (cell out i (i + added - 256)) /\ i + added - 256 < i.
Proof. exact (read_wraps out n added i). Qed.
Print Assumptions C105_wrapped_refuted.

(** 300 pixels and one added column, marked by their distance from the diagonal *)
Example C105_example :
  let out := mk_arr2 300 301 (fun r c => (r, c)) in
  read_1 Numpy2 out 300 1 = Err OverflowError /\
  (exists l, read_1 Numpy1 out 300 1 = Ok l /\ nth_error l 299 = Some (299, 300)) /\
  (exists l, read_1 Numpy2 out 256 1 = Ok l /\ nth_error l 254 = Some (254, 255) /\ nth_error l 255 = Some (255, 0)).
Proof. split; [reflexivity|]. split; eexists; (split; [vm_compute; reflexivity|]); vm_compute; auto. Qed.

(** C106 the index of the pixel shown by a jump of the functions dot_jumps_blockwise and
    dot_jumps_pixelwise, called with uint8 heights *)
Theorem C106_numpy1_partial j nj k : shown_index Numpy1 j nj k = Ok (j + k - nj).
Proof. exact (shown_numpy1 j nj k). Qed.
Print Assumptions C106_numpy1_partial.
Theorem C106_numpy2_partial j nj k : nj <= j -> j + k - nj < 256 -> j < 256 -> k < 256 -> shown_index Numpy2 j nj k = Ok (j + k - nj).
Proof. exact (shown_numpy2_same j nj k). Qed.
Print Assumptions C106_numpy2_partial.
Theorem C106_large_image_refuted j nj k : 256 <= j -> shown_index Numpy2 j nj k = Err OverflowError.
Proof. exact (shown_numpy2_large j nj k). Qed.
Print Assumptions C106_large_image_refuted.
Theorem C106_edge_refuted j nj k : j + k < nj -> nj < 256 -> shown_index Numpy2 j nj k = Ok (256 + (j + k) - nj).
Proof. exact (shown_numpy2_wraps j nj k). Qed.
Print Assumptions C106_edge_refuted.

Example C106_example : shown_index Numpy1 1 3 0 = Ok 0 /\ shown_index Numpy2 1 3 0 = Ok 254 /\ shown_index Numpy2 300 0 0 = Err OverflowError.
Proof. repeat split; reflexivity. Qed.
