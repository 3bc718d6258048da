(** Objects and arguments of two sensors *)
From Verif Require Import RPrelude ModelShared.
Local Open Scope R_scope.

(** 0 and 1: lever-arms of the sensor gates, 2 and 3: lever-arms of dots and gates, 4: a peak, 5: a barrier function,
    6: a deformation that has not been used yet, 7: lever-arms of shape (3, 2), 8: a rise *)
Definition shared_objects : heap :=
  [CArray [1; 0; 0; 0; 0; 0]; CArray [2; 0; 0; 0; 0; 0]; CArray [-1; -2]; CArray [3; 4]; CPeak [5; 6]; CBarrier [7; 8]; CDeform (Linear (PI / 4)) None;
   CArray [1; 2; 1; 2; 1; 2]; CRise [9]].
Definition first_args : scan_args :=
  mk_scan_args (OneBarrier 5%nat) (PeaksOne 4%nat) (ArrayRef 0%nat) (ArrayRef 3%nat) (ArrayRef 2%nat) (OffsetNumber 10) None [(0, 6)%nat].
Definition second_args : scan_args :=
  mk_scan_args (TwoBarriers 5%nat 5%nat) (PeaksList [4; 4]%nat) (ArrayRef 1%nat) (ArrayRef 7%nat) ArrayNone (OffsetNumber 10) (Some 8%nat) [(0, 6)%nat].
(** the objects after the first and after the second constructor *)
Definition objects_with (owner : nat) : heap :=
  [CArray [1; 0; 0; 0; 0; 0]; CArray [2; 0; 0; 0; 0; 0]; CArray [-1; -2]; CArray [3; 4]; CPeak [5; 6]; CBarrier [7; 8]; CDeform (Linear (PI / 4)) (Some owner);
   CArray [1; 2; 1; 2; 1; 2]; CRise [9];
   CScan (mk_scan_fields (Some [10]) [(0, 6)] None 11 12 0 13 (14, 15))%nat; CPeak [5; 6]; CArray [-1; -2; -1; -2; -1; -2]; CArray [3; 4; 3; 4; 3; 4];
   CArray [10; 10; 10]; CBarrier [7; 8]; CBarrier [7; 8]].
Definition first_objects : heap := objects_with 9.
Definition second_objects : heap :=
  objects_with 16 ++ [CScan (mk_scan_fields (Some [17; 18]) [(0, 6)] (Some 8) 19 7 1 20 (5, 5))%nat; CPeak [5; 6]; CPeak [5; 6]; CArray [0; 0; 0; 0; 0; 0];
   CArray [10; 10; 10]].
