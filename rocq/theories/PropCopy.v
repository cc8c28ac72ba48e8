(* Properties of copying results; proofs in CopyFacts.v. *)
From stdpp Require Import sorting relations functions list_numbers list.
From Coq Require Import ZArith.
From Verif Require Import CopyModel CopyFacts.
Local Open Scope nat_scope.

(* C28: a copy reads like its source, and records that own their points do so also after the
   source was destroyed; *)
Theorem C28_own_points_are_copied :
  forall m a b, result_ok m a b ->
  exists a' b' m1 m2, copy_result a b m = Some (a', b', m1) /\ destroy_result true a b m1 = Some m2 /\
    forall r r' i, (c_msers a !! i = Some r /\ c_msers a' !! i = Some r' \/ c_msers b !! i = Some r /\ c_msers b' !! i = Some r') ->
      rec_points m1 r' = rec_points m r /\ (r_self r = true -> rec_points m2 r' = rec_points m r).
Proof. exact copy_self. Qed.
Print Assumptions C28_own_points_are_copied.
(* but it is false for all other records: they keep pointing into the memory of the source
   (img_mser_base.cpp:42), although that memory is copied too. *)
Theorem C28_shared_points_refuted :
  forall m a b, result_ok m a b ->
  exists a' b' m1 m2, copy_result a b m = Some (a', b', m1) /\ destroy_result true a b m1 = Some m2 /\
    length (c_msers a') = length (c_msers a) /\ length (c_msers b') = length (c_msers b) /\
    forall r r' i, (c_msers a !! i = Some r /\ c_msers a' !! i = Some r' \/ c_msers b !! i = Some r /\ c_msers b' !! i = Some r') ->
      r_self r = false -> r_size r <> 0 -> rec_points m2 r' = None.
Proof. exact copy_shared. Qed.
Print Assumptions C28_shared_points_refuted.
Example C28_example : result_ok ex_mem ex_a chan0 /\ map (rec_points ex_mem) (c_msers ex_a) = [Some [2; 3; 4]%Z; Some [7; 8]%Z].
Proof. split; [exact ex_result_ok|]. vm_compute. reflexivity. Qed.

(* C50 is false: a copy of a result with memory is destroyed by free although its memory came
   from new, *)
Theorem C50_destroying_a_copy_refuted :
  forall m a b, result_ok m a b -> 0 < c_size a \/ 0 < c_size b ->
  exists a' b' m1, copy_result a b m = Some (a', b', m1) /\ destroy_result true a' b' m1 = None.
Proof. exact copy_destroy. Qed.
Print Assumptions C50_destroying_a_copy_refuted.
(* and extracting again into a result releases memory from malloc with delete[]. *)
Theorem C50_extracting_again_refuted :
  forall m a b, result_ok m a b -> c_mem a <> None \/ c_mem b <> None -> clear_result true a b m = None.
Proof. exact clear_fails. Qed.
Print Assumptions C50_extracting_again_refuted.
Example C50_example : result_ok ex_mem ex_a chan0 /\ 0 < c_size ex_a /\ c_mem ex_a <> None.
Proof. split; [exact ex_result_ok|]. split; [apply Nat.lt_0_succ|discriminate]. Qed.
