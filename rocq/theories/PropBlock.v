(* Properties of the block memory; proofs in BlockFacts.v.  x86 says what a shift by 32 or
   more does: undefined (false) or modulo 32 (true); the theorems hold for both. *)
From stdpp Require Import sorting relations functions list_numbers list.
From Coq Require Import ZArith.
From Verif Require Import BlockModel BlockFacts.
Local Open Scope nat_scope.

(* C25: whatever a client does, the block memory behaves like a list: the iteration visits
   the elements in order, the element i has the same place by index, the places are
   different and hold the values last written, and the memory of others is unchanged. *)
Theorem C25_block_memory_is_a_list :
  forall x86 m0 os a, spec_ops x86 os None = Some (Some a) ->
  exists s m ps, run_ops x86 os (fresh_bm, m0) = Some (s, m) /\ b_elems s = length (a_vals a) /\
    bm_iterate (S (b_elems s)) s bpos0 = Some ps /\ NoDup ps /\
    Forall2 (fun p v => load m p = Some (Some v)) ps (a_vals a) /\ (forall i, i < length (a_vals a) -> bm_at x86 s i = ps !! i) /\
    take (length m0) m = m0.
Proof. exact lifetime_ok. Qed.
Print Assumptions C25_block_memory_is_a_list.
(* C25: elements keep their addresses. *)
Theorem C25_addresses_are_stable :
  forall x86 m0 os os' a a', spec_ops x86 os None = Some (Some a) -> spec_ops x86 os' (Some a) = Some (Some a') -> (forall o, o ∈ os' -> keeps_blocks o) ->
  exists s m s' m', run_ops x86 os (fresh_bm, m0) = Some (s, m) /\ run_ops x86 (os ++ os') (fresh_bm, m0) = Some (s', m') /\
    forall i, i < length (a_vals a) -> exists p, bm_at x86 s i = Some p /\ bm_at x86 s' i = Some p.
Proof. exact addresses_ok. Qed.
Print Assumptions C25_addresses_are_stable.
(* C25: init with the exponent and the kind of before keeps all blocks and allocates nothing. *)
Theorem C25_init_again_keeps_the_blocks :
  forall x86 m0 os a base new max, spec_ops x86 os None = Some (Some a) ->
  exists s m, run_ops x86 os (fresh_bm, m0) = Some (s, m) /\
  (base = b_base s -> new = b_new s -> exists s', bm_init x86 base new max s m = Some (s', m) /\ b_datas s' = b_datas s /\ b_elems s' = 0).
Proof. exact again_ok. Qed.
Print Assumptions C25_init_again_keeps_the_blocks.
(* C25: after clear nothing is left allocated. *)
Theorem C25_clear_frees_all_blocks :
  forall x86 m0 os, spec_ops x86 os None = Some None ->
  exists s m, run_ops x86 os (fresh_bm, m0) = Some (s, m) /\ take (length m0) m = m0 /\ forall d, length m0 <= d -> m !! d = None \/ m !! d = Some None.
Proof. exact cleared_ok. Qed.
Print Assumptions C25_clear_frees_all_blocks.
(* C25 is false for the exponent 0 on a new object: the first block is taken from an empty
   list (mt_block_memory.h:113). *)
Theorem C25_exponent_0_refuted : forall x86 max m, bm_init x86 0 false max fresh_bm m = None.
Proof. exact (fun x86 max m => eq_refl). Qed.
Print Assumptions C25_exponent_0_refuted.
Example C25_example :
  let os := [BInit 1 false 2; BAppend 10; BAppend 20; BAppend 30; BRelease 1; BAppend 40; BSet 0 50; BAppend 60; BAppend 70; BReset; BAppend 80; BAppend 90; BAppend 1] in
  spec_ops false os None = Some (Some (Arena [80; 90; 1]%Z [] 2)) /\
  run_ops false os (fresh_bm, [None]) =
    Some (BM (Some (1, 0)) (Some (2, 1)) (Some (2, 2)) 1 3 2 1 1 false [] 2 [1; 2; 3],
          [None; Some (false, [Some 80; Some 90]); Some (false, [Some 1; Some 60]); Some (false, [Some 70; None])]%Z) /\
  spec_ops true (os ++ [BInit 2000 true 0; BInit 5 false 0; BAppend 4; BClear]) None = Some None.
Proof. vm_compute. repeat split. Qed.

(* C48 is false: the exponent used for the regions makes the shift undefined.  On x86 the
   blocks have 65536 elements. *)
Theorem C48_region_blocks_refuted :
  (forall new max s m, b_base s = 0 -> bm_init false 2000 new max s m = None) /\ block_size true 2000 = Some (Nat.pow 2 16).
Proof. exact region_blocks. Qed.
Print Assumptions C48_region_blocks_refuted.
Example C48_example : b_base fresh_bm = 0.
Proof. vm_compute. reflexivity. Qed.

(* C49 is false: no element of a full block is reported to be in the block memory once
   there is a later block, if addresses increase. *)
Theorem C49_in_block_refuted :
  forall x86 m0 os a addr, spec_ops x86 os None = Some (Some a) ->
  exists s m, run_ops x86 os (fresh_bm, m0) = Some (s, m) /\
    (b_size s <= length (a_vals a) ->
     (forall i j d e, i < j -> b_datas s !! i = Some d -> b_datas s !! j = Some e -> addr d + b_size s <= addr e) ->
     forall i d o, i < length (a_vals a) / b_size s * b_size s -> bm_at x86 s i = Some (d, o) -> bm_in_block addr s (addr d + o) = Some false).
Proof. exact in_block_fails. Qed.
Print Assumptions C49_in_block_refuted.
Example C49_example :
  match run_ops false [BInit 1 false 0; BAppend 10; BAppend 20; BAppend 30] (fresh_bm, []) with
  | Some (s, m) => map (bm_in_block (fun d => 100 + 2 * d) s) [100; 101; 102] = [Some false; Some false; Some true] /\ bm_at false s 0 = Some (0, 0)
  | None => False
  end.
Proof. vm_compute. repeat split. Qed.
