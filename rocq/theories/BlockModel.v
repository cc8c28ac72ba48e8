(* Model of the block memory that holds the regions (basicmath/include/mt_block_memory.h).
   Memory is a list of allocated blocks, a pointer is a block and an offset.  Undefined
   behaviour is None.  Simplifications: elements are integers; malloc and new succeed;
   m_memory_size (only a statistic) is left out; m_reuse_indexes holds pointers instead of
   byte differences to m_begin (the same on a flat memory); counters do not overflow. *)
From stdpp Require Import sorting relations functions list_numbers list.
From Coq Require Import ZArith.
Local Open Scope nat_scope.

(* SPEC: a pointer: the number of an allocated block and an offset in it *)
Notation ptr := (nat * nat)%type.
(* SPEC: the memory: allocated blocks (None after free), whether by new or by malloc, and
   their elements, which may be unset *)
Notation memory := (list (option (bool * list (option Z)))).

(* mt_block_memory.h:217-235, m_begin at 217, the others in order *)
Record bm := BM {
  b_begin : option ptr; b_data : option ptr; b_end : option ptr; b_cur : Z; b_elems : nat;
  b_size : nat; b_base : nat; b_mask : nat; b_new : bool; b_reuse : list ptr; b_max : nat; b_datas : list nat }.

(* mt_block_memory.h:238-254 default_param *)
Definition fresh_bm : bm := BM None None None (-1) 0 0 0 0 false [] 0 [].

(* SPEC: what << and >> do with a count that is not below 32: undefined (false) or the
   count modulo 32 as on x86 (true) *)
Definition shift_count (x86 : bool) (n : nat) : option nat :=
  if n <? 32 then Some n else if x86 then Some (n mod 32) else None.

(* mt_block_memory.h:127: 1 << m_block_size_2_base; bit 31 does not fit *)
Definition block_size (x86 : bool) (base : nat) : option nat :=
  match shift_count x86 base with Some c => if c <? 31 then Some (Nat.shiftl 1 c) else None | None => None end.

(* mt_block_memory.h:75-215: reading an element through any pointer of the class; None = the pointer is dangling *)
Definition load (m : memory) (p : ptr) : option (option Z) :=
  match m !! fst p with Some (Some (_, b)) => b !! snd p | _ => None end.
(* mt_block_memory.h:75-215: writing an element; None as above *)
Definition store (m : memory) (p : ptr) (v : Z) : option memory :=
  match m !! fst p with
  | Some (Some (k, b)) => if snd p <? length b then Some (<[fst p := Some (k, <[snd p := Some v]> b)]> m) else None
  | _ => None
  end.

(* mt_block_memory.h:196-215 next_block *)
Definition next_block (s : bm) (m : memory) : option (bm * memory) :=
  let cur := (b_cur s + 1)%Z in
  if (Z.of_nat (length (b_datas s)) - 1 <? cur)%Z then
    let d := length m in
    Some (BM (b_begin s) (Some (d, 0)) (Some (d, b_size s)) cur (b_elems s) (b_size s) (b_base s) (b_mask s) (b_new s)
             (b_reuse s) (b_max s) (b_datas s ++ [d]), m ++ [Some (b_new s, replicate (b_size s) None)])
  else
    match b_datas s !! Z.to_nat cur with
    | Some d => Some (BM (b_begin s) (Some (d, 0)) (Some (d, b_size s)) cur (b_elems s) (b_size s) (b_base s) (b_mask s) (b_new s)
                         (b_reuse s) (b_max s) (b_datas s), m)
    | None => None
    end.

(* mt_block_memory.h:116-122, 87-93: delete or free of all blocks; undefined for a block
   that is not allocated or was allocated the other way *)
Fixpoint free_all (new : bool) (ds : list nat) (m : memory) : option memory :=
  match ds with
  | [] => Some m
  | d :: ds =>
      match m !! d with
      | Some (Some (k, _)) => if Bool.eqb k new then free_all new ds (<[d := None]> m) else None
      | _ => None
      end
  end.

(* mt_block_memory.h:108-152 init *)
Definition bm_init (x86 : bool) (base : nat) (new : bool) (max : nat) (s : bm) (m : memory) : option (bm * memory) :=
  match (if (base =? b_base s) && Bool.eqb (b_new s) new then
           match b_datas s with
           | [] => None
           | d :: _ => Some (BM (b_begin s) (Some (d, 0)) (Some (d, b_size s)) 0 (b_elems s) (b_size s) (b_base s) (b_mask s) (b_new s)
                                (b_reuse s) (b_max s) (b_datas s), m)
           end
         else
           match block_size x86 base, free_all (b_new s) (b_datas s) m with
           | None, _ | _, None => None
           | Some sz, Some m1 =>
               match next_block (BM (b_begin s) (b_data s) (b_end s) (-1) (b_elems s) sz base (sz - 1) new (b_reuse s) (b_max s) []) m1 with
               | None => None
               | Some (s', m') =>
                   Some (BM (match b_datas s' with d :: _ => Some (d, 0) | [] => None end) (b_data s') (b_end s') (b_cur s') (b_elems s')
                            (b_size s') (b_base s') (b_mask s') (b_new s') (b_reuse s') (b_max s') (b_datas s'), m')
               end
           end) with
  | None => None
  | Some (s, m) => Some (BM (b_begin s) (b_data s) (b_end s) (b_cur s) 0 (b_size s) (b_base s) (b_mask s) (b_new s) [] max (b_datas s), m)
  end.
(* mt_block_memory.h:104-106 reset *)
Definition bm_reset (x86 : bool) (s : bm) (m : memory) : option (bm * memory) := bm_init x86 (b_base s) (b_new s) (b_max s) s m.

(* mt_block_memory.h:6-11 basicmath_block_memory_get; b_reuse has its top first *)
Definition bm_get (s : bm) : option ptr := match b_reuse s with p :: _ => Some p | [] => b_data s end.

(* mt_block_memory.h:14-23 basicmath_block_memory_add *)
Definition bm_add (s : bm) (m : memory) : option (bm * memory) :=
  match b_reuse s with
  | [] =>
      match b_data s, b_end s with
      | Some (d, o), Some (_, e) =>
          let s' := BM (b_begin s) (Some (d, o + 1)) (b_end s) (b_cur s) (b_elems s + 1) (b_size s) (b_base s) (b_mask s) (b_new s)
                       [] (b_max s) (b_datas s) in
          if e <=? o + 1 then next_block s' m else Some (s', m)
      | _, _ => None
      end
  | _ :: r => Some (BM (b_begin s) (b_data s) (b_end s) (b_cur s) (b_elems s) (b_size s) (b_base s) (b_mask s) (b_new s) r (b_max s) (b_datas s), m)
  end.

(* mt_block_memory.h:47-50 basicmath_block_memory_reuse *)
Definition bm_release (p : ptr) (s : bm) : bm :=
  if length (b_reuse s) <? b_max s
  then BM (b_begin s) (b_data s) (b_end s) (b_cur s) (b_elems s) (b_size s) (b_base s) (b_mask s) (b_new s) (p :: b_reuse s) (b_max s) (b_datas s)
  else s.

(* mt_block_memory.h:154-160 at *)
Definition bm_at (x86 : bool) (s : bm) (i : nat) : option ptr :=
  match shift_count x86 (b_base s) with
  | Some c => match b_datas s !! Nat.shiftr i c with Some d => Some (d, Nat.land i (b_mask s)) | None => None end
  | None => None
  end.

(* mt_block_memory.h:58-72 block_pos: m_data, m_block_index, m_index, m_visit_number *)
Record bpos := BPos { p_data : option ptr; p_block : nat; p_index : nat; p_visit : nat }.
(* mt_block_memory.h:61-66 *)
Definition bpos0 : bpos := BPos None 0 0 0.

(* mt_block_memory.h:25-45 basicmath_block_memory_visit: Some None leaves the loop *)
Definition bm_visit (s : bm) (p : bpos) : option (option bpos) :=
  if b_elems s <=? p_visit p then Some None else
  let '(blk, idx) := if p_index p =? b_size s then (p_block p + 1, 0) else (p_block p, p_index p) in
  match (if idx =? 0 then match b_datas s !! blk with Some d => Some (d, 0) | None => None end
         else match p_data p with Some (d, o) => Some (d, o + 1) | None => None end) with
  | Some q => Some (Some (BPos (Some q) blk (idx + 1) (p_visit p + 1)))
  | None => None
  end.
(* img_fast_mser_v2.cpp:684-690 and the like: the pointers seen by a loop around visit; n
   bounds the number of rounds *)
Fixpoint bm_iterate (n : nat) (s : bm) (p : bpos) : option (list ptr) :=
  match n with
  | 0 => None
  | S n =>
      match bm_visit s p with
      | None => None
      | Some None => Some []
      | Some (Some p') => match p_data p' with Some q => option_map (cons q) (bm_iterate n s p') | None => None end
      end
  end.

(* img_fast_mser_v2.cpp:258-260 and the like: get an element, fill it, add it *)
Definition bm_append (v : Z) (s : bm) (m : memory) : option (bm * memory) :=
  match bm_get s with
  | None => None
  | Some p => match store m p v with Some m' => bm_add s m' | None => None end
  end.

(* mt_block_memory.h:86-102 clear, also run by the destructor (82-84) *)
Definition bm_clear (s : bm) (m : memory) : option (bm * memory) :=
  match free_all (b_new s) (b_datas s) m with Some m' => Some (fresh_bm, m') | None => None end.

(* mt_block_memory.h:174-190 in_block; base gives the addresses of the blocks, a the
   address asked for; in elements *)
Definition bm_in_block (base : nat -> nat) (s : bm) (a : nat) : option bool :=
  match b_begin s, b_data s with
  | Some (b0, o0), Some (d, o) =>
      if (b_cur s =? -1)%Z || (a <? base b0 + o0) || (base d + o <=? a) then Some false else
      match b_datas s !! Z.to_nat (b_cur s) with
      | None => None
      | Some c =>
          if (base c <=? a) && (a <? base d + o) then Some true
          else Some (forallb (fun c => negb ((base c <=? a) && (a <? base c + b_size s))) (take (Z.to_nat (b_cur s)) (b_datas s)))
      end
  | _, _ => Some false
  end.

(* SPEC: what a client may do: init, reset and clear; append a value; write through the
   element i; hand the element i back for reuse *)
Inductive bop := BInit (base : nat) (new : bool) (max : nat) | BReset | BClear | BAppend (v : Z) | BSet (i : nat) (v : Z) | BRelease (i : nat).
(* SPEC: the calls made for it *)
Definition run_op (x86 : bool) (o : bop) (st : bm * memory) : option (bm * memory) :=
  let '(s, m) := st in
  match o with
  | BInit base new max => bm_init x86 base new max s m
  | BReset => bm_reset x86 s m
  | BClear => bm_clear s m
  | BAppend v => bm_append v s m
  | BSet i v => match bm_at x86 s i with Some p => option_map (pair s) (store m p v) | None => None end
  | BRelease i => match bm_at x86 s i with Some p => Some (bm_release p s, m) | None => None end
  end.
(* SPEC: a sequence of operations *)
Fixpoint run_ops (x86 : bool) (os : list bop) (st : bm * memory) : option (bm * memory) :=
  match os with [] => Some st | o :: os => match run_op x86 o st with Some st' => run_ops x86 os st' | None => None end end.

(* SPEC: what a client thinks of: the elements in order, the elements handed back (last
   first) and the maximal number of those *)
Record arena := Arena { a_vals : list Z; a_free : list nat; a_max : nat }.
(* SPEC: the effect of an operation on it; None before init and after clear; the outer
   None if the client must not do it *)
Definition spec_op (x86 : bool) (o : bop) (st : option arena) : option (option arena) :=
  match o, st with
  | BInit base new max, _ =>
      match block_size x86 base, st with
      | None, _ => None
      | Some _, None => if (base =? 0) && negb new then None else Some (Some (Arena [] [] max))
      | Some _, Some _ => Some (Some (Arena [] [] max))
      end
  | BClear, _ => Some None
  | _, None => None
  | BReset, Some a => Some (Some (Arena [] [] (a_max a)))
  | BAppend v, Some a =>
      Some (Some (match a_free a with
                  | [] => Arena (a_vals a ++ [v]) [] (a_max a)
                  | i :: f => Arena (<[i := v]> (a_vals a)) f (a_max a)
                  end))
  | BSet i v, Some a => if i <? length (a_vals a) then Some (Some (Arena (<[i := v]> (a_vals a)) (a_free a) (a_max a))) else None
  | BRelease i, Some a =>
      if i <? length (a_vals a) then
        Some (Some (if length (a_free a) <? a_max a then Arena (a_vals a) (i :: a_free a) (a_max a) else a))
      else None
  end.
(* SPEC: a sequence of operations *)
Fixpoint spec_ops (x86 : bool) (os : list bop) (st : option arena) : option (option arena) :=
  match os with [] => Some st | o :: os => match spec_op x86 o st with Some st' => spec_ops x86 os st' | None => None end end.
