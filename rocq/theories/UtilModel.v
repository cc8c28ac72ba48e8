(* Model of array utilities (basicmath/include/mt_sort.h, mt_top_k.h, mt_helper.h and
   dynamic_programming/).  Arrays are lists, an access outside them is undefined
   behaviour (None).  The element type T is i32: comparisons are those of the integers,
   sums outside [-2^31, 2^31) are undefined behaviour where they are modelled by add32.
   Simplification: sizes are below 2^30, so that sums and products of indices do not
   overflow. *)
From stdpp Require Import sorting relations functions list_numbers list.
From Coq Require Import ZArith.
Local Open Scope nat_scope.

(* SPEC: a for loop over the indices l; None if one of its rounds is undefined *)
Fixpoint for_each {I S} (f : I -> S -> option S) (l : list I) (s : S) : option S :=
  match l with [] => Some s | i :: l' => match f i s with Some s' => for_each f l' s' | None => None end end.

(* std::swap of two elements, as used in mt_sort.h:22, 35, 39, 54, 87 *)
Definition swap_at {A} (i j : nat) (l : list A) : option (list A) :=
  match l !! i, l !! j with Some a, Some b => Some (<[j := a]> (<[i := b]> l)) | _, _ => None end.

(* mt_sort.h:20-21, 33-41: whether neighbours are to be exchanged *)
Definition wrong_order (inc : bool) (a b : Z) : bool := if inc then (b <? a)%Z else (a <? b)%Z.

(* mt_sort.h:33-41 *)
Definition bubble_step (inc : bool) (j : nat) (l : list Z) : option (list Z) :=
  match l !! j, l !! S j with
  | Some a, Some b => if wrong_order inc a b then swap_at j (S j) l else Some l
  | _, _ => None
  end.
(* mt_sort.h:30-44 bubble_sort *)
Definition bubble_sort (inc : bool) (l : list Z) : option (list Z) :=
  for_each (fun i l => for_each (bubble_step inc) (seq 0 (length l - i - 1)) l) (seq 0 (length l - 1)) l.

(* mt_sort.h:19-25: the inner loop of sort; its condition is j < size - j - 1.  The fuel
   is the size *)
Fixpoint sort_inner (fuel : nat) (inc : bool) (j : nat) (st : list nat * list Z) : option (list nat * list Z) :=
  match fuel with
  | 0 => Some st
  | S fuel =>
      let '(ix, l) := st in
      if j + j + 1 <? length ix then
        match l !! j, l !! S j with
        | Some a, Some b =>
            if wrong_order inc a b then
              match swap_at j (S j) l, swap_at j (S j) ix with
              | Some l', Some ix' => sort_inner fuel inc (S j) (ix', l')
              | _, _ => None
              end
            else sort_inner fuel inc (S j) st
        | _, _ => None
        end
      else Some st
  end.
(* mt_sort.h:11-27 sort: indexes and values *)
Definition index_sort (inc : bool) (l : list Z) : option (list nat * list Z) :=
  for_each (fun _ st => sort_inner (length l) inc 0 st) (seq 0 (length l - 1)) (seq 0 (length l), l).

(* mt_sort.h:79-80, 85-86: whether a is to be above b *)
Definition above (max_heap : bool) (a b : Z) : bool := if max_heap then (b <? a)%Z else (a <? b)%Z.

(* mt_sort.h:67-91 heap_adjust; the fuel bounds the recursion and is size at the calls *)
Fixpoint heap_adjust (fuel : nat) (mh : bool) (size i : nat) (l : list Z) : option (list Z) :=
  match fuel with
  | 0 => None
  | S fuel =>
      let left := i * 2 + 1 in
      if size <=? left then Some l else
      let right := left + 1 in
      match (if right <? size then
               match l !! right, l !! left with
               | Some r, Some v => Some (if above mh r v then right else left)
               | _, _ => None
               end
             else Some left) with
      | None => None
      | Some sel =>
          match l !! i, l !! sel with
          | Some x, Some y =>
              if above mh y x then
                match swap_at i sel l with Some l' => heap_adjust fuel mh size sel l' | None => None end
              else Some l
          | _, _ => None
          end
      end
  end.
(* mt_sort.h:60-64 init_heap *)
Definition init_heap (mh : bool) (l : list Z) : option (list Z) :=
  for_each (fun i l => heap_adjust (S (length l)) mh (length l) i l) (reverse (seq 0 (length l / 2))) l.
(* mt_sort.h:47-57 heap_sort *)
Definition heap_sort (inc : bool) (l : list Z) : option (list Z) :=
  match init_heap inc l with
  | None => None
  | Some l =>
      for_each (fun i l =>
        let e := length l - 1 - i in
        match swap_at 0 e l with Some l' => heap_adjust (S (length l)) inc e 0 l' | None => None end) (seq 0 (length l - 1)) l
  end.

(* mt_top_k.h:19-46 traverse *)
Definition top_traverse (k : nat) (big : bool) (v : Z) (l : list Z) : option (list Z) :=
  if length l <? k then
    let l' := l ++ [v] in
    if length l' =? k then init_heap (negb big) l' else Some l'
  else
    match l !! 0 with
    | None => None
    | Some x =>
        if above big v x then heap_adjust (S k) (negb big) k 0 (<[0 := v]> l) else Some l
    end.
(* mt_top_k.h:11-17, 19-46: a new instance after feeding the values *)
Definition top_k (k : nat) (big : bool) (vs : list Z) : option (list Z) := for_each (top_traverse k big) vs [].
(* mt_top_k.h:52-60 get_sorted_top_k; std::sort is represented by merge sort *)
Definition sorted_top_k (big : bool) (l : list Z) : list Z :=
  if big then merge_sort Z.ge l else merge_sort Z.le l.

(* i32 addition as in mt_max_sum_for_continuous_element.h:21 and mt_01_bag.h:69, undefined
   if it overflows *)
Definition add32 (a b : Z) : option Z :=
  let c := (a + b)%Z in if ((- 2 ^ 31 <=? c)%Z && (c <? 2 ^ 31)%Z)%bool then Some c else None.

(* mt_helper.h:336-343 integral_array on u32: writes the sums behind res; res has room
   for n elements *)
Fixpoint integral_loop (src : list Z) (offset : nat) (res : list Z) : option (list Z) :=
  match src with
  | [] => Some res
  | x :: src =>
      match res !! offset with
      | Some s => if offset + 1 <? length res then integral_loop src (S offset) (<[offset + 1 := ((s + x) mod 2 ^ 32)%Z]> res) else None
      | None => None
      end
  end.
(* mt_helper.h:336-343 integral_array: the element before the loop *)
Definition integral_array (res src : list Z) : option (list Z) :=
  if 0 <? length res then integral_loop src 0 (<[0 := 0%Z]> res) else None.

(* mt_helper.h:88-98, 101-111 with the comparison as a parameter *)
Definition compute_best (lt : Z -> Z -> bool) (l : list Z) : option Z :=
  match l with [] => None | x :: l' => Some (foldl (fun m v => if lt v m then v else m) x l') end.
(* mt_helper.h:88-98 compute_min *)
Definition compute_min : list Z -> option Z := compute_best Z.ltb.
(* mt_helper.h:101-111 compute_max *)
Definition compute_max : list Z -> option Z := compute_best (fun v m => Z.ltb m v).
(* mt_helper.h:160-170, 173-183 with the comparison as a parameter *)
Definition index_of_best (lt : Z -> Z -> bool) (l : list Z) : option nat :=
  for_each (fun i index => match l !! i, l !! index with
    | Some v, Some m => Some (if lt v m then i else index) | _, _ => None end) (seq 1 (length l - 1)) 0.
(* mt_helper.h:160-170 index_of_max_value *)
Definition index_of_max_value : list Z -> option nat := index_of_best (fun v m => Z.ltb m v).
(* mt_helper.h:173-183 index_of_min_value *)
Definition index_of_min_value : list Z -> option nat := index_of_best Z.ltb.

(* mt_helper.h:211-224 index_from_multi_index: the loop counts i down from size - 2 *)
Definition index_from_multi_index (ix sizes : list Z) : option Z :=
  let size := length ix in
  match last ix with
  | None => None
  | Some res =>
      option_map fst (for_each (fun i '(res, n) =>
        match sizes !! (i + 1), ix !! i with
        | Some s, Some x => Some ((res + x * (n * s))%Z, (n * s)%Z)
        | _, _ => None
        end) (reverse (seq 0 (size - 1))) (res, 1%Z))
  end.

(* mt_helper.h:226-242 multi_index_from_index; sizes is the array behind the pointer *)
Definition multi_index_from_index (index : Z) (size : nat) (sizes : list Z) : option (list Z) :=
  match for_each (fun i d => option_map (Z.mul d) (sizes !! i)) (seq 1 (size - 1)) 1%Z with
  | None => None
  | Some d =>
      option_map (fun t => snd t) (for_each (fun i '(index, d, out) =>
        if (d =? 0)%Z then None else
        let cur := Z.rem index d in
        match sizes !! (i + 1) with
        | None => None
        | Some s => if (s =? 0)%Z then None else Some ((index - cur * d)%Z, Z.quot d s, out ++ [cur])
        end) (seq 0 size) (index, d, []))
  end.

(* mt_helper.h:412-422 flip_vector *)
Definition flip_vector (l : list Z) : option (list Z) :=
  for_each (fun i l => swap_at i (i + length l - i - 1) l) (seq 0 (length l / 2)) l.

(* mt_helper.h:371-383: one inner step of odd_even_sort keeping the order; % of C *)
Definition odd_even_step (odd_front : bool) (j : nat) (st : list Z * bool) : option (list Z * bool) :=
  let '(l, flag) := st in
  match l !! j, l !! S j with
  | Some a, Some b =>
      if (if odd_front then (Z.rem a 2 =? 0)%Z && (Z.rem b 2 =? 1)%Z else (Z.rem a 2 =? 1)%Z && (Z.rem b 2 =? 0)%Z)
      then option_map (fun l' => (l', true)) (swap_at j (S j) l) else Some (l, flag)
  | _, _ => None
  end.
(* mt_helper.h:364-388 odd_even_sort with reserve_origin_order; is is the rest of the
   indices of the outer loop *)
Fixpoint odd_even_outer (odd_front : bool) (is : list nat) (l : list Z) : option (list Z) :=
  match is with
  | [] => Some l
  | i :: is =>
      match for_each (odd_even_step odd_front) (seq 0 (length l - 1 - i)) (l, false) with
      | None => None
      | Some (l', flag) => if flag then odd_even_outer odd_front is l' else Some l'
      end
  end.
(* mt_helper.h:364-388 odd_even_sort *)
Definition odd_even_sort (odd_front : bool) (l : list Z) : option (list Z) := odd_even_outer odd_front (seq 0 (length l - 1)) l.

(* mt_max_sum_for_continuous_element.h:54-57, 14-16: m_max_sum, m_begin_index, m_length
   and the temporary ones *)
Record msum := MSum { q_max : Z; q_begin : nat; q_len : nat; q_tsum : Z; q_tbegin : nat; q_tlen : nat }.
(* mt_max_sum_for_continuous_element.h:22-36 *)
Definition max_sum_step (vs : list Z) (i : nat) (s : msum) : option msum :=
  match vs !! i with
  | None => None
  | Some v =>
      match add32 (q_tsum s) v with
      | None => None
      | Some t =>
          let '(t, b, n) := if (t <? v)%Z then (v, i, 1) else (t, q_tbegin s, q_tlen s + 1) in
          Some (if (q_max s <? t)%Z then MSum t b n t b n else MSum (q_max s) (q_begin s) (q_len s) t b n)
      end
  end.
(* mt_max_sum_for_continuous_element.h:10-38: max_sum, begin_index, length *)
Definition max_sum (vs : list Z) : option (Z * nat * nat) :=
  match vs !! 0 with
  | None => None
  | Some v => option_map (fun s => (q_max s, q_begin s, q_len s)) (for_each (max_sum_step vs) (seq 1 (length vs - 1)) (MSum v 0 1 v 0 1))
  end.

(* mt_01_bag.h:33-43 cache_info *)
Record bcache := BCache { bc_range : nat; bc_weight : Z; bc_value : Z }.
(* mt_01_bag.h:48-82 calculate_value; n is considered_range + 1 *)
Fixpoint bag_value (ws vs : list Z) (n : nat) (w : Z) (cs : list bcache) : option (Z * list bcache) :=
  match n with
  | 0 => Some (0%Z, cs)
  | S r =>
      match list_find (fun c => bc_range c = r /\ bc_weight c = w) cs with
      | Some (_, c) => Some (bc_value c, cs)
      | None =>
          match bag_value ws vs r w cs with
          | None => None
          | Some (v0, cs1) =>
              match ws !! r with
              | None => None
              | Some wr =>
                  if (wr <=? w)%Z then
                    match bag_value ws vs r (w - wr)%Z cs1, vs !! r with
                    | Some (v1, cs2), Some vr =>
                        match add32 v1 vr with
                        | Some v => Some (Z.max v0 v, cs2 ++ [BCache r w (Z.max v0 v)])
                        | None => None
                        end
                    | _, _ => None
                    end
                  else Some (v0, cs1 ++ [BCache r w v0])
              end
          end
      end
  end.
(* mt_01_bag.h:96-109 find_value; n is considered_range + 1.  compare_value is equality
   (overflow of its difference is not modelled) *)
Definition bag_find (cs : list bcache) (n : nat) (v : Z) : bool :=
  (n =? 0) || existsb (fun c => (bc_range c <? n) && (bc_value c =? v)%Z) cs.
(* mt_01_bag.h:84-94 detrermine_flag; n is considered_range + 1 *)
Fixpoint bag_flags (vs : list Z) (cs : list bcache) (n : nat) (v : Z) (fl : list bool) : option (list bool) :=
  match n with
  | 0 => Some fl
  | S r =>
      for_each (fun c fl =>
        if ((bc_value c =? v)%Z && (bc_range c <? n))%bool then
          match vs !! bc_range c with
          | None => None
          | Some x => if bag_find cs r (v - x)%Z then bag_flags vs cs r (v - x)%Z (<[bc_range c := true]> fl) else Some fl
          end
        else Some fl) cs fl
  end.
(* mt_01_bag.h:11-29: max_value and flag_01 of an instance *)
Definition bag (ws vs : list Z) (w : Z) : option (Z * list bool) :=
  match bag_value ws vs (length ws) w [] with
  | None => None
  | Some (v, cs) => option_map (fun fl => (v, fl)) (bag_flags vs cs (length ws) v (replicate (length ws) false))
  end.

(* mt_longest_common_substring.h:75-81: m_maxtrix, m_length, m_a_begin_index,
   m_b_begin_index *)
Record lcs := LCS { l_mat : list nat; l_len : nat; l_a : Z; l_b : Z }.
(* mt_longest_common_substring.h:22, 25, 29: writing an element of m_maxtrix *)
Definition mat_put (s : lcs) (k v : nat) : option lcs :=
  if k <? length (l_mat s) then Some (LCS (<[k := v]> (l_mat s)) (l_len s) (l_a s) (l_b s)) else None.
(* mt_longest_common_substring.h:25-37 *)
Definition lcs_cell (a b : list Z) (i j : nat) (s : lcs) : option lcs :=
  let na := length a in
  match a !! 0, b !! j, a !! i with
  | Some a0, Some bj, Some ai =>
      match mat_put s (j * na) (if (a0 =? bj)%Z then 1 else 0) with
      | None => None
      | Some s =>
          match (if ((0 <? i) && (0 <? j) && (ai =? bj)%Z)%bool then
                   match l_mat s !! ((j - 1) * na + i - 1) with Some v => mat_put s (j * na + i) (v + 1) | None => None end
                 else Some s) with
          | None => None
          | Some s =>
              match l_mat s !! (j * na + i) with
              | None => None
              | Some v => Some (if l_len s <? v then LCS (l_mat s) v (Z.of_nat i - Z.of_nat v + 1) (Z.of_nat j - Z.of_nat v + 1) else s)
              end
          end
      end
  | _, _, _ => None
  end.
(* mt_longest_common_substring.h:22-38 *)
Definition lcs_row (a b : list Z) (i : nat) (s : lcs) : option lcs :=
  match b !! 0, a !! i with
  | Some b0, Some ai =>
      match mat_put s i (if (b0 =? ai)%Z then 1 else 0) with
      | None => None
      | Some s => for_each (lcs_cell a b i) (seq 1 (length b - 1)) s
      end
  | _, _ => None
  end.
(* mt_longest_common_substring.h:9-40 *)
Definition lcs_run (a b : list Z) : option lcs :=
  for_each (lcs_row a b) (seq 0 (length a)) (LCS (replicate (length a * length b) 0) 0 (-1) (-1)).
