(* Property theorems about the array utilities and rectangles of basicmath. *)
From stdpp Require Import sorting relations functions list_numbers list.
From Coq Require Import ZArith.
From Verif Require Import RectModel UtilModel UtilSort UtilFacts UtilDyn.
Local Open Scope nat_scope.

(* C31: prefix sums (in u32 arithmetic); the rest of the target is unchanged, and a
   target without room for one more element than the source is overrun. *)
Theorem C31_prefix_sums :
  forall res src, length src < length res -> exists res', integral_array res src = Some res' /\ length res' = length res /\
    (forall k, k <= length src -> res' !! k = Some (zsum (take k src) mod 2 ^ 32)%Z) /\
    forall k, length src < k -> res' !! k = res !! k.
Proof. exact integral_ok. Qed.
Print Assumptions C31_prefix_sums.
Theorem C31_needs_one_more_element :
  forall res src, length res <= length src -> integral_array res src = None.
Proof. exact integral_bounds. Qed.
Print Assumptions C31_needs_one_more_element.
Example C31_example : integral_array [9; 9; 9; 9; 9]%Z [1; 2; 3]%Z = Some [0; 1; 3; 6; 9]%Z.
Proof. vm_compute. repeat split. Qed.

(* C32: bubble sort and heap sort give an ordered permutation. *)
Theorem C32_bubble_sort_sorts :
  forall inc l, exists l', bubble_sort inc l = Some l' /\ l' ≡ₚ l /\ ordered inc l'.
Proof. exact bubble_sort_ok. Qed.
Print Assumptions C32_bubble_sort_sorts.
Theorem C32_heap_sort_sorts :
  forall inc l, exists l', heap_sort inc l = Some l' /\ l' ≡ₚ l /\ ordered inc l'.
Proof. exact heap_sort_ok. Qed.
Print Assumptions C32_heap_sort_sorts.
(* The index-returning sort permutes and its indices tell where the values came from, *)
Theorem C32_index_sort_permutes :
  forall inc l, exists ix d, index_sort inc l = Some (ix, d) /\ ix ≡ₚ seq 0 (length l) /\ d ≡ₚ l /\ Forall2 (fun i v => l !! i = Some v) ix d.
Proof. exact index_sort_perm. Qed.
Print Assumptions C32_index_sort_permutes.
(* but it does not sort: the inner loop stops half way (mt_sort.h:19). *)
Theorem C32_index_sort_refuted :
  exists l ix d, index_sort true l = Some (ix, d) /\ ~ ordered true d.
Proof. exact index_sort_fails. Qed.
Print Assumptions C32_index_sort_refuted.
Example C32_example : heap_sort true [5; 3; 9; 1; 3]%Z = Some [1; 3; 3; 5; 9]%Z /\ bubble_sort false [5; 3; 9; 1; 3]%Z = Some [9; 5; 3; 3; 1]%Z.
Proof. vm_compute. repeat split. Qed.

(* C33: the k best of everything fed are kept. *)
Theorem C33_top_k_keeps_the_best :
  forall k big vs, 0 < k -> exists kept, top_k k big vs = Some kept /\ best_of k big vs kept.
Proof. exact top_k_ok. Qed.
Print Assumptions C33_top_k_keeps_the_best.
(* With k = 0 the first value fed is compared with an element that does not exist. *)
Theorem C33_top_0_refuted : forall big v vs, top_k 0 big (v :: vs) = None.
Proof. exact (fun big v vs => eq_refl). Qed.
Print Assumptions C33_top_0_refuted.
Example C33_example : top_k 3 true [4; 1; 7; 2; 9; 5]%Z = Some [5; 9; 7]%Z /\ top_k 2 false [4; 1; 7; 2]%Z = Some [2; 1]%Z.
Proof. vm_compute. repeat split. Qed.

(* C34: the maximal sum of a run of consecutive elements, attained by the run reported. *)
Theorem C34_maximal_run :
  forall vs, vs <> [] -> sums_fit vs -> exists m b n, max_sum vs = Some (m, b, n) /\ run_in vs b n /\ run_sum vs b n = m /\
    forall b' n', run_in vs b' n' -> (run_sum vs b' n' <= m)%Z.
Proof. exact max_sum_ok. Qed.
Print Assumptions C34_maximal_run.
Example C34_example : sums_fit [1; -2; 3; 4; -1; 5; -9]%Z /\ max_sum [1; -2; 3; 4; -1; 5; -9]%Z = Some (11%Z, 2, 4).
Proof. split; [exact ex_sums|]. vm_compute. reflexivity. Qed.

(* C35: the value of the bag is the best one. *)
Theorem C35_bag_value_is_optimal :
  forall ws vs, length ws = length vs -> (forall x, x ∈ ws -> (0 <= x)%Z) -> values_fit vs ->
  forall w, (0 <= w)%Z -> exists v fl, bag ws vs w = Some (v, fl) /\ length fl = length ws /\ best_choice ws vs w v.
Proof. exact bag_ok. Qed.
Print Assumptions C35_bag_value_is_optimal.
(* The flags do not tell the choice: here they choose weight 3 for a bag of capacity 1. *)
Theorem C35_flags_tell_the_choice_refuted :
  exists ws vs w v fl, bag ws vs w = Some (v, fl) /\ (w < chosen fl ws)%Z.
Proof. exact bag_flags_fail. Qed.
Print Assumptions C35_flags_tell_the_choice_refuted.
Example C35_example : (values_fit [3; 4; 5; 7]%Z /\ forall x, x ∈ [2; 3; 4; 5]%Z -> (0 <= x)%Z) /\ bag [2; 3; 4; 5]%Z [3; 4; 5; 7]%Z 8%Z = Some (11%Z, [false; true; false; true]).
Proof. split; [exact ex_values|]. vm_compute. reflexivity. Qed.

(* C36 in part: the longest common substring among those that do not end at the first
   element of the second string. *)
Theorem C36_longest_common_substring :
  forall a b, a <> [] -> b <> [] -> exists s, lcs_run a b = Some s /\
    (l_len s = 0 \/ exists p q, l_a s = Z.of_nat p /\ l_b s = Z.of_nat q /\ common a b p q (l_len s)) /\
    forall p q n, 1 <= n -> 2 <= q + n -> common a b p q n -> n <= l_len s.
Proof. exact lcs_ok. Qed.
Print Assumptions C36_longest_common_substring.
(* In general it is false: the first row is never compared with the length so far. *)
Theorem C36_first_element_refuted :
  exists a b s, lcs_run a b = Some s /\ l_len s = 0 /\ common a b 0 0 1.
Proof. exact lcs_fails. Qed.
Print Assumptions C36_first_element_refuted.
Example C36_example : exists s, lcs_run [1; 2; 3; 4; 2; 3]%Z [9; 2; 3; 4; 1]%Z = Some s /\ l_len s = 3 /\ l_a s = 1%Z /\ l_b s = 1%Z.
Proof. eexists. vm_compute. repeat split. Qed.

(* C37: appending to a rectangle gives the smallest one containing both. *)
Theorem C37_append_rect :
  (forall r a, solid r -> solid a -> hull (fun x y => covers r x y \/ covers a x y) (append_rect r a)) /\
  forall r a, is_empty r = true -> append_rect r a = a.
Proof. exact (conj append_rect_hull append_empty_rect). Qed.
Print Assumptions C37_append_rect.
Theorem C37_append_point :
  (forall r x y, solid r -> hull (fun u v => covers r u v \/ (u = x /\ v = y)) (append_point r x y)) /\
  forall r x y, is_empty r = true -> hull (fun u v => u = x /\ v = y) (append_point r x y).
Proof. exact (conj append_point_hull append_point_empty). Qed.
Print Assumptions C37_append_point.
(* An empty rectangle is not neutral when appended: it is only if its corner lies in the
   rectangle (or just behind it). *)
Theorem C37_appending_an_empty_rectangle_refuted :
  (forall r a, solid r -> is_empty a = true ->
    (append_rect r a = r <-> (x_left r <= x_left a <= x_left r + x_w r)%Z /\ (x_top r <= x_top a <= x_top r + x_h r)%Z)) /\
  append_rect (Rect 5 5 2 2) rect0 = Rect 0 0 7 7.
Proof. exact (conj append_nothing eq_refl). Qed.
Print Assumptions C37_appending_an_empty_rectangle_refuted.
Example C37_example : append_rect (Rect 1 2 3 4) (Rect 5 0 1 1) = Rect 1 0 5 6 /\ append_point (Rect 1 2 3 4) 0 9 = Rect 0 2 4 8.
Proof. vm_compute. repeat split. Qed.

(* C38: extremal elements and their first places. *)
Theorem C38_extremal_elements :
  forall l, l <> [] ->
  (exists m, compute_min l = Some m /\ m ∈ l /\ forall v, v ∈ l -> (m <= v)%Z) /\
  (exists m, compute_max l = Some m /\ m ∈ l /\ forall v, v ∈ l -> (v <= m)%Z) /\
  (exists i m, index_of_min_value l = Some i /\ l !! i = Some m /\ forall j v, l !! j = Some v -> (m <= v)%Z /\ (j < i -> (m < v)%Z)) /\
  exists i m, index_of_max_value l = Some i /\ l !! i = Some m /\ forall j v, l !! j = Some v -> (v <= m)%Z /\ (j < i -> (v < m)%Z).
Proof. exact (fun l H => conj (compute_min_ok l H) (conj (compute_max_ok l H) (conj (index_of_min_ok l H) (index_of_max_ok l H)))). Qed.
Print Assumptions C38_extremal_elements.
(* C38: index_from_multi_index is the place in row-major order, in range, and different
   positions have different indices. *)
Theorem C38_index_from_multi_index :
  (forall ix sizes, length ix = length sizes -> ix <> [] -> index_from_multi_index ix sizes = Some (place ix sizes 0)) /\
  (forall ix sizes, position ix sizes -> (0 <= place ix sizes 0 < places sizes)%Z) /\
  forall ix ix' sizes, position ix sizes -> position ix' sizes -> place ix sizes 0 = place ix' sizes 0 -> ix = ix'.
Proof. exact (conj index_ok (conj place_bound place_inj)). Qed.
Print Assumptions C38_index_from_multi_index.
(* C38 is false of multi_index_from_index: it reads behind the sizes for all inputs, and
   if there is an element behind them the position is wrong. *)
Theorem C38_multi_index_refuted :
  (forall index sizes, sizes <> [] -> multi_index_from_index index (length sizes) sizes = None) /\
  index_from_multi_index [1; 1]%Z [2; 3]%Z = Some 4%Z /\ multi_index_from_index 4%Z 2 [2; 3; 1]%Z = Some [1; 0]%Z.
Proof. exact (conj multi_index_out (conj eq_refl eq_refl)). Qed.
Print Assumptions C38_multi_index_refuted.
(* C38: flip_vector permutes, and reverses up to three elements; it is false for four. *)
Theorem C38_flip_vector_permutes :
  (forall l, exists l', flip_vector l = Some l' /\ l' ≡ₚ l) /\ forall l, length l <= 3 -> flip_vector l = Some (reverse l).
Proof. exact (conj flip_perm flip_short). Qed.
Print Assumptions C38_flip_vector_permutes.
Theorem C38_flip_vector_reverses_refuted : flip_vector [1; 2; 3; 4]%Z = Some [4; 1; 3; 2]%Z.
Proof. exact eq_refl. Qed.
Print Assumptions C38_flip_vector_reverses_refuted.
Example C38_example : index_of_max_value [3; 8; 1; 8]%Z = Some 1 /\ index_from_multi_index [1; 0; 2]%Z [2; 3; 4]%Z = Some 14%Z.
Proof. vm_compute. repeat split. Qed.

(* C47: sorting by parity keeps the order inside both classes, for values that are not
   negative. *)
Theorem C47_odd_even_sort :
  forall f l, nonneg l ->
  odd_even_sort f l = Some (filter (fun v => goes_first f v = true) l ++ filter (fun v => goes_first f v = false) l).
Proof. exact odd_even_ok. Qed.
Print Assumptions C47_odd_even_sort.
(* It is false with negative ones: the remainder of -3 is -1. *)
Theorem C47_negative_values_refuted : odd_even_sort true [2; -3]%Z = Some [2; -3]%Z.
Proof. exact eq_refl. Qed.
Print Assumptions C47_negative_values_refuted.
Example C47_example : odd_even_sort true [4; 7; 2; 1; 3]%Z = Some [7; 1; 3; 4; 2]%Z.
Proof. vm_compute. repeat split. Qed.
