(* Property theorems about building the tree of one partition
   (make_tree_patch / process_tree_patch, img_fast_mser_v2.cpp:238-500). *)
From stdpp Require Import sorting relations functions list.
From Coq Require Import NArith ZArith.
From Verif Require Import Spec TreeSpec Grid FloodModel FloodRefine FloodInit FloodTree FloodCorrect FloodExamples.

(* C01: flooding a partition gives its component tree, in the dark pass and in
   the bright pass that follows it. *)
Theorem C01_flooding_builds_component_tree :
  forall img cols top left w h pt b n,
  patch_fits img cols top left w h ->
  misses_level img 0 cols top left w h ->
  buf_alloc w h b ->
  6 * (w * h) < n ->
  exists regs b' lab regs2 b2 lab2,
    make_tree_patch n (cfg4 w h 0 pt) true img cols (top * cols + left) b = FTree regs b' /\
    flood_ok img 0 cols top left w h pt regs b' lab /\
    make_tree_patch n (cfg4 w h 255 pt) false img cols (top * cols + left) b' = FTree regs2 b2 /\
    flood_ok img 255 cols top left w h pt regs2 b2 lab2.
Proof. exact two_passes. Qed.
Print Assumptions C01_flooding_builds_component_tree.

Example C01_example : patch_fits ex_img 4 0 1 3 3 /\ misses_level ex_img 0 4 0 1 3 3 /\
  buf_alloc 3 3 (alloc_patch 3 3 77).
Proof. exact (conj ex_fits (conj ex_misses (alloc_ok 3 3 77%N))). Qed.

(* C02: no undefined behaviour (the outcome of the bounds-checked run is a tree),
   linearly many steps, stacks stay in their slots and end empty. *)
Theorem C02_flooding_is_memory_safe_and_terminates :
  forall img cols top left w h pt b n,
  patch_fits img cols top left w h ->
  misses_level img 0 cols top left w h ->
  buf_alloc w h b ->
  6 * (w * h) < n ->
  exists b1 regs b' b2,
    process_tree_patch (cfg4 w h 0 pt) true img cols (top * cols + left) b = Some b1 /\
    flood_safe n (cfg4 w h 0 pt) b1 (pixels_at img 0 cols top left w h)
      (first_slot img 0 cols top left w h) /\
    make_tree_patch n (cfg4 w h 0 pt) true img cols (top * cols + left) b = FTree regs b' /\
    process_tree_patch (cfg4 w h 255 pt) false img cols (top * cols + left) b' = Some b2 /\
    flood_safe n (cfg4 w h 255 pt) b2 (pixels_at img 255 cols top left w h)
      (first_slot img 255 cols top left w h).
Proof. exact two_passes_safe. Qed.
Print Assumptions C02_flooding_is_memory_safe_and_terminates.

Example C02_example : patch_fits ex_img 4 0 1 3 3 /\ misses_level ex_img 0 4 0 1 3 3 /\
  buf_alloc 3 3 (alloc_patch 3 3 77).
Proof. exact (conj ex_fits (conj ex_misses (alloc_ok 3 3 77%N))). Qed.

(* C03 is false: a row with the 256 grey levels in descending order needs 257
   entries (with the sentinel) of the 256 the component stack has. *)
Theorem C03_component_stack_is_large_enough_refuted :
  exists img cols top left w h b, patch_fits img cols top left w h /\ buf_alloc w h b /\
    forall n, 2000 <= n ->
      make_tree_patch n (cfg4 w h 0 0) true img cols (top * cols + left) b = FUB.
Proof.
  exact (ex_intro _ desc_img (ex_intro _ 256 (ex_intro _ 0 (ex_intro _ 0 (ex_intro _ 256 (ex_intro _ 1
    (ex_intro _ (alloc_patch 256 1 0%N) (conj desc_fits (conj (alloc_ok 256 1 0%N) desc_ub))))))))).
Qed.
Print Assumptions C03_component_stack_is_large_enough_refuted.

(* C21 is false: with the eight-neighbour tables the first finished pixel looks
   up a region outside the table (only four directions are toured). *)
Theorem C21_eight_neighbours_refuted :
  exists img cols top left w h b, patch_fits img cols top left w h /\ buf_alloc w h b /\
    forall n, 100 <= n ->
      make_tree_patch n (cfg8 w h 0 0) true img cols (top * cols + left) b = FUB.
Proof.
  exact (ex_intro _ two_img (ex_intro _ 2 (ex_intro _ 0 (ex_intro _ 0 (ex_intro _ 2 (ex_intro _ 1
    (ex_intro _ (alloc_patch 2 1 0%N) (conj two_fits (conj (alloc_ok 2 1 0%N) two_ub8))))))))).
Qed.
Print Assumptions C21_eight_neighbours_refuted.

(* C22: the bright pass on the buffers left by the dark pass gives the very same
   region table and pixel labels as a dark pass of the inverted image on any
   fresh buffers. *)
Theorem C22_bright_pass_is_dark_pass_of_inverted_image :
  forall img cols top left w h pt b b0 n,
  patch_fits img cols top left w h ->
  misses_level img 0 cols top left w h ->
  buf_alloc w h b -> buf_alloc w h b0 ->
  6 * (w * h) < n ->
  exists regs b' regs2 b1 b2,
    make_tree_patch n (cfg4 w h 0 pt) true img cols (top * cols + left) b = FTree regs b' /\
    make_tree_patch n (cfg4 w h 255 pt) false img cols (top * cols + left) b' = FTree regs2 b1 /\
    make_tree_patch n (cfg4 w h 0 pt) true (invert img) cols (top * cols + left) b0 = FTree regs2 b2 /\
    forall y x, y < h -> x < w ->
      b_pts b1 !! ((y + 1) * (w + 2) + (x + 1)) = b_pts b2 !! ((y + 1) * (w + 2) + (x + 1)).
Proof. exact bright_after_dark. Qed.
Print Assumptions C22_bright_pass_is_dark_pass_of_inverted_image.

Example C22_example : patch_fits ex_img 4 0 1 3 3 /\ misses_level ex_img 0 4 0 1 3 3 /\
  buf_alloc 3 3 (alloc_patch 3 3 77) /\ buf_alloc 3 3 (alloc_patch 3 3 5).
Proof. exact (conj ex_fits (conj ex_misses (conj (alloc_ok 3 3 77%N) (alloc_ok 3 3 5%N)))). Qed.

(* C24: packing of direction and region index into a 32 bit word, for both word
   layouts (shift 29 and 28): the direction is recovered, the word is not taken
   for an unvisited pixel, and subtracting the finished mark gives the index. *)
Theorem C24_pixel_words_decode :
  forall (s : N) (d : nat) (idx : N),
  0 < d -> (N.of_nat d < 2 ^ (32 - s))%N -> (s <= 32)%N -> (idx < 2 ^ s)%N ->
  let x := N.lor (u32 (N.shiftl (N.of_nat d) s)) idx in
  N.shiftr x s = N.of_nat d /\ N.land x (N.shiftl (2 ^ (32 - s) - 1) s) <> 0%N /\
  u32 (x + 2 ^ 32 - u32 (N.shiftl (N.of_nat d) s)) = idx.
Proof. exact word_decode. Qed.
Print Assumptions C24_pixel_words_decode.

Example C24_example :
  k_mask (cfg4 7 5 0 0) = N.shiftl (2 ^ (32 - 29) - 1) 29 /\ k_shift (cfg4 7 5 0 0) = 29%N /\
  k_bnd (cfg4 7 5 0 0) = u32 (N.shiftl (N.of_nat 5) 29) /\ (N.of_nat 5 < 2 ^ (32 - 29))%N /\
  k_mask (cfg8 7 5 0 0) = N.shiftl (2 ^ (32 - 28) - 1) 28 /\ k_shift (cfg8 7 5 0 0) = 28%N /\
  k_bnd (cfg8 7 5 0 0) = u32 (N.shiftl (N.of_nat 9) 28) /\ (N.of_nat 9 < 2 ^ (32 - 28))%N.
Proof. vm_compute. repeat split. Qed.

(* C40 is false: when only bright regions are requested, the fresh branch counts
   the original instead of the inverted levels; the boundary stacks then overlap.
   A 4x1 image yields a region of 7 pixels, a constant 3x3 image undefined behaviour. *)
Theorem C40_bright_only_extraction_refuted :
  (exists img cols w h b regs b' r, patch_fits img cols 0 0 w h /\ buf_alloc w h b /\
    make_tree_patch 100 (cfg4 w h 255 0) true img cols 0 b = FTree regs b' /\
    r ∈ regs /\ w * h < m_size r) /\
  (exists img cols w h b, patch_fits img cols 0 0 w h /\ buf_alloc w h b /\
    forall n, 100 <= n -> make_tree_patch n (cfg4 w h 255 0) true img cols 0 b = FUB).
Proof. exact bright_only_wrong. Qed.
Print Assumptions C40_bright_only_extraction_refuted.
