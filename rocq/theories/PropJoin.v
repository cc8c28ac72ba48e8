(* Property theorems about the partitions of an image, joining the trees of the
   partitions and building the tree of the whole image
   (img_fast_mser_v2.cpp:53-237, 502-655). *)
From stdpp Require Import sorting relations functions list.
From Coq Require Import NArith.
From Verif Require Import Spec TreeSpec TreeFacts JoinMath FloodModel FloodInit FloodCorrect FloodExamples
  ConnectModel ConnectProof PartModel PartProof MergeProof WholeModel WholeProof WholeCorrect JoinCorrect
  JoinExamples.

(* C04: joining the regions of two pixels turns the component tree of a view into
   the component tree of the view in which the two pixels are adjacent; levels,
   indices and partitions of regions stay, flags only become "merged". *)
Theorem C04_connect_adds_one_adjacency :
  forall V lab F p q fuel,
  joinable V lab F -> nregs F + 514 < fuel -> vw_in V p -> vw_in V q ->
  exists F', join_regions fuel F (lab p) (lab q) = Some F' /\ frame F F' /\
    joinable (add_edge V p q) lab F'.
Proof. exact join_pixels. Qed.
Print Assumptions C04_connect_adds_one_adjacency.

Example C04_example : exists V lab F, joinable V lab F /\ nregs F + 514 < 600 /\ vw_in V 1 /\ vw_in V 2.
Proof.
  exact (match ex4_joinable with ex_intro _ lab H =>
    ex_intro _ (cut_view 2 2 4 3 (level ex_img 0)) (ex_intro _ lab (ex_intro _ (lift_forest ex_ts)
      (conj H (conj ex4_nregs (conj (proj1 (Nat.ltb_lt 1 12) eq_refl) (proj1 (Nat.ltb_lt 2 12) eq_refl)))))) end).
Qed.

(* C05: any sequence of joins of stored regions ends, and afterwards every region's
   parent chain ends at a root and passes exactly one surviving region of its level. *)
Theorem C05_joins_terminate_without_cycles :
  forall V lab F l fuel,
  joinable V lab F -> nregs F + 514 < fuel ->
  Forall (fun xy => is_Some (fget F (fst xy)) /\ is_Some (fget F (snd xy))) l ->
  exists F', join_all fuel F l = Some F' /\ frame F F' /\
    forall r a, fget F' r = Some a -> resolves F' r a.
Proof. exact join_all_resolves. Qed.
Print Assumptions C05_joins_terminate_without_cycles.

Example C05_example : exists V lab F, joinable V lab F /\ nregs F + 514 < 600 /\
  Forall (fun xy => is_Some (fget F (fst xy)) /\ is_Some (fget F (snd xy)))
    [((0, 0), (1, 0)); ((1, 1), (3, 0)); ((0, 0), (2, 0)); ((2, 0), (0, 0))].
Proof.
  exact (match ex4_joinable with ex_intro _ lab H =>
    ex_intro _ (cut_view 2 2 4 3 (level ex_img 0)) (ex_intro _ lab (ex_intro _ (lift_forest ex_ts)
      (conj H (conj ex4_nregs ex4_pairs)))) end).
Qed.

(* C06: flooding the partitions and joining them gives the component tree of the
   whole image, for 1, 4 and 32 partitions, in the dark and in the bright pass;
   between the passes the words of the pixels and the contents of the boundary stacks
   may change. *)
Theorem C06_partitioned_building_gives_whole_tree :
  forall threads hpn vpn img cols rows,
  grid_of threads = Some (hpn, vpn) -> image_fits hpn vpn img cols rows ->
  forall n fuel bs,
  length bs = threads ->
  (forall k r b, rects hpn vpn cols rows !! k = Some r -> bs !! k = Some b -> buf_alloc (r_w r) (r_h r) b) ->
  6 * (rows * cols) < n -> rows * cols + 514 < fuel ->
  exists F os lab,
    build_tree n fuel threads 0 true img cols rows bs = Some (F, os) /\
    whole_ok hpn vpn img 0 cols rows F os lab /\
    forall os', all_reused (rects hpn vpn cols rows) os os' -> exists F2 os2 lab2,
      build_tree n fuel threads 255 false img cols rows os' = Some (F2, os2) /\
      whole_ok hpn vpn img 255 cols rows F2 os2 lab2.
Proof. exact build_ok. Qed.
Print Assumptions C06_partitioned_building_gives_whole_tree.

(* C06, continued: the surviving regions of a component tree are, one to one, the
   extremal regions of the view, nested as the regions are; so the tree of C06 does
   not depend on the partitions. *)
Theorem C06_surviving_regions_are_the_extremal_regions :
  forall V (lab : nat -> rref) T, vsym V -> ctree V lab T ->
  (forall r a, T r = Some a -> v_live a = true -> extremal V (v_gray a) (region_pixels V lab T r)) /\
  (forall g S, extremal V g S -> exists r a, T r = Some a /\ v_live a = true /\ v_gray a = g /\
     forall p, S p <-> region_pixels V lab T r p) /\
  (forall r a r' a', T r = Some a -> v_live a = true -> T r' = Some a' -> v_live a' = true ->
     (forall p, region_pixels V lab T r p <-> region_pixels V lab T r' p) -> r = r') /\
  (forall r a r' a', T r = Some a -> v_live a = true -> T r' = Some a' -> v_live a' = true ->
     vunder T r r' <-> (forall p, region_pixels V lab T r p -> region_pixels V lab T r' p)).
Proof. exact tree_extremal. Qed.
Print Assumptions C06_surviving_regions_are_the_extremal_regions.

Example C06_example :
  (grid_of 4 = Some (2, 2) /\ image_fits 2 2 ex_img 4 3 /\ length (ex_bufs 2 2 4 3) = 4) /\
  (grid_of 32 = Some (8, 4) /\ image_fits 8 4 ex32_img 8 5 /\ length (ex_bufs 8 4 8 5) = 32) /\
  (forall hpn vpn cols rows k r b, rects hpn vpn cols rows !! k = Some r ->
     ex_bufs hpn vpn cols rows !! k = Some b -> buf_alloc (r_w r) (r_h r) b).
Proof.
  exact (conj (conj eq_refl (conj ex4_fits eq_refl))
    (conj (conj eq_refl (conj ex32_fits eq_refl)) ex_bufs_ok)).
Qed.

(* C07: the partitions tile the image and their buffers are disjoint slices inside
   the allocations; no i32 offset overflows. *)
Theorem C07_partitions_tile_the_image :
  forall threads hpn vpn cols rows,
  grid_of threads = Some (hpn, vpn) ->
  (N.of_nat ((cols + 2 * hpn) * (rows + 2 * vpn) + 257 * threads) < 2 ^ 31)%N ->
  exists offs, layout (rects hpn vpn cols rows) 0 0 = Some offs /\
    tiles threads cols rows (rects hpn vpn cols rows) offs
      (pt_size hpn vpn cols rows) (h_size threads cols rows).
Proof. exact partition_tiles. Qed.
Print Assumptions C07_partitions_tile_the_image.

Example C07_example : grid_of 32 = Some (8, 4) /\
  (N.of_nat ((1000 + 2 * 8) * (3 + 2 * 4) + 257 * 32) < 2 ^ 31)%N.
Proof. split; [done|]. vm_compute. done. Qed.

(* C08: the schedule joins exactly the pairs of neighbouring pixels that lie in
   different partitions, each once: the model's joins are the joins of a list of
   word pairs, the words belong to a duplicate-free list of pixel pairs, and a pair
   is in that list iff the second pixel is right of or below the first in another
   partition. *)
Theorem C08_schedule_joins_every_seam_pair_once :
  forall threads hpn vpn cols rows,
  grid_of threads = Some (hpn, vpn) -> hpn <= cols -> vpn <= rows ->
  exists words pairs,
    (forall fuel bnd P F, geo P (rects hpn vpn cols rows) ->
       merge_seq fuel bnd P (sched_of threads) F = join_list fuel bnd P words F) /\
    Forall2 (pair_px (rects hpn vpn cols rows) cols) words pairs /\
    NoDup pairs /\
    forall p q, (p, q) ∈ pairs <->
      p < rows * cols /\ q < rows * cols /\ next_px cols p q /\
      forall k, ~ (in_part (rects hpn vpn cols rows) cols k p /\ in_part (rects hpn vpn cols rows) cols k q).
Proof. exact schedule_ok. Qed.
Print Assumptions C08_schedule_joins_every_seam_pair_once.

Example C08_example : grid_of 32 = Some (8, 4) /\ 8 <= 13 /\ 4 <= 5.
Proof. exact (conj eq_refl (conj (proj1 (Nat.leb_le 8 13) eq_refl) (proj1 (Nat.leb_le 4 5) eq_refl))). Qed.

(* C41 is false: a column of three pixels built with four partitions has a root of
   five pixels (the two empty partitions contribute a phantom pixel each). *)
Theorem C41_images_smaller_than_the_grid_refuted :
  exists F os, build_tree 1000 1000 4 0 true [1; 2; 3]%N 1 3 (ex_bufs 2 2 1 3) = Some (F, os) /\
  exists a, fget F (3, 1) = Some a /\ g_flag a <> 3 /\ g_par a = None /\ g_size a = 5.
Proof. exact thin_image. Qed.
Print Assumptions C41_images_smaller_than_the_grid_refuted.
