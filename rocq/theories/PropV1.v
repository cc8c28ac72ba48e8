(* Property theorems about Fast MSER V1: allocation and building the tree
   (img_fast_mser_v1.cpp:79-1556, 1558-2414). *)
From stdpp Require Import sorting relations functions list.
From Coq Require Import NArith ZArith.
From Verif Require Import Spec TreeSpec TreeFacts FloodModel FloodInit FloodCorrect FloodExamples ConnectModel ConnectProof PartModel PartProof
  WholeModel WholeProof WholeCorrect JoinCorrect JoinExamples LinkedModel V1JoinModel V1Heap V1Model V1FloodInit V1BuildModel V1AllocModel
  V1Build V1Alloc V1Comp V1Examples.
Local Open Scope nat_scope.

(* C59: for 1, 2, 4, 8, 16 and 32 threads the slices given to the partitions lie one after
   the other and fill the allocated arrays exactly; no i32 offset overflows; the buffers
   have the sizes the flood needs. *)
Theorem C59_v1_slices_fill_the_arrays :
  forall threads hpn vpn cols rows m pinfo,
  v1_grid threads = Some (hpn, vpn) ->
  (N.of_nat ((cols + 2 * hpn) * (rows + 2 * vpn)) < 2 ^ 31)%N ->
  (N.of_nat (rows * cols + 257 * threads) < 2 ^ 31)%N ->
  vmem_sized threads hpn vpn cols rows m -> pinfo_sized threads pinfo ->
  exists ss bs, vlayout threads 0 (rects hpn vpn cols rows) 0 0 0 = Some ss /\ length ss = threads /\
    fills (length (vm_img m)) (pt_pieces (rects hpn vpn cols rows) ss) /\
    fills (length (vm_pts m)) (pt_pieces (rects hpn vpn cols rows) ss) /\
    fills (length (vm_heap m)) (hp_pieces (rects hpn vpn cols rows) ss) /\
    fills (length (vm_bnd m)) (bd_pieces (rects hpn vpn cols rows) ss) /\
    valloc threads cols rows m pinfo = Some bs /\ v1_bufs hpn vpn cols rows bs /\
    v1_points bs = (cols + 2 * hpn) * (rows + 2 * vpn).
Proof. exact valloc_ok. Qed.
Print Assumptions C59_v1_slices_fill_the_arrays.

Example C59_example : v1_grid 32 = Some (8, 4) /\
  vmem_sized 32 8 4 8 5 (ex_mem 32 8 4 8 5) /\ pinfo_sized 32 (ex_pinfo 32).
Proof. exact (conj eq_refl (conj (ex_mem_ok 32 8 4 8 5) (ex_pinfo_ok 32))). Qed.

(* C60: allocating and building on memory with any contents has defined behaviour and ends;
   the surviving regions with their pixel lists are, one to one, the extremal regions of
   the whole image, nested as the regions are, with one root. *)
Theorem C60_v1_lists_the_extremal_regions :
  forall threads hpn vpn img cols rows n fuel m pinfo gm,
  v1_setup threads hpn vpn img cols rows n fuel m pinfo -> gm = 0%N \/ gm = 255%N ->
  exists bs F os, valloc threads cols rows m pinfo = Some bs /\
    vbuild n fuel threads gm true img cols rows bs = Some (F, os) /\
    v1_components img gm cols rows F (vb_pts <$> os).
Proof. exact v1_fresh_pass. Qed.
Print Assumptions C60_v1_lists_the_extremal_regions.

Example C60_example :
  v1_setup 4 2 2 ex_img 4 3 100 600 (ex_mem 4 2 2 4 3) (ex_pinfo 4) /\
  v1_setup 32 8 4 ex32_img 8 5 300 600 (ex_mem 32 8 4 8 5) (ex_pinfo 32) /\
  v1_summary (ex_run 4 2 2 0 ex_img 4 3) =
    Some [(9, 12%Z, (0, 3, 0, 2)); (3, 8%Z, (1, 3, 0, 2)); (1, 1%Z, (2, 2, 0, 0)); (7, 9%Z, (0, 3, 0, 2));
          (2, 2%Z, (1, 1, 1, 2)); (0, 1%Z, (1, 1, 2, 2)); (8, 10%Z, (0, 3, 0, 2)); (1, 1%Z, (3, 3, 1, 1))].
Proof. exact (conj ex_setup4 (conj ex_setup32 ex_run4)). Qed.

(* C61: building the bright tree on the buffers left by the dark one gives the extremal
   regions of the inverted image; points and heap contents may have been changed in between. *)
Theorem C61_v1_bright_pass_on_reused_buffers :
  forall threads hpn vpn img cols rows n fuel m pinfo,
  v1_setup threads hpn vpn img cols rows n fuel m pinfo ->
  forall bs F os os', valloc threads cols rows m pinfo = Some bs ->
    vbuild n fuel threads 0 true img cols rows bs = Some (F, os) -> Forall2 v1_kept os os' ->
    exists F2 os2, vbuild n fuel threads 255 false img cols rows os' = Some (F2, os2) /\
      v1_components img 255 cols rows F2 (vb_pts <$> os2).
Proof. exact v1_second_pass. Qed.
Print Assumptions C61_v1_bright_pass_on_reused_buffers.

Example C61_example : exists bs F os, valloc 4 4 3 (ex_mem 4 2 2 4 3) (ex_pinfo 4) = Some bs /\
  vbuild 100 600 4 0 true ex_img 4 3 bs = Some (F, os) /\ Forall2 v1_kept os os.
Proof.
  exact (match C60_v1_lists_the_extremal_regions _ _ _ _ _ _ _ _ _ _ _ ex_setup4 (or_introl eq_refl) with
    ex_intro _ bs (ex_intro _ F (ex_intro _ os (conj A (conj B _)))) =>
      ex_intro _ bs (ex_intro _ F (ex_intro _ os (conj A (conj B (kept_refl os))))) end).
Qed.

(* C62: the surviving regions do not depend on the number of threads: same pixels, level,
   size and box. *)
Theorem C62_v1_thread_number_does_not_matter :
  forall threads hpn vpn threads' hpn' vpn' img cols rows n fuel m pinfo n' fuel' m' pinfo' gm,
  v1_setup threads hpn vpn img cols rows n fuel m pinfo ->
  v1_setup threads' hpn' vpn' img cols rows n' fuel' m' pinfo' -> gm = 0%N \/ gm = 255%N ->
  forall bs bs' F os F' os', valloc threads cols rows m pinfo = Some bs -> valloc threads' cols rows m' pinfo' = Some bs' ->
    vbuild n fuel threads gm true img cols rows bs = Some (F, os) ->
    vbuild n' fuel' threads' gm true img cols rows bs' = Some (F', os') ->
    v1_agree F (vb_pts <$> os) F' (vb_pts <$> os').
Proof. exact v1_threads_agree. Qed.
Print Assumptions C62_v1_thread_number_does_not_matter.

Example C62_example :
  v1_setup 1 1 1 ex_img 4 3 100 600 (ex_mem 1 1 1 4 3) (ex_pinfo 1) /\
  v1_setup 8 4 2 ex_img 4 3 100 600 (ex_mem 8 4 2 4 3) (ex_pinfo 8) /\
  v1_summary (ex_run 8 4 2 0 ex_img 4 3) =
    Some [(9, 12%Z, (0, 3, 0, 2)); (3, 8%Z, (1, 3, 0, 2)); (1, 1%Z, (2, 2, 0, 0)); (7, 9%Z, (0, 3, 0, 2));
          (8, 10%Z, (0, 3, 0, 2)); (2, 2%Z, (1, 1, 1, 2)); (0, 1%Z, (1, 1, 2, 2)); (1, 1%Z, (3, 3, 1, 1))].
Proof. exact (conj ex_setup1 (conj ex_setup8 ex_run8)). Qed.

(* C63: V1 and V2 store the same regions: for any numbers of threads the surviving regions
   of V1 and of V2 have the same pixels, levels and sizes. *)
Theorem C63_v1_and_v2_build_the_same_regions :
  forall threads hpn vpn img cols rows n fuel m pinfo threads' hpn' vpn' n' fuel' bs',
  v1_setup threads hpn vpn img cols rows n fuel m pinfo ->
  grid_of threads' = Some (hpn', vpn') -> image_fits hpn' vpn' img cols rows -> length bs' = threads' ->
  (forall k r b, rects hpn' vpn' cols rows !! k = Some r -> bs' !! k = Some b -> buf_alloc (r_w r) (r_h r) b) ->
  6 * (rows * cols) < n' -> rows * cols + 514 < fuel' ->
  exists bs F os G os' lab, valloc threads cols rows m pinfo = Some bs /\
    vbuild n fuel threads 0 true img cols rows bs = Some (F, os) /\
    build_tree n' fuel' threads' 0 true img cols rows bs' = Some (G, os') /\
    whole_ok hpn' vpn' img 0 cols rows G os' lab /\
    (forall r a, v1_live F r a -> exists l r' b, v1_pixels (vb_pts <$> os) a l /\ v2_region img 0 cols rows lab G r' b l /\
       g_gray b = w_gray a /\ Z.of_nat (g_size b) = w_size a) /\
    (forall r' b, fget G r' = Some b -> g_flag b <> 3 -> exists l r a, v1_live F r a /\ v1_pixels (vb_pts <$> os) a l /\
       v2_region img 0 cols rows lab G r' b l /\ g_gray b = w_gray a /\ Z.of_nat (g_size b) = w_size a).
Proof. exact v1_v2_runs. Qed.
Print Assumptions C63_v1_and_v2_build_the_same_regions.

Example C63_example :
  v1_setup 8 4 2 ex_img 4 3 100 600 (ex_mem 8 4 2 4 3) (ex_pinfo 8) /\
  (grid_of 4 = Some (2, 2) /\ image_fits 2 2 ex_img 4 3 /\ length (ex_bufs 2 2 4 3) = 4) /\
  (forall hpn vpn cols rows k r b, rects hpn vpn cols rows !! k = Some r ->
     ex_bufs hpn vpn cols rows !! k = Some b -> buf_alloc (r_w r) (r_h r) b).
Proof. exact (conj ex_setup8 (conj (conj eq_refl (conj ex4_fits eq_refl)) ex_bufs_ok)). Qed.

(* C64 is false: a row with the 256 grey levels in descending order needs 257 entries (with
   the sentinel) of the 256 that V1's component stack has. *)
Theorem C64_v1_component_stack_is_large_enough_refuted :
  exists img m pinfo b, length img = 256 /\ vmem_sized 1 1 1 256 1 m /\ pinfo_sized 1 pinfo /\
    valloc 1 256 1 m pinfo = Some [b] /\
    forall n, 2000 <= n -> vmake_tree n (vcfg4 0 0 0 256 1) true 0 img 256 b = VBad.
Proof.
  exact (ex_intro _ desc_img (ex_intro _ (ex_mem 1 1 1 256 1) (ex_intro _ (ex_pinfo 1) (ex_intro _ desc_buf
    (conj eq_refl (conj (ex_mem_ok 1 1 1 256 1) (conj (ex_pinfo_ok 1) (conj desc_alloc desc_bad)))))))).
Qed.
Print Assumptions C64_v1_component_stack_is_large_enough_refuted.

(* C65 is false: with two threads the first partition of a one-column image is empty, and
   copying the image writes beyond the slice the partition has. *)
Theorem C65_v1_handles_images_smaller_than_the_grid_refuted :
  exists img m pinfo b b', length img = 3 /\ vmem_sized 2 2 1 1 3 m /\ pinfo_sized 2 pinfo /\
    valloc 2 1 3 m pinfo = Some [b; b'] /\
    forall n, vmake_tree n (vcfg4 0 0 0 0 3) true 0 img 1 b = VBad.
Proof.
  exact (match thin_alloc with ex_intro _ b' H =>
    ex_intro _ [1; 2; 3]%N (ex_intro _ (ex_mem 2 2 1 1 3) (ex_intro _ (ex_pinfo 2) (ex_intro _ thin0 (ex_intro _ b'
    (conj eq_refl (conj (ex_mem_ok 2 2 1 1 3) (conj (ex_pinfo_ok 2) (conj H thin_bad)))))))) end).
Qed.
Print Assumptions C65_v1_handles_images_smaller_than_the_grid_refuted.
