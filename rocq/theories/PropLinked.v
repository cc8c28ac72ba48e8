(* Property theorems about CV-MSER+, the linear implementation with linked pixel
   lists (basicimg/src/img_linked_linear_mser.cpp). *)
From stdpp Require Import sorting relations functions list.
From Coq Require Import NArith ZArith.
From Verif Require Import Spec TreeSpec FloodCorrect LinkedModel LinkedGrid LinkedInit LinkedCorrect LinkedExamples.
Local Open Scope nat_scope.

(* C26: with four (e = false) or eight (e = true) neighbours, in the dark (gm = 0) or
   bright (gm = 255) pass, on buffers with any contents: building the tree does not
   run into undefined behaviour or a failed assertion, and following the list of a
   region for its recorded size gives the pixels of its component, each once. *)
Theorem C26_lists_hold_the_components :
  forall (e : bool) src gm step w h b n,
  limg_fits src step w h -> gm = 0%N \/ gm = 255%N -> lbuf_ok w h b ->
  (if e then 10 else 6) * (w * h) < n ->
  exists regs b', lbuild n (lcfgn e w h) gm src step b = LTree regs b' /\
    lists_ok (lview e step w h (level src gm)) step regs (lb_pts b') /\
    lbuf_ok w h b'.
Proof. exact linked_lists. Qed.
Print Assumptions C26_lists_hold_the_components.

Example C26_example : limg_fits lx_img 4 3 3 /\ lbuf_ok 3 3 (lalloc_buf 3 3 99) /\
  lists_of (lbuild 100 (lcfgn false 3 3) 0 lx_img 4 (lalloc_buf 3 3 99)) = Some
   [(5, [(0, 0)]); (7, [(0, 2); (0, 1); (0, 0); (1, 1)]); (5, [(1, 1)]);
    (8, [(1, 2); (0, 2); (0, 1); (0, 0); (1, 1); (2, 2)]); (6, [(2, 2)]);
    (9, [(1, 0); (2, 0); (2, 1); (1, 2); (0, 2); (0, 1); (0, 0); (1, 1); (2, 2)])]%Z /\
  lists_of (lbuild 100 (lcfgn true 3 3) 0 lx_img 4 (lalloc_buf 3 3 99)) = Some
   [(5, [(1, 1); (0, 0)]); (6, [(2, 2); (1, 1); (0, 0)]);
    (7, [(0, 1); (0, 2); (2, 2); (1, 1); (0, 0)]);
    (8, [(1, 2); (0, 1); (0, 2); (2, 2); (1, 1); (0, 0)]);
    (9, [(1, 0); (2, 1); (2, 0); (1, 2); (0, 1); (0, 2); (2, 2); (1, 1); (0, 0)])]%Z.
Proof. exact linked_example. Qed.

(* C51: the regions with their parent links and sizes are the component tree of the
   image with the chosen neighbourhood; there is one root. *)
Theorem C51_builds_the_component_tree :
  forall (e : bool) src gm step w h b n,
  limg_fits src step w h -> gm = 0%N \/ gm = 255%N -> lbuf_ok w h b ->
  (if e then 10 else 6) * (w * h) < n ->
  exists regs b' lab, lbuild n (lcfgn e w h) gm src step b = LTree regs b' /\
    ctree (lview e step w h (level src gm)) lab (ltable regs) /\
    one_root (ltable regs) /\ length regs <= w * h /\ lbuf_ok w h b'.
Proof. exact linked_tree. Qed.
Print Assumptions C51_builds_the_component_tree.

Example C51_example : limg_fits lx_img 4 3 3 /\ lbuf_ok 3 3 (lalloc_buf 3 3 99) /\
  parents_of (lbuild 100 (lcfgn false 3 3) 0 lx_img 4 (lalloc_buf 3 3 99)) = Some
    [(5, Some 1, Some 1); (7, Some 4, Some 3); (5, Some 1, Some 1); (8, Some 6, Some 5);
     (6, Some 1, Some 3); (9, Some 9, None)] /\
  parents_of (lbuild 100 (lcfgn true 3 3) 255 lx_img 4 (lalloc_buf 3 3 99)) = Some
    [(250, Some 9, None); (246, Some 3, Some 2); (247, Some 4, Some 3); (248, Some 6, Some 4);
     (249, Some 7, Some 0)].
Proof. exact linked_tree_example. Qed.
