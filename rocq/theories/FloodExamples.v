(* Concrete inputs that meet the hypotheses of the flooding theorems, and
   witnesses for the refutations. *)
From stdpp Require Import sorting relations functions list.
From Coq Require Import NArith ZArith.
From Verif Require Import Spec TreeSpec Grid FloodModel FloodRefine FloodInit FloodTree FloodCorrect.

Lemma bytes_ok (img : list N) : forallb (fun v => (v <? 256)%N) img = true ->
  forall i v, img !! i = Some v -> (v < 256)%N.
Proof.
  intros H i v Hv. apply elem_of_list_lookup_2, elem_of_list_In in Hv.
  rewrite forallb_forall in H. apply H in Hv. by apply N.ltb_lt.
Qed.

Lemma alloc_ok w h junk : buf_alloc w h (alloc_patch w h junk).
Proof. constructor; unfold alloc_patch, plen; cbn [b_pts b_ext b_lvl b_heap b_hs]; by rewrite ?replicate_length. Qed.

(* a 4x3 image, its inner 3x2 rectangle is flooded *)
Definition ex_img : list N := [9; 3; 1; 3;  7; 2; 9; 1;  8; 0; 3; 3]%N.

Lemma ex_fits : patch_fits ex_img 4 0 1 3 3.
Proof. constructor; try (vm_compute; lia); [by apply bytes_ok|done]. Qed.

Lemma ex_misses : misses_level ex_img 0 4 0 1 3 3.
Proof.
  exists 200. split; [lia|]. intros p Hp. apply (in_rect_nodes 4 0 1 3 3 (fun _ => 0)) in Hp; [|lia].
  assert (Forall (fun p => level ex_img 0 p <> 200) (rect_nodes 4 0 1 3 3)) as HF.
  { apply (bool_decide_unpack _). vm_compute. done. }
  rewrite Forall_forall in HF. by apply HF.
Qed.

(* one row of the 256 levels in descending order *)
Definition desc_img : list N := map (fun i => (255 - N.of_nat i)%N) (seq 0 256).
Lemma desc_fits : patch_fits desc_img 256 0 0 256 1.
Proof.
  constructor; [lia|lia|lia| |apply bytes_ok; vm_compute; done|vm_compute; done].
  vm_compute. lia.
Qed.
Lemma desc_ub n : 2000 <= n ->
  make_tree_patch n (cfg4 256 1 0 0) true desc_img 256 0 (alloc_patch 256 1 0) = FUB.
Proof. intros Hn. eapply make_tree_ub; [|exact Hn]. vm_compute. done. Qed.

(* the levels of the row without the brightest pixel: fine *)
Definition desc_ok_img : list N := map (fun i => (254 - N.of_nat i)%N) (seq 0 255).

Definition two_img : list N := [1; 2]%N.
Lemma two_fits : patch_fits two_img 2 0 0 2 1.
Proof. constructor; try (vm_compute; lia); [by apply bytes_ok|done]. Qed.
Lemma two_ub8 n : 100 <= n ->
  make_tree_patch n (cfg8 2 1 0 0) true two_img 2 0 (alloc_patch 2 1 0) = FUB.
Proof. intros Hn. eapply make_tree_ub; [|exact Hn]. vm_compute. done. Qed.

Definition bright_img : list N := [5; 5; 5; 4]%N.
Lemma bright_fits : patch_fits bright_img 4 0 0 4 1.
Proof. constructor; try (vm_compute; lia); [by apply bytes_ok|done]. Qed.
Definition bright_regs : list creg :=
  match make_tree_patch 100 (cfg4 4 1 255 0) true bright_img 4 0 (alloc_patch 4 1 0) with
  | FTree regs _ => regs | _ => [] end.
Definition zero_img : list N := replicate 9 0%N.
Lemma zero_fits : patch_fits zero_img 3 0 0 3 3.
Proof. constructor; try (vm_compute; lia); [by apply bytes_ok|done]. Qed.
Lemma zero_ub n : 100 <= n ->
  make_tree_patch n (cfg4 3 3 255 0) true zero_img 3 0 (alloc_patch 3 3 0) = FUB.
Proof. intros Hn. eapply make_tree_ub; [|exact Hn]. vm_compute. done. Qed.

Lemma bright_only_wrong :
  (exists img cols w h b regs b' r, patch_fits img cols 0 0 w h /\ buf_alloc w h b /\
    make_tree_patch 100 (cfg4 w h 255 0) true img cols 0 b = FTree regs b' /\
    r ∈ regs /\ w * h < m_size r) /\
  (exists img cols w h b, patch_fits img cols 0 0 w h /\ buf_alloc w h b /\
    forall n, 100 <= n -> make_tree_patch n (cfg4 w h 255 0) true img cols 0 b = FUB).
Proof.
  split.
  - destruct (make_tree_patch 100 (cfg4 4 1 255 0) true bright_img 4 0 (alloc_patch 4 1 0)) as [regs b'| |] eqn:E;
      [|vm_compute in E; done|vm_compute in E; done].
    exists bright_img, 4, 4, 1, (alloc_patch 4 1 0), regs, b', (CReg 252 0 7 None 2 0).
    split; [exact bright_fits|]. split; [apply alloc_ok|]. split; auto.
    vm_compute in E. injection E as <- _. split; [|simpl; lia]. set_solver.
  - exists zero_img, 3, 3, 3, (alloc_patch 3 3 0). split; [exact zero_fits|].
    split; [apply alloc_ok|exact zero_ub].
Qed.
