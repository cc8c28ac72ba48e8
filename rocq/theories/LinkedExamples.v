(* Small inputs for the properties of CV-MSER+, and the statements in the form used
   by PropLinked. *)
From stdpp Require Import sorting relations functions list.
From Coq Require Import NArith ZArith.
From Verif Require Import Spec TreeSpec FloodCorrect LinkedModel LinkedGrid LinkedInit LinkedCorrect.
Local Open Scope nat_scope.

(* 3 x 3 pixels in rows of four samples, the last row without padding *)
Definition lx_img : list N := [5; 9; 9; 200;  7; 5; 9; 200;  7; 8; 6]%N.

Lemma lx_fits : limg_fits lx_img 4 3 3.
Proof.
  constructor; try (cbn; lia). intros i v Hv.
  do 11 (destruct i as [|i]; [cbn in Hv; injection Hv as <-; lia|]). done.
Qed.

(* the grey level and the list of every region *)
Definition lists_of (t : ltree) : option (list (Z * list (Z * Z))) :=
  match t with
  | LTree regs b => mapM (fun a => match n_size a with
      | Some n => pair (Z.of_nat (n_gray a)) <$> lwalk (lb_pts b) (n_head a) n | None => None end) regs
  | _ => None
  end.
Definition parents_of (t : ltree) : option (list (nat * option nat * option nat)) :=
  match t with
  | LTree regs _ => Some ((fun a => (n_gray a, n_size a, n_parent a)) <$> regs)
  | _ => None
  end.

Lemma linked_lists (e : bool) src gm step w h b n :
  limg_fits src step w h -> gm = 0%N \/ gm = 255%N -> lbuf_ok w h b ->
  (if e then 10 else 6) * (w * h) < n ->
  exists regs b', lbuild n (lcfgn e w h) gm src step b = LTree regs b' /\
    lists_ok (lview e step w h (level src gm)) step regs (lb_pts b') /\
    lbuf_ok w h b'.
Proof.
  intros HF Hgm Hb Hn.
  destruct (lbuild_ok e src gm step w h HF Hgm b n Hb) as (regs & b' & lab & E & _ & _ & L & _ & _ & B & _).
  { by destruct e. }
  eauto.
Qed.

Lemma linked_tree (e : bool) src gm step w h b n :
  limg_fits src step w h -> gm = 0%N \/ gm = 255%N -> lbuf_ok w h b ->
  (if e then 10 else 6) * (w * h) < n ->
  exists regs b' lab, lbuild n (lcfgn e w h) gm src step b = LTree regs b' /\
    ctree (lview e step w h (level src gm)) lab (ltable regs) /\
    one_root (ltable regs) /\ length regs <= w * h /\ lbuf_ok w h b'.
Proof.
  intros HF Hgm Hb Hn.
  destruct (lbuild_ok e src gm step w h HF Hgm b n Hb) as (regs & b' & lab & E & T & R & _ & _ & B1 & B & _).
  { by destruct e. }
  exists regs, b', lab. auto.
Qed.

Lemma linked_example : limg_fits lx_img 4 3 3 /\ lbuf_ok 3 3 (lalloc_buf 3 3 99) /\
  lists_of (lbuild 100 (lcfgn false 3 3) 0 lx_img 4 (lalloc_buf 3 3 99)) = Some
   [(5, [(0, 0)]); (7, [(0, 2); (0, 1); (0, 0); (1, 1)]); (5, [(1, 1)]);
    (8, [(1, 2); (0, 2); (0, 1); (0, 0); (1, 1); (2, 2)]); (6, [(2, 2)]);
    (9, [(1, 0); (2, 0); (2, 1); (1, 2); (0, 2); (0, 1); (0, 0); (1, 1); (2, 2)])]%Z /\
  lists_of (lbuild 100 (lcfgn true 3 3) 0 lx_img 4 (lalloc_buf 3 3 99)) = Some
   [(5, [(1, 1); (0, 0)]); (6, [(2, 2); (1, 1); (0, 0)]);
    (7, [(0, 1); (0, 2); (2, 2); (1, 1); (0, 0)]);
    (8, [(1, 2); (0, 1); (0, 2); (2, 2); (1, 1); (0, 0)]);
    (9, [(1, 0); (2, 1); (2, 0); (1, 2); (0, 1); (0, 2); (2, 2); (1, 1); (0, 0)])]%Z.
Proof.
  split; [exact lx_fits|]. split; [apply alloc_buf_ok|]. split; vm_compute; reflexivity.
Qed.

Lemma linked_tree_example : limg_fits lx_img 4 3 3 /\ lbuf_ok 3 3 (lalloc_buf 3 3 99) /\
  parents_of (lbuild 100 (lcfgn false 3 3) 0 lx_img 4 (lalloc_buf 3 3 99)) = Some
    [(5, Some 1, Some 1); (7, Some 4, Some 3); (5, Some 1, Some 1); (8, Some 6, Some 5);
     (6, Some 1, Some 3); (9, Some 9, None)] /\
  parents_of (lbuild 100 (lcfgn true 3 3) 255 lx_img 4 (lalloc_buf 3 3 99)) = Some
    [(250, Some 9, None); (246, Some 3, Some 2); (247, Some 4, Some 3); (248, Some 6, Some 4);
     (249, Some 7, Some 0)].
Proof.
  split; [exact lx_fits|]. split; [apply alloc_buf_ok|]. split; vm_compute; reflexivity.
Qed.
