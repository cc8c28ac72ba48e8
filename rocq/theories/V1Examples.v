(* Concrete inputs that meet the hypotheses of the theorems about Fast MSER V1, and a
   witness for the refutation. *)
From stdpp Require Import sorting relations functions list.
From Coq Require Import NArith ZArith.
From Verif Require Import Spec TreeSpec Grid FloodModel FloodInit FloodTree FloodCorrect FloodExamples ConnectModel PartModel PartProof
  WholeModel WholeCorrect JoinExamples LinkedModel V1JoinModel V1Heap V1Model V1FloodInit V1BuildModel V1AllocModel V1Build V1Alloc V1Comp.
Local Open Scope nat_scope.

Lemma small_side n : n <= 64 -> n <= 2 ^ 16.
Proof. intros. transitivity (2 ^ 6); [cbn; lia|apply Nat.pow_le_mono_r; lia]. Qed.
Lemma v1_fits_intro hpn vpn img cols rows v : hpn <= cols <= 64 -> vpn <= rows <= 64 -> rows * cols <= length img ->
  forallb (fun x => (x <? 256)%N) img = true -> 0 < v < 256 ->
  forallb (fun x => negb (N.to_nat x =? v)) img = true -> v1_fits hpn vpn img cols rows.
Proof.
  intros [H1 H1'] [H2 H2'] H3 H4 Hvv H6. apply small_side in H1', H2'. constructor; auto.
  - by apply bytes_ok.
  - intros k r Hk. exists v. split; [lia|]. intros p _ He. rewrite level0 in He. destruct (img !! p) as [x|] eqn:Hx.
    + rewrite (nth_lookup_Some _ _ _ _ Hx) in He. rewrite forallb_forall in H6.
      apply elem_of_list_lookup_2, elem_of_list_In, H6 in Hx. subst v.
      by rewrite Nat.eqb_refl in Hx.
    + rewrite nth_lookup, Hx in He. simpl in He. lia.
Qed.

(* memory full of leftovers *)
Definition ex_mem (threads hpn vpn cols rows : nat) : vmem :=
  VMem (replicate (pt_size hpn vpn cols rows) 77%N) (replicate (h_size threads cols rows) (Some 5))
       (replicate (pt_size hpn vpn cols rows) (WPt 3 4 (Some (7, 7)) (Some (8, 8)) (Some (9, 9))))
       (replicate (v1_bsize threads cols rows) (Some (9, 9))).
Definition ex_pinfo (threads : nat) : list (list nat * list nat) :=
  replicate threads (replicate 257 3, replicate 257 4).
Lemma ex_mem_ok threads hpn vpn cols rows : vmem_sized threads hpn vpn cols rows (ex_mem threads hpn vpn cols rows).
Proof. unfold vmem_sized, ex_mem. cbn [vm_img vm_pts vm_heap vm_bnd]. by rewrite !replicate_length. Qed.
Lemma ex_pinfo_ok threads : pinfo_sized threads (ex_pinfo threads).
Proof.
  split; [apply replicate_length|]. intros k hs lvl Hk. apply lookup_replicate in Hk as [Hk _].
  split; [exact (f_equal (fun q => length (fst q)) Hk)|exact (f_equal (fun q => length (snd q)) Hk)].
Qed.

Lemma ex_setup1 : v1_setup 1 1 1 ex_img 4 3 100 600 (ex_mem 1 1 1 4 3) (ex_pinfo 1).
Proof.
  constructor; [done| |done|done|apply ex_mem_ok|apply ex_pinfo_ok|cbn; lia|cbn; lia|cbn; lia].
  apply (v1_fits_intro _ _ _ _ _ 200); try (cbn; lia); done.
Qed.
Lemma ex_setup4 : v1_setup 4 2 2 ex_img 4 3 100 600 (ex_mem 4 2 2 4 3) (ex_pinfo 4).
Proof.
  constructor; [done| |done|done|apply ex_mem_ok|apply ex_pinfo_ok|cbn; lia|cbn; lia|cbn; lia].
  apply (v1_fits_intro _ _ _ _ _ 200); try (cbn; lia); done.
Qed.
Lemma ex_setup8 : v1_setup 8 4 2 ex_img 4 3 100 600 (ex_mem 8 4 2 4 3) (ex_pinfo 8).
Proof.
  constructor; [done| |done|done|apply ex_mem_ok|apply ex_pinfo_ok|cbn; lia|cbn; lia|cbn; lia].
  apply (v1_fits_intro _ _ _ _ _ 200); try (cbn; lia); done.
Qed.
Lemma ex_setup32 : v1_setup 32 8 4 ex32_img 8 5 300 600 (ex_mem 32 8 4 8 5) (ex_pinfo 32).
Proof.
  constructor; [done| |done|done|apply ex_mem_ok|apply ex_pinfo_ok|cbn; lia|cbn; lia|cbn; lia].
  apply (v1_fits_intro _ _ _ _ _ 200); try (cbn; lia); done.
Qed.

(* the surviving regions of a result: level, size and box (left, right, top, bottom) *)
Definition v1_summary (o : option (list (list wreg) * list vbuf)) : option (list (nat * Z * (nat * nat * nat * nat))) :=
  (fun r => flat_map (fun a => if w_flag a =? 3 then [] else [(w_gray a, w_size a, (w_left a, w_right a, w_top a, w_bot a))])
                     (concat (fst r))) <$> o.
Definition ex_run (threads hpn vpn : nat) (gm : N) (img : list N) (cols rows : nat) : option (list (list wreg) * list vbuf) :=
  match valloc threads cols rows (ex_mem threads hpn vpn cols rows) (ex_pinfo threads) with
  | Some bs => vbuild 300 600 threads gm true img cols rows bs
  | None => None
  end.
(* the tree of ex_img with four and with eight partitions: eight regions, stored in
   different order *)
Lemma ex_run4 : v1_summary (ex_run 4 2 2 0 ex_img 4 3) =
  Some [(9, 12%Z, (0, 3, 0, 2)); (3, 8%Z, (1, 3, 0, 2)); (1, 1%Z, (2, 2, 0, 0)); (7, 9%Z, (0, 3, 0, 2));
        (2, 2%Z, (1, 1, 1, 2)); (0, 1%Z, (1, 1, 2, 2)); (8, 10%Z, (0, 3, 0, 2)); (1, 1%Z, (3, 3, 1, 1))].
Proof. vm_compute. reflexivity. Qed.
Lemma ex_run8 : v1_summary (ex_run 8 4 2 0 ex_img 4 3) =
  Some [(9, 12%Z, (0, 3, 0, 2)); (3, 8%Z, (1, 3, 0, 2)); (1, 1%Z, (2, 2, 0, 0)); (7, 9%Z, (0, 3, 0, 2));
        (8, 10%Z, (0, 3, 0, 2)); (2, 2%Z, (1, 1, 1, 2)); (0, 1%Z, (1, 1, 2, 2)); (1, 1%Z, (3, 3, 1, 1))].
Proof. vm_compute. reflexivity. Qed.

Lemma vkrun_ub k n : forall m s, vkrun k n s = VUB -> n <= m -> vkrun k m s = VUB.
Proof.
  induction n as [|n IH]; intros m s H Hm; [done|]. destruct m as [|m]; [lia|]. cbn [vkrun] in *.
  destruct (vkstep k s) as [s'|s'|]; try done. apply IH; auto. lia.
Qed.
Lemma vmake_bad n m k fresh gm src step b :
  match vprocess (v_lc k) fresh gm src step (v_top k * step + v_left k) b with
  | Some b1 => match vkinit k b1 with VNext s => vkrun k n s = VUB | _ => False end
  | None => False
  end -> n <= m -> vmake_tree m k fresh gm src step b = VBad.
Proof.
  unfold vmake_tree. destruct (vprocess _ _ _ _ _ _ _) as [b1|]; [|done]. destruct (vkinit k b1) as [s| |]; [|done|done].
  intros H Hm. by rewrite (vkrun_ub _ _ _ _ H Hm).
Qed.

(* the 256 levels in descending order: C03's image *)
Definition desc_buf : vbuf := vcarve (ex_mem 1 1 1 256 1) (PRect 0 0 256 1) (VSlice 0 0 None None None None) (replicate 257 3) (replicate 257 4).
Lemma desc_alloc : valloc 1 256 1 (ex_mem 1 1 1 256 1) (ex_pinfo 1) = Some [desc_buf].
Proof. vm_compute. reflexivity. Qed.
Lemma desc_bad n : 2000 <= n -> vmake_tree n (vcfg4 0 0 0 256 1) true 0 desc_img 256 desc_buf = VBad.
Proof. intros Hn. eapply vmake_bad; [|exact Hn]. vm_compute. reflexivity. Qed.


(* a column of three pixels in two partitions: the first one is empty, with room for the
   2x5 words of its frame; the loops write three words per row *)
Definition thin_bufs : list vbuf :=
  match valloc 2 1 3 (ex_mem 2 2 1 1 3) (ex_pinfo 2) with Some b => b | None => [] end.
Definition thin0 : vbuf := match thin_bufs with b :: _ => b | [] => desc_buf end.
Lemma thin_alloc : exists b, valloc 2 1 3 (ex_mem 2 2 1 1 3) (ex_pinfo 2) = Some [thin0; b].
Proof. eexists. vm_compute. reflexivity. Qed.
Lemma thin_bad n : vmake_tree n (vcfg4 0 0 0 0 3) true 0 [1; 2; 3]%N 1 thin0 = VBad.
Proof.
  unfold vmake_tree. destruct (vprocess (v_lc (vcfg4 0 0 0 0 3)) true 0 [1; 2; 3]%N 1 (v_top (vcfg4 0 0 0 0 3) * 1 + v_left (vcfg4 0 0 0 0 3)) thin0) eqn:E; [|done].
  vm_compute in E. done.
Qed.
