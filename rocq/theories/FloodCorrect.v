(* make_tree_patch builds the component tree of a partition, in both passes. *)
From stdpp Require Import sorting relations functions list.
From Coq Require Import NArith ZArith.
From Verif Require Import Spec TreeSpec FloodAbs FloodAbsInv FloodAbsProof Grid FloodModel WordBits
  FloodRefine FloodInit FloodTree.

(* SPEC: masked grey level of the pixel at offset p of an image *)
Definition level (img : list N) (gm : N) (p : nat) : nat := N.to_nat (N.lxor (nth p img 0%N) gm).

(* SPEC: the image holds the rectangle, its samples are bytes, and the partition
   is small enough for 29 bit indices *)
Record patch_fits (img : list N) (cols top left w h : nat) : Prop := {
  pf_w : 0 < w; pf_h : 0 < h; pf_cols : left + w <= cols;
  pf_img : (top + h) * cols <= length img;
  pf_byte : forall i v, img !! i = Some v -> (v < 256)%N;
  pf_small : (N.of_nat (w * h) < 2 ^ 29)%N
}.

(* SPEC: some grey value does not occur in the rectangle (at most 255 levels) *)
Definition misses_level (img : list N) (gm : N) (cols top left w h : nat) : Prop :=
  exists v, v < 256 /\ forall p, in_rect cols top left w h p -> level img gm p <> v.

(* SPEC: the result of building the tree of one partition: the region table is
   the component tree of the rectangle, each region knows its own index and
   partition and is not yet classified, and the word of each pixel is the
   finished mark plus the index of the region that owns the pixel. *)
Definition flood_ok (img : list N) (gm : N) (cols top left w h pt : nat)
  (regs : list creg) (b : fbuf) (lab : nat -> nat) : Prop :=
  ctree (rect_view cols top left w h (level img gm)) lab (table_of regs) /\
  one_root (table_of regs) /\
  length regs <= w * h /\
  (forall i a, regs !! i = Some a -> m_er_index a = i /\ m_patch a = pt /\ m_flag a = 0) /\
  (forall y x, y < h -> x < w ->
     b_pts b !! ((y + 1) * (w + 2) + (x + 1)) =
     Some (5 * 2 ^ 29 + N.of_nat (lab ((top + y) * cols + (left + x))%nat))%N).

Lemma lxor_byte v : (v < 256)%N -> N.to_nat (N.lxor v 255) = 255 - N.to_nat v.
Proof.
  intros Hv.
  assert (forall n, n < 256 -> N.to_nat (N.lxor (N.of_nat n) 255) = 255 - n) as H.
  { assert (Forall (fun n => N.to_nat (N.lxor (N.of_nat n) 255) = 255 - n) (seq 0 256)) as Hall.
    { apply (bool_decide_unpack _). vm_compute. done. }
    intros n Hn. rewrite Forall_forall in Hall. apply Hall. apply elem_of_seq. lia. }
  rewrite <-(N2Nat.id v) at 1. rewrite H; lia.
Qed.

Lemma vconn_ext V V' l p q :
  (forall x, vw_in V x <-> vw_in V' x) -> (forall x y, vw_in V x -> vw_in V y -> vw_adj V x y -> vw_adj V' x y) ->
  (forall x, vw_in V x -> vw_gray V x = vw_gray V' x) -> vconn V l p q -> vconn V' l p q.
Proof.
  intros Hin Ha Hg (H1 & H2 & H3 & H4 & H5). split; [by apply Hin|]. split; [by apply Hin|].
  rewrite <-!Hg by auto. split; auto. split; auto. revert H5. apply rtc_subrel.
  intros x y (X1 & X2 & X3 & X4 & X5). split; [by apply Hin|]. split; [by apply Hin|].
  rewrite <-!Hg by auto. auto.
Qed.

Lemma ctree_ext {I} V V' (lab : nat -> I) T :
  ctree V lab T ->
  (forall x, vw_in V x <-> vw_in V' x) ->
  (forall x y, vw_in V x -> vw_in V y -> vw_adj V x y <-> vw_adj V' x y) ->
  (forall x, vw_in V x -> vw_gray V x = vw_gray V' x) -> ctree V' lab T.
Proof.
  intros [] Hin Ha Hg. constructor; auto.
  - intros p Hp. apply Hin in Hp. rewrite <-Hg by auto. auto.
  - intros r a Hr Hl. destruct (ct_own r a Hr Hl) as (p & Hp & ? & ?). exists p.
    rewrite <-Hg by auto. split; auto. by apply Hin.
  - intros r a p q Hr Hl Hp Hq Hu. apply Hin in Hp, Hq. rewrite (ct_comp r a p q) by auto.
    split; apply vconn_ext; auto.
    + intros x y Hx Hy. by apply Ha.
    + intros x. symmetry. apply Hin.
    + intros x y Hx Hy. apply Hin in Hx, Hy. by apply Ha.
    + intros x Hx. apply Hin in Hx. symmetry. auto.
  - intros r a Hr Hl. destruct (ct_size r a Hr Hl) as (l & H1 & H2 & H3). exists l.
    split; auto. split; auto. intros p. rewrite H2. by rewrite Hin.
Qed.

Section corr.
Context (ms : bool) (img : list N) (gm : N) (cols top left w h pt : nat).
Context (HP : patch_fits img cols top left w h).
Notation G gr := (dgraph ms cols top left w h gr).
Notation gid := (gid cols top left).
Notation pid := (pid w).

Lemma img_at r c : r < h -> c < w -> img !! gid r c = Some (nth (gid r c) img 0%N).
Proof.
  clear gm pt. destruct HP. intros Hr Hc.
  destruct (lookup_lt_is_Some_2 img (gid r c)) as [v Hv].
  - unfold Grid.gid. nia.
  - rewrite Hv. by rewrite (nth_lookup_Some _ _ _ _ Hv).
Qed.
Lemma img_byte r c : r < h -> c < w -> (nth (gid r c) img 0 < 256)%N.
Proof. clear gm pt. intros Hr Hc. eapply pf_byte; eauto. by apply img_at. Qed.

Lemma level_lt : gm = 0%N \/ gm = 255%N -> forall r c, r < h -> c < w -> level img gm (gid r c) < 256.
Proof.
  intros Hgm r c Hr Hc. unfold level. pose proof (img_byte r c Hr Hc).
  destruct Hgm as [-> | ->]; [rewrite N.lxor_0_r|rewrite lxor_byte]; lia.
Qed.

Lemma flood_end (gr : nat -> nat) n b : gm = 0%N \/ gm = 255%N ->
  (forall r c, r < h -> c < w -> gr (gid r c) = level img gm (gid r c)) ->
  misses_level img gm cols top left w h ->
  length (b_pts b) = plen w h -> (forall x, border w h x -> b_pts b !! x = Some (5 * 2 ^ 29)%N) ->
  (forall r c, r < h -> c < w -> b_pts b !! pid r c = Some 0%N) ->
  (forall r c, r < h -> c < w -> b_ext b !! pid r c = Some (nth (gid r c) img 0%N)) ->
  (forall v, v < 256 -> b_lvl b !! v = Some (lcount (level img gm) (rect_nodes cols top left w h) v)) ->
  heapR cols top left w (base_of (b_lvl b)) (b_heap b) (b_hs b) (fun _ => []) ->
  6 * (w * h) < n ->
  exists s s' lab, cinit (cfgd ms w h gm pt) (b_ext b) b = CNext s /\
    crun (cfgd ms w h gm pt) (b_ext b) n s = CHalt s' /\
    flood_ok img gm cols top left w h pt (c_regs s')
      (FBuf (c_pts s') (b_ext b) (b_lvl b) (c_heap s') (c_hs s')) lab /\
    (forall x, border w h x -> c_pts s' !! x = Some (5 * 2 ^ 29)%N) /\
    length (c_pts s') = plen w h /\
    heapR cols top left w (base_of (b_lvl b)) (c_heap s') (c_hs s') (fun _ => []) /\
    (exists a, arun (G gr) n (ainit (G gr) (gid 0 0)) = AHalt a /\
       c_regs s' = convr pt (a_regs a) /\ lab = labof (a_px a)) /\
    (forall m t, crun (cfgd ms w h gm pt) (b_ext b) m s = CNext t ->
       (forall g, g <= 256 -> exists d, d <= cap_of (b_lvl b) g /\
          c_hs t !! g = Some (base_of (b_lvl b) g + d) /\
          c_heap t !! base_of (b_lvl b) g = Some None) /\ length (c_comps t) <= 256).
Proof.
  intros Hgm Hgr (v & Hv & Hmiss) Hpl Hbd Hz Hext Hlv HR Hn.
  pose proof HP as [Hw Hh Hfit Himg Hbyte Hsmall].
  set (L := filter (fun x => x <> v) (seq 0 256)).
  assert (forall p, p ∈ g_nodes (G gr) -> gr p = level img gm p) as Hgrn.
  { intros p Hp. apply elem_rect in Hp as (r & c & Hr & Hc & ->). auto. }
  assert (forall r c, r < h -> c < w ->
    get_gray (cfgd ms w h gm pt) (b_ext b) (pid r c) = Some (gr (gid r c))) as Hg1.
  { intros r c Hr Hc. unfold get_gray. rewrite Hext by auto. rewrite Hgr; auto. }
  assert (gray_bound (G gr)) as Hg2.
  { intros p Hp. cbn [g_gray dgraph]. rewrite Hgrn by auto.
    apply elem_rect in Hp as (r & c & Hr & Hc & ->).
    pose proof (level_lt Hgm r c Hr Hc). lia. }
  assert (length L <= 255) as Hg3.
  { assert (length L < length (seq 0 256)) as Hlt.
    { apply (filter_length_lt _ _ v). { apply elem_of_seq. lia. } intros Hne. by apply Hne. }
    rewrite seq_length in Hlt. lia. }
  assert (forall p, p ∈ g_nodes (G gr) -> gr p ∈ L) as Hg4.
  { intros p Hp. apply elem_of_list_filter. rewrite Hgrn by auto. split.
    - apply Hmiss. apply in_rect_nodes with (gray := gr); auto.
    - apply elem_rect in Hp as (r & c & Hr & Hc & ->). apply elem_of_seq.
      pose proof (level_lt Hgm r c Hr Hc). lia. }
  assert (forall g, length (filter (fun p => gr p = g) (g_nodes (G gr))) <= cap_of (b_lvl b) g) as Hg5.
  { intros g. assert (filter (fun p => gr p = g) (g_nodes (G gr)) =
      filter (fun p => level img gm p = g) (g_nodes (G gr))) as ->.
    { revert Hgrn. clear. generalize (g_nodes (G gr)). intros l Hl. induction l as [|p l IH]; auto.
      rewrite !filter_cons. rewrite (Hl p) by set_solver. rewrite IH by set_solver. done. }
    unfold cap_of. destruct (decide (g < 256)) as [Hg|Hg].
    + rewrite Hlv by auto. done.
    + assert (filter (fun p => level img gm p = g) (g_nodes (G gr)) = []) as ->.
      { destruct (filter (fun p => level img gm p = g) (g_nodes (G gr))) as [|p l] eqn:He; auto. exfalso.
        assert (p ∈ filter (fun p => level img gm p = g) (g_nodes (G gr))) as Hp by (rewrite He; set_solver).
        apply elem_of_list_filter in Hp as [Hp1 Hp2].
        apply elem_rect in Hp2 as (r & c & Hr & Hc & ->). pose proof (level_lt Hgm r c Hr Hc). lia. }
      simpl. lia. }
  assert (buf_ready ms cols top left w h gr (base_of (b_lvl b)) b) as Hready.
  { split; auto. split; [|split; auto].
    intros p Hp. apply elem_rect in Hp as (r & c & Hr & Hc & ->). rewrite phi_gid; auto. }
  destruct (flood_refined ms cols top left w h gm pt (b_ext b) gr Hw Hh Hfit Hg1 Hg2 Hsmall
    L Hg3 Hg4 (cap_of (b_lvl b)) (base_of (b_lvl b)) (base_of_S (b_lvl b)) Hg5 b n Hready Hn)
    as (s & s' & aregs & lab & H1 & H2 & (a & Ha1 & -> & ->) & H3 & H4 & H5 & H6 & H7 & H8 & H9).
  destruct (init_refine ms cols top left w h gm pt (b_ext b) gr Hw Hh Hfit Hg1 Hg2 Hsmall
    L Hg3 Hg4 (cap_of (b_lvl b)) (base_of (b_lvl b)) (base_of_S (b_lvl b)) Hg5 b Hready) as (s2 & Hs2 & HR2).
  assert (s2 = s) as -> by congruence.
  exists s, s', (labof (a_px a)). split; auto. split; auto. split.
  - destruct (tree_ctree cols top left w h gr Hfit pt (labof (a_px a)) (a_regs a) Hg2 (dgraph_tree _ _ _ _ _ _ _ _ _ H3)) as [T1 T2].
    rewrite H4. split.
    { eapply ctree_ext; [exact T1| | |]; auto. intros p Hp. apply Hgrn.
      apply in_rect_nodes with (gray := gr); auto. }
    split; auto. split. { by rewrite convr_length. } split.
    + intros i x Hx. rewrite convr_lookup in Hx. destruct (a_regs a !! i); [|done].
      injection Hx as <-. done.
    + intros y x Hy Hx. cbn [b_pts].
      change ((y + 1) * (w + 2) + (x + 1)) with (pid y x).
      rewrite <-(phi_gid cols top left w Hfit y x) by auto. apply H6.
      apply elem_rect. eauto 6.
  - split; auto. split; auto. split; auto. split; eauto. intros m t Ht.
    eapply (run_slots ms cols top left w h gm pt (b_ext b) gr Hw Hh Hfit Hg1 Hg2 Hsmall
      L Hg3 Hg4 (cap_of (b_lvl b)) (base_of (b_lvl b)) (base_of_S (b_lvl b)) Hg5); eauto.
    apply ainit_inv. apply elem_rect. exists 0, 0. auto.
Qed.
End corr.

Lemma level0 img p : level img 0 p = N.to_nat (nth p img 0%N).
Proof. unfold level. by rewrite N.lxor_0_r. Qed.

(* SPEC: number of pixels of level v in the rectangle, and the first slot of the
   boundary stack of level g: every level owns one slot per pixel and a sentinel *)
Definition pixels_at (img : list N) (gm : N) (cols top left w h v : nat) : nat :=
  length (filter (fun p => level img gm p = v) (rect_nodes cols top left w h)).
Definition first_slot (img : list N) (gm : N) (cols top left w h g : nat) : nat :=
  sum_list (map (pixels_at img gm cols top left w h) (seq 0 g)) + g.

(* SPEC: the run of the loop from prepared buffers: it ends, in every intermediate
   state each stack pointer is within the slots of its level with the sentinel
   intact and at most 256 component slots are used, and at the end every stack
   pointer is back at its first slot. *)
Definition flood_safe (n : nat) (k : fcfg) (b1 : fbuf) (count start : nat -> nat) : Prop :=
  exists s s', cinit k (b_ext b1) b1 = CNext s /\ crun k (b_ext b1) n s = CHalt s' /\
    (forall m t, crun k (b_ext b1) m s = CNext t ->
       (forall g, g < 256 -> exists d, d <= count g /\
          c_hs t !! g = Some (start g + d) /\ c_heap t !! start g = Some None) /\
       length (c_comps t) <= 256) /\
    (forall g, g <= 256 -> c_hs s' !! g = Some (start g) /\ c_heap s' !! start g = Some None).

Lemma base_first_slot img gm cols top left w h lvl g : g <= 256 ->
  (forall v, v < 256 -> lvl !! v =
     Some (lcount (level img gm) (rect_nodes cols top left w h) v)) ->
  base_of lvl g = first_slot img gm cols top left w h g.
Proof.
  intros Hg Hl. unfold base_of, first_slot. f_equal. f_equal. apply map_seq_ext.
  intros v Hv. unfold cap_of. by rewrite Hl by lia.
Qed.

Lemma safe_end ms img gm cols top left w h pt n b s s' :
  (forall v, v < 256 -> b_lvl b !! v =
     Some (lcount (level img gm) (rect_nodes cols top left w h) v)) ->
  cinit (cfgd ms w h gm pt) (b_ext b) b = CNext s ->
  crun (cfgd ms w h gm pt) (b_ext b) n s = CHalt s' ->
  heapR cols top left w (base_of (b_lvl b)) (c_heap s') (c_hs s') (fun _ => []) ->
  (forall m t, crun (cfgd ms w h gm pt) (b_ext b) m s = CNext t ->
       (forall g, g <= 256 -> exists d, d <= cap_of (b_lvl b) g /\
          c_hs t !! g = Some (base_of (b_lvl b) g + d) /\
          c_heap t !! base_of (b_lvl b) g = Some None) /\ length (c_comps t) <= 256) ->
  flood_safe n (cfgd ms w h gm pt) b (pixels_at img gm cols top left w h)
    (first_slot img gm cols top left w h).
Proof.
  intros Hl E1 E2 HR Hs. exists s, s'. split; auto. split; auto. split.
  - intros m t Ht. destruct (Hs m t Ht) as [H1 H2]. split; auto. intros g Hg.
    destruct (H1 g ltac:(lia)) as (d & Hd & K1 & K2). exists d.
    unfold cap_of in Hd. rewrite Hl in Hd by auto.
    erewrite <-base_first_slot; eauto. lia.
  - intros g Hg. destruct HR as (_ & _ & K). destruct (K g Hg) as (K1 & K2 & _).
    erewrite <-base_first_slot; eauto. rewrite Nat.add_0_r in K1. auto.
Qed.

(* first (dark) pass, on any buffers of the right sizes *)
Lemma dark_pass_d ms img cols top left w h pt b n (gr : nat -> nat) :
  (forall p, in_rect cols top left w h p -> gr p = level img 0 p) ->
  patch_fits img cols top left w h -> misses_level img 0 cols top left w h ->
  buf_alloc w h b -> 6 * (w * h) < n ->
  exists b1 regs b' lab,
    process_tree_patch (cfgd ms w h 0 pt) true img cols (top * cols + left) b = Some b1 /\
    make_tree_patch n (cfgd ms w h 0 pt) true img cols (top * cols + left) b = FTree regs b' /\
    flood_ok img 0 cols top left w h pt regs b' lab /\
    (exists a, arun (dgraph ms cols top left w h gr) n
       (ainit (dgraph ms cols top left w h gr) (gid cols top left 0 0)) = AHalt a /\
       regs = convr pt (a_regs a) /\ lab = labof (a_px a)) /\
    flood_safe n (cfgd ms w h 0 pt) b1 (pixels_at img 0 cols top left w h)
      (first_slot img 0 cols top left w h) /\
    buf_between cols top left w h (fun p => nth p img 0%N) b'.
Proof.
  intros Hgr HP Hm Hb Hn. pose proof HP as [Hw Hh Hfit Himg Hbyte Hsmall]. unfold make_tree_patch.
  destruct (process_fresh_ok ms cols top left w h pt img (fun p => nth p img 0%N) Hw Hh Hfit
    (img_at img cols top left w h HP) (img_byte img cols top left w h HP) b Hb) as (b1 & E & B1 & Hz & HR).
  replace (gid cols top left 0 0) with (top * cols + left) in E by (unfold gid; lia). rewrite E.
  destruct B1.
  assert (forall v, v < 256 -> b_lvl b1 !! v =
    Some (lcount (level img 0) (rect_nodes cols top left w h) v)) as Hlv.
  { intros v Hv. rewrite bb_lv by lia. f_equal. unfold lcount. f_equal. apply list_filter_iff.
    intros p. by rewrite level0. }
  destruct (flood_end ms img 0 cols top left w h pt HP gr n b1) as (s & s' & lab & Ei & Er & Hok & K1 & K2 & K3 & K5 & K4); auto.
  { intros r c Hr Hc. apply Hgr. apply in_rect_nodes with (gray := gr); auto. apply elem_rect. eauto 6. }
  exists b1, (c_regs s'), (FBuf (c_pts s') (b_ext b1) (b_lvl b1) (c_heap s') (c_hs s')), lab.
  split; auto. rewrite Ei, Er. split; auto. split; auto. split; auto. split. { eapply safe_end; eauto. }
  destruct K3 as (L1 & L2 & L3).
  constructor; cbn [b_pts b_ext b_lvl b_heap b_hs]; auto.
  - destruct (L3 0 ltac:(lia)) as [-> _]. done.
  - destruct HR as (_ & M2 & _). congruence.
Qed.

(* second (bright) pass, on the buffers left by the first *)
Lemma bright_pass_d ms img cols top left w h pt b n (gr : nat -> nat) :
  (forall p, in_rect cols top left w h p -> gr p = level img 255 p) ->
  patch_fits img cols top left w h -> misses_level img 255 cols top left w h ->
  buf_between cols top left w h (fun p => nth p img 0%N) b -> 6 * (w * h) < n ->
  exists b1 regs b' lab,
    process_tree_patch (cfgd ms w h 255 pt) false img cols (top * cols + left) b = Some b1 /\
    make_tree_patch n (cfgd ms w h 255 pt) false img cols (top * cols + left) b = FTree regs b' /\
    flood_ok img 255 cols top left w h pt regs b' lab /\
    (exists a, arun (dgraph ms cols top left w h gr) n
       (ainit (dgraph ms cols top left w h gr) (gid cols top left 0 0)) = AHalt a /\
       regs = convr pt (a_regs a) /\ lab = labof (a_px a)) /\
    flood_safe n (cfgd ms w h 255 pt) b1 (pixels_at img 255 cols top left w h)
      (first_slot img 255 cols top left w h).
Proof.
  intros Hgr HP Hm Hb Hn. pose proof HP as [Hw Hh Hfit Himg Hbyte Hsmall]. unfold make_tree_patch.
  destruct (process_reuse_ok ms cols top left w h pt img (fun p => nth p img 0%N) Hw Hh Hfit
    (img_at img cols top left w h HP) (img_byte img cols top left w h HP) b Hb)
    as (b1 & E & Hl & Hbd & Hex & Hlv & Hz & HR).
  replace (gid cols top left 0 0) with (top * cols + left) in E by (unfold gid; lia). rewrite E.
  assert (forall v, v < 256 -> b_lvl b1 !! v =
    Some (lcount (level img 255) (rect_nodes cols top left w h) v)) as Hlv'.
  { intros v Hv. rewrite Hlv by lia. f_equal. unfold lcount. f_equal.
    assert (forall p, p ∈ rect_nodes cols top left w h ->
      level img 255 p = 255 - N.to_nat (nth p img 0%N)) as He.
    { intros p Hp. apply elem_rect in Hp as (r & c & Hr & Hc & ->). unfold level.
      apply lxor_byte. by apply (img_byte img cols top left w h HP). }
    revert He. generalize (rect_nodes cols top left w h). intros l He.
    induction l as [|p l IH]; auto. rewrite !filter_cons. rewrite (He p) by set_solver.
    destruct (decide _); [f_equal|]; apply IH; set_solver. }
  destruct (flood_end ms img 255 cols top left w h pt HP gr n b1) as (s & s' & lab & Ei & Er & Hok & K1 & K2 & K3 & K5 & K4); auto.
  { intros r c Hr Hc. apply Hgr. apply in_rect_nodes with (gray := gr); auto. apply elem_rect. eauto 6. }
  { rewrite Hex. apply Hb. }
  exists b1, (c_regs s'), (FBuf (c_pts s') (b_ext b1) (b_lvl b1) (c_heap s') (c_hs s')), lab.
  split; auto. rewrite Ei, Er. split; auto. split; auto. split; auto. eapply safe_end; eauto.
Qed.

(* the order of the directions of V2 *)
Lemma dark_pass img cols top left w h pt b n (gr : nat -> nat) :
  (forall p, in_rect cols top left w h p -> gr p = level img 0 p) ->
  patch_fits img cols top left w h -> misses_level img 0 cols top left w h ->
  buf_alloc w h b -> 6 * (w * h) < n ->
  exists b1 regs b' lab,
    process_tree_patch (cfg4 w h 0 pt) true img cols (top * cols + left) b = Some b1 /\
    make_tree_patch n (cfg4 w h 0 pt) true img cols (top * cols + left) b = FTree regs b' /\
    flood_ok img 0 cols top left w h pt regs b' lab /\
    (exists a, arun (rect_graph cols top left w h gr) n
       (ainit (rect_graph cols top left w h gr) (gid cols top left 0 0)) = AHalt a /\
       regs = convr pt (a_regs a) /\ lab = labof (a_px a)) /\
    flood_safe n (cfg4 w h 0 pt) b1 (pixels_at img 0 cols top left w h)
      (first_slot img 0 cols top left w h) /\
    buf_between cols top left w h (fun p => nth p img 0%N) b'.
Proof. exact (dark_pass_d false img cols top left w h pt b n gr). Qed.

Lemma bright_pass img cols top left w h pt b n (gr : nat -> nat) :
  (forall p, in_rect cols top left w h p -> gr p = level img 255 p) ->
  patch_fits img cols top left w h -> misses_level img 255 cols top left w h ->
  buf_between cols top left w h (fun p => nth p img 0%N) b -> 6 * (w * h) < n ->
  exists b1 regs b' lab,
    process_tree_patch (cfg4 w h 255 pt) false img cols (top * cols + left) b = Some b1 /\
    make_tree_patch n (cfg4 w h 255 pt) false img cols (top * cols + left) b = FTree regs b' /\
    flood_ok img 255 cols top left w h pt regs b' lab /\
    (exists a, arun (rect_graph cols top left w h gr) n
       (ainit (rect_graph cols top left w h gr) (gid cols top left 0 0)) = AHalt a /\
       regs = convr pt (a_regs a) /\ lab = labof (a_px a)) /\
    flood_safe n (cfg4 w h 255 pt) b1 (pixels_at img 255 cols top left w h)
      (first_slot img 255 cols top left w h).
Proof. exact (bright_pass_d false img cols top left w h pt b n gr). Qed.

(* ---------- the bright pass is the dark pass of the inverted image ---------- *)

(* SPEC: the inverted image *)
Definition invert (img : list N) : list N := map (fun v => (255 - v)%N) img.

Lemma level_invert img p v : img !! p = Some v -> (v < 256)%N ->
  level img 255 p = level (invert img) 0 p.
Proof.
  intros Hp Hv. unfold level. rewrite N.lxor_0_r, (nth_lookup_Some _ _ _ _ Hp), lxor_byte by auto.
  assert (invert img !! p = Some (255 - v)%N) as Hi. { unfold invert. by rewrite list_lookup_fmap, Hp. }
  rewrite (nth_lookup_Some _ _ _ _ Hi). lia.
Qed.

Lemma patch_fits_invert img cols top left w h :
  patch_fits img cols top left w h -> patch_fits (invert img) cols top left w h.
Proof.
  intros []. constructor; auto.
  - unfold invert. by rewrite map_length.
  - intros i v Hv. unfold invert in Hv. rewrite list_lookup_fmap in Hv.
    destruct (img !! i) as [u|]; [|done]. apply (inj Some) in Hv. subst v. apply N.lt_succ_r with (m := 255%N), N.le_sub_l.
Qed.

Lemma in_rect_img img cols top left w h p : patch_fits img cols top left w h ->
  in_rect cols top left w h p -> exists v, img !! p = Some v /\ (v < 256)%N.
Proof.
  intros HP Hp. pose proof HP as []. apply (in_rect_nodes cols top left w h (fun _ => 0)) in Hp; auto.
  apply elem_rect in Hp as (r & c & Hr & Hc & ->). eexists. split.
  - by apply (img_at img cols top left w h HP).
  - by apply (img_byte img cols top left w h HP).
Qed.

Lemma bright_is_inverted_dark img cols top left w h pt b b0 n :
  patch_fits img cols top left w h -> misses_level img 255 cols top left w h ->
  buf_between cols top left w h (fun p => nth p img 0%N) b ->
  buf_alloc w h b0 -> 6 * (w * h) < n ->
  exists regs b1 b2,
    make_tree_patch n (cfg4 w h 255 pt) false img cols (top * cols + left) b = FTree regs b1 /\
    make_tree_patch n (cfg4 w h 0 pt) true (invert img) cols (top * cols + left) b0 = FTree regs b2 /\
    forall y x, y < h -> x < w ->
      b_pts b1 !! ((y + 1) * (w + 2) + (x + 1)) = b_pts b2 !! ((y + 1) * (w + 2) + (x + 1)).
Proof.
  intros HP Hm Hb Hb0 Hn.
  assert (forall p, in_rect cols top left w h p -> level img 255 p = level (invert img) 0 p) as Heq.
  { intros p Hp. destruct (in_rect_img _ _ _ _ _ _ _ HP Hp) as (v & H1 & H2). by eapply level_invert. }
  destruct (bright_pass img cols top left w h pt b n (level img 255))
    as (_ & regs & b1 & lab & _ & E1 & (_ & _ & _ & _ & W1) & (a & A1 & A2 & A3) & _); auto.
  destruct (dark_pass (invert img) cols top left w h pt b0 n (level img 255))
    as (_ & regs' & b2 & lab' & _ & E2 & (_ & _ & _ & _ & W2) & (a' & A1' & A2' & A3') & _); auto.
  { by apply patch_fits_invert. }
  { destruct Hm as (v & Hv & Hm). exists v. split; auto. intros p Hp. rewrite <-Heq by auto. auto. }
  assert (a' = a) as -> by congruence. subst.
  exists (convr pt (a_regs a)), b1, b2. split; auto. split; auto. intros y x Hy Hx.
  by rewrite W1, W2.
Qed.

Lemma misses_invert img cols top left w h : patch_fits img cols top left w h ->
  misses_level img 0 cols top left w h -> misses_level img 255 cols top left w h.
Proof.
  intros HP (v & Hv & Hm). exists (255 - v). split; [lia|]. intros p Hp He. apply (Hm p Hp).
  destruct (in_rect_img _ _ _ _ _ _ _ HP Hp) as (u & H1 & H2).
  unfold level in *. rewrite (nth_lookup_Some _ _ _ _ H1) in *.
  rewrite N.lxor_0_r. rewrite lxor_byte in He by auto. lia.
Qed.

(* both passes of a call, in sequence *)
Lemma two_passes img cols top left w h pt b n :
  patch_fits img cols top left w h -> misses_level img 0 cols top left w h ->
  buf_alloc w h b -> 6 * (w * h) < n ->
  exists regs b' lab regs2 b2 lab2,
    make_tree_patch n (cfg4 w h 0 pt) true img cols (top * cols + left) b = FTree regs b' /\
    flood_ok img 0 cols top left w h pt regs b' lab /\
    make_tree_patch n (cfg4 w h 255 pt) false img cols (top * cols + left) b' = FTree regs2 b2 /\
    flood_ok img 255 cols top left w h pt regs2 b2 lab2.
Proof.
  intros HP Hm Hb Hn.
  destruct (dark_pass img cols top left w h pt b n (level img 0))
    as (_ & regs & b' & lab & _ & E1 & F1 & _ & _ & Hbt); auto.
  destruct (bright_pass img cols top left w h pt b' n (level img 255))
    as (_ & regs2 & b2 & lab2 & _ & E2 & F2 & _); auto.
  { by apply misses_invert. }
  exists regs, b', lab, regs2, b2, lab2. auto.
Qed.

Lemma two_passes_safe img cols top left w h pt b n :
  patch_fits img cols top left w h -> misses_level img 0 cols top left w h ->
  buf_alloc w h b -> 6 * (w * h) < n ->
  exists b1 regs b' b2,
    process_tree_patch (cfg4 w h 0 pt) true img cols (top * cols + left) b = Some b1 /\
    flood_safe n (cfg4 w h 0 pt) b1 (pixels_at img 0 cols top left w h)
      (first_slot img 0 cols top left w h) /\
    make_tree_patch n (cfg4 w h 0 pt) true img cols (top * cols + left) b = FTree regs b' /\
    process_tree_patch (cfg4 w h 255 pt) false img cols (top * cols + left) b' = Some b2 /\
    flood_safe n (cfg4 w h 255 pt) b2 (pixels_at img 255 cols top left w h)
      (first_slot img 255 cols top left w h).
Proof.
  intros HP Hm Hb Hn.
  destruct (dark_pass img cols top left w h pt b n (level img 0))
    as (b1 & regs & b' & lab & P1 & E1 & F1 & _ & S1 & Hbt); auto.
  destruct (bright_pass img cols top left w h pt b' n (level img 255))
    as (b2 & regs2 & b3 & lab2 & P2 & E2 & F2 & _ & S2); auto.
  { by apply misses_invert. }
  exists b1, regs, b', b2. auto.
Qed.

Lemma bright_after_dark img cols top left w h pt b b0 n :
  patch_fits img cols top left w h -> misses_level img 0 cols top left w h ->
  buf_alloc w h b -> buf_alloc w h b0 -> 6 * (w * h) < n ->
  exists regs b' regs2 b1 b2,
    make_tree_patch n (cfg4 w h 0 pt) true img cols (top * cols + left) b = FTree regs b' /\
    make_tree_patch n (cfg4 w h 255 pt) false img cols (top * cols + left) b' = FTree regs2 b1 /\
    make_tree_patch n (cfg4 w h 0 pt) true (invert img) cols (top * cols + left) b0 = FTree regs2 b2 /\
    forall y x, y < h -> x < w ->
      b_pts b1 !! ((y + 1) * (w + 2) + (x + 1)) = b_pts b2 !! ((y + 1) * (w + 2) + (x + 1)).
Proof.
  intros HP Hm Hb Hb0 Hn.
  destruct (dark_pass img cols top left w h pt b n (level img 0))
    as (_ & regs & b' & lab & _ & E1 & F1 & _ & _ & Hbt); auto.
  destruct (bright_is_inverted_dark img cols top left w h pt b' b0 n)
    as (regs2 & b1 & b2 & E2 & E3 & W); auto.
  { by apply misses_invert. }
  exists regs, b', regs2, b1, b2. auto.
Qed.

(* ---------- monotonicity of the step budget ---------- *)
Lemma crun_ub k ext n m s : crun k ext n s = CUB -> n <= m -> crun k ext m s = CUB.
Proof.
  revert m s. induction n as [|n IH]; intros m s H Hm; [done|]. destruct m as [|m]; [lia|].
  simpl in *. destruct (cstep k ext s); auto. apply IH; auto. lia.
Qed.
Lemma make_tree_ub n m k fresh img step first b : make_tree_patch n k fresh img step first b = FUB ->
  n <= m -> make_tree_patch m k fresh img step first b = FUB.
Proof.
  unfold make_tree_patch. intros H Hm. destruct (process_tree_patch _ _ _ _ _ _); auto.
  destruct (cinit _ _ _); auto. destruct (crun k (b_ext f) n s) eqn:E; [done|done|].
  by rewrite (crun_ub _ _ _ _ _ E Hm).
Qed.

(* ---------- pixel words ---------- *)
Lemma word_decode (s : N) (d : nat) (idx : N) : (0 < d)%nat -> (N.of_nat d < 2 ^ (32 - s))%N -> (s <= 32)%N ->
  (idx < 2 ^ s)%N ->
  let x := N.lor (u32 (N.shiftl (N.of_nat d) s)) idx in
  N.shiftr x s = N.of_nat d /\ N.land x (N.shiftl (2 ^ (32 - s) - 1) s) <> 0%N /\
  u32 (x + 2 ^ 32 - u32 (N.shiftl (N.of_nat d) s)) = idx.
Proof.
  intros Hd Hlt Hs Hi.
  assert (2 ^ 32 = 2 ^ (32 - s) * 2 ^ s)%N as Hp. { rewrite <-N.pow_add_r. by replace (32 - s + s)%N with 32%N by lia. }
  assert (0 < 2 ^ s)%N as Hpos by (apply N.neq_0_lt_0, N.pow_nonzero; lia).
  assert (u32 (N.shiftl (N.of_nat d) s) = N.of_nat d * 2 ^ s)%N as ->.
  { unfold u32. rewrite N.shiftl_mul_pow2. apply N.mod_small. rewrite Hp. nia. }
  rewrite lor_disjoint by auto. cbv zeta. split; [|split].
  - rewrite N.shiftr_div_pow2, N.div_add_l by lia. rewrite N.div_small by auto. apply N.add_0_r.
  - rewrite <-lor_disjoint, N.land_lor_distr_l by auto. rewrite <-N.shiftl_mul_pow2, <-N.shiftl_land.
    rewrite (N.land_comm idx), land_disjoint, N.lor_0_r by auto. intros H.
    apply N.shiftl_eq_0_iff in H. rewrite <-N.pred_sub, <-N.ones_equiv in H.
    rewrite N.land_ones, N.mod_small in H by auto. lia.
  - unfold u32.
    replace (N.of_nat d * 2 ^ s + idx + 2 ^ 32 - N.of_nat d * 2 ^ s)%N with (idx + 1 * 2 ^ 32)%N by lia.
    rewrite N.mod_add by lia. apply N.mod_small. rewrite Hp. nia.
Qed.
