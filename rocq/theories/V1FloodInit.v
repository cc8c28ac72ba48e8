(* process_tree_patch of Fast MSER V1 leaves the buffers as the flooding loop expects,
   in the first pass and in the bright pass after a dark one; make_tree_patch ends. *)
From stdpp Require Import sorting relations functions list.
From Coq Require Import NArith ZArith Btauto.
From Verif Require Import Spec FloodAbs FloodAbsInv FloodAbsProof Grid FloodModel FloodInit FloodRefine
  LinkedModel LinkedHeap LinkedRefine LinkedInit V1JoinModel V1Model V1FloodLists V1FloodRefine.
Local Open Scope nat_scope.

(* SPEC: a table of n entries that exists iff [has] *)
Definition side_alloc (has : bool) (n : nat) (t : option (list (option rref))) : Prop :=
  match t with None => has = false | Some l => has = true /\ length l = n end.

(* SPEC: the slices of a partition have the right sizes, and the tables exist that
   are asked for; their contents are arbitrary *)
Record vbuf_ok (w h : nat) (hl hr ht hb : bool) (b : vbuf) : Prop := {
  vbo_img : length (vb_img b) = (w + 2) * (h + 2);
  vbo_heap : length (vb_heap b) = w * h + 257;
  vbo_hs : length (vb_hs b) = 257;
  vbo_hs0 : vb_hs b !! 0 = Some 0;
  vbo_pts : w * h <= length (vb_pts b);
  vbo_l : side_alloc hl h (tb_l (vb_tab b));
  vbo_r : side_alloc hr h (tb_r (vb_tab b));
  vbo_t : side_alloc ht w (tb_t (vb_tab b));
  vbo_b : side_alloc hb w (tb_b (vb_tab b))
}.

Lemma mask_sbit has n t : side_alloc has n t -> seam_mask t = sbit has.
Proof. destruct t as [l|]; cbn; [intros [-> _]|intros ->]; done. Qed.

Definition init_checks (s : bool) (g : nat) : bool :=
  (N.lor (N.of_nat g) (sbit s) =? vun s g)%N &&
  (N.lor (N.land (0xff + 2 ^ 16 - venc s 4 g) 0x00ff) (N.land (venc s 4 g) 0x4000) =? vun s (255 - g))%N.
Lemma init_words s g : g < 256 ->
  N.lor (N.of_nat g) (sbit s) = vun s g /\
  N.lor (N.land (0xff + 2 ^ 16 - venc s 4 g) 0x00ff) (N.land (venc s 4 g) 0x4000) = vun s (255 - g).
Proof.
  intros Hg. rewrite <-!N.eqb_eq, <-andb_true_iff. fold (init_checks s g).
  assert (Forall (fun s => Forall (fun g => init_checks s g = true) (seq 0 256)) [true; false]) as H.
  { apply (bool_decide_unpack _). vm_compute. done. }
  rewrite Forall_forall in H. specialize (H s ltac:(destruct s; rewrite !elem_of_cons; auto)).
  rewrite Forall_forall in H. apply H. apply elem_of_seq. lia.
Qed.
Lemma sbit_or a b : N.lor (sbit a) (sbit b) = sbit (a || b).
Proof. by destruct a, b. Qed.

Section vi.
Context (cols top left w h : nat) (gm : N) (src : list N) (lv : nat -> nat).
Context (Hw : 0 < w) (Hh : 0 < h) (Hfit : left + w <= cols).
Context (hl hr ht hb : bool).
Notation gid := (gid cols top left).
Notation pid := (pid w).
Notation plen := (plen w h).
Notation border := (border w h).
Notation nodes := (rect_nodes cols top left w h).
Notation seamrc := (seamrc w h hl hr ht hb).
Notation seam := (seam cols top left w h hl hr ht hb).
Notation phi := (phi cols top left w).
Context (Hsrc : forall r c, r < h -> c < w -> exists v, src !! gid r c = Some v /\
  (if (gm =? 0)%N then v else (0xff - v)%N) = N.of_nat (lv (gid r c)) /\ lv (gid r c) < 256).

Definition vwant (x : nat) : N :=
  if linner w h x then
    vun (seamrc (x / (w + 2) - 1) (x mod (w + 2) - 1)) (lv (gid (x / (w + 2) - 1) (x mod (w + 2) - 1)))
  else 0xffff%N.
Lemma vdm r c : c < w + 2 -> (r * (w + 2) + c) / (w + 2) = r /\ (r * (w + 2) + c) mod (w + 2) = c.
Proof. intros Hc. by apply ldm. Qed.
Lemma vwant_pid r c : r < h -> c < w -> vwant (pid r c) = vun (seamrc r c) (lv (gid r c)).
Proof.
  clear. intros Hr Hc. unfold vwant, linner, FloodRefine.pid. destruct (vdm (r + 1) (c + 1)) as [-> ->]; [lia|].
  destruct (Nat.leb_spec 1 (r + 1)), (Nat.leb_spec (r + 1) h), (Nat.leb_spec 1 (c + 1)),
    (Nat.leb_spec (c + 1) w); try lia. cbn [andb]. by rewrite !Nat.add_sub.
Qed.
Lemma vwant_row r c : r = 0 \/ r = h + 1 -> c < w + 2 -> vwant (r * (w + 2) + c) = 0xffff%N.
Proof.
  clear. intros Hr Hc. unfold vwant, linner. destruct (vdm r c Hc) as [-> ->].
  destruct (Nat.leb_spec 1 r), (Nat.leb_spec r h); try lia; done.
Qed.
Lemma vwant_col r c : c = 0 \/ c = w + 1 -> vwant (r * (w + 2) + c) = 0xffff%N.
Proof.
  clear. intros Hc. unfold vwant, linner. destruct (vdm r c) as [-> ->]; [lia|].
  destruct (Nat.leb_spec 1 c), (Nat.leb_spec c w); try lia; by rewrite ?andb_false_r.
Qed.
Lemma vwant_border x : border x -> vwant x = 0xffff%N.
Proof.
  clear. intros [Hx Hb]. unfold vwant. destruct (linner w h x) eqn:Hi; auto. exfalso. unfold linner in Hi.
  apply andb_prop in Hi as [Hi H4]. apply andb_prop in Hi as [Hi H3]. apply andb_prop in Hi as [H1 H2].
  apply Nat.leb_le in H1, H2, H3, H4.
  apply (Hb (x / (w + 2) - 1) (x mod (w + 2) - 1)); [lia|lia|].
  unfold FloodRefine.pid. pose proof (Nat.div_mod x (w + 2) ltac:(lia)) as Hd.
  replace (x / (w + 2) - 1 + 1) with (x / (w + 2)) by lia. lia.
Qed.

Record VI (ip sp : nat) (dn : list nat) (s : lini) : Prop := {
  vo_ip : li_ip s = ip; vo_sp : li_sp s = sp;
  vo_len : length (li_img s) = plen;
  vo_img : forall x, x < ip -> li_img s !! x = Some (vwant x);
  vo_ll : length (li_lvl s) = 257;
  vo_lv : forall v, v < 257 -> li_lvl s !! v = Some (lcount lv dn v)
}.

Lemma vborder_ok ip sp dn s : VI ip sp dn s -> ip < plen -> vwant ip = 0xffff%N ->
  exists s', put_border s = Some s' /\ VI (S ip) sp dn s'.
Proof.
  intros [? ? Hl Hi ? ?] Hlt Hwant. unfold put_border. rewrite store_ok by lia. eexists. split; [done|].
  constructor; cbn [li_img li_ip li_lvl li_sp]; auto.
  - by rewrite insert_length.
  - intros x Hx. subst ip. destruct (decide (x = li_ip s)) as [->|].
    + rewrite list_lookup_insert by lia. by rewrite Hwant.
    + rewrite list_lookup_insert_ne by auto. apply Hi. lia.
Qed.

Lemma vput_ok r c m dn s : r < h -> c < w -> m = sbit (seamrc r c) -> VI (pid r c) (gid r c) dn s ->
  exists s', vput gm src m s = Some s' /\ VI (pid r (S c)) (gid r (S c)) (dn ++ [gid r c]) s'.
Proof.
  intros Hr Hc -> [Hip Hsp Hl Hi Hll Hlv]. unfold vput.
  destruct (Hsrc r c Hr Hc) as (v & Hv & Hval & Hlt). rewrite Hsp, Hv. cbv zeta. rewrite Hval, Nat2N.id.
  rewrite Hlv by lia. destruct (init_words (seamrc r c) (lv (gid r c)) Hlt) as [-> _].
  assert (pid r c < plen). { unfold FloodRefine.pid, FloodRefine.plen. nia. }
  rewrite store_ok by lia. eexists. split; [done|].
  assert (pid r (S c) = S (pid r c)) as Hsucc. { unfold FloodRefine.pid. lia. }
  constructor; cbn [li_img li_ip li_lvl li_sp]; rewrite ?insert_length; auto; try lia.
  - unfold Grid.gid. lia.
  - intros x Hx. destruct (decide (x = pid r c)) as [->|].
    + rewrite Hip, list_lookup_insert by lia. by rewrite vwant_pid.
    + rewrite list_lookup_insert_ne by lia. apply Hi. lia.
  - intros u Hu. rewrite lcount_app. unfold lcount at 3. rewrite filter_cons, filter_nil.
    destruct (decide (lv (gid r c) = u)) as [<-|Hne].
    + rewrite list_lookup_insert by lia. f_equal. simpl. lia.
    + rewrite list_lookup_insert_ne by auto. rewrite Hlv by auto. f_equal. simpl. lia.
Qed.

Definition vrows (n : nat) : list nat := rect_nodes cols top left w n.
Lemma vrows_S n : vrows (S n) = vrows n ++ map (fun c => gid n c) (seq 0 w).
Proof.
  clear. unfold vrows, rect_nodes. rewrite seq_S, flat_map_app. cbn [flat_map]. by rewrite app_nil_r, Nat.add_0_l.
Qed.

Lemma vrow_ok r lm mm rm s : r < h ->
  lm = sbit (seamrc r 0) -> (forall c, 0 < c -> S c < w -> mm = sbit (seamrc r c)) ->
  (1 < w -> rm = sbit (seamrc r (w - 1))) ->
  VI ((r + 1) * (w + 2)) (gid r 0) (vrows r) s ->
  exists s', vrow (lcfg4 w h) gm src cols lm mm rm s = Some s' /\
    VI ((S r + 1) * (w + 2)) (gid (S r) 0) (vrows (S r)) s'.
Proof.
  intros Hr Hlm Hmm Hrm HI. unfold vrow. cbn [l_w lcfg4].
  assert (forall c, c < w + 2 -> (r + 1) * (w + 2) + c < plen) as Hb.
  { intros c Hc. unfold FloodRefine.plen. nia. }
  destruct (vborder_ok _ _ _ _ HI) as (s1 & -> & HI1).
  { rewrite <-Nat.add_0_r at 1. apply Hb. lia. }
  { rewrite <-(Nat.add_0_r ((r + 1) * (w + 2))). apply vwant_col. auto. }
  set (IR := fun i s => VI (pid r i) (gid r i) (vrows r ++ map (fun c => gid r c) (seq 0 i)) s).
  assert (forall i m s, i < w -> m = sbit (seamrc r i) -> IR i s ->
    exists s', vput gm src m s = Some s' /\ IR (S i) s') as Hput.
  { intros i m s' Hi Hm HI'. destruct (vput_ok r i m _ s' Hr Hi Hm HI') as (s'' & -> & HI'').
    eexists. split; [done|]. unfold IR. rewrite seq_S, map_app. cbn [map]. by rewrite Nat.add_0_l, app_assoc. }
  assert (IR 0 s1) as HI0.
  { unfold IR. cbn [seq map]. rewrite app_nil_r.
    replace (pid r 0) with (S ((r + 1) * (w + 2))) by (unfold FloodRefine.pid; lia). done. }
  destruct (Hput 0 lm s1 Hw Hlm HI0) as (s2 & -> & HI2).
  destruct (for_n_inv (fun i s => IR (S i) s) (w - 2) (vput gm src mm) s2 HI2) as (s3 & -> & HI3).
  { intros i s' Hi HI'. apply Hput; auto; [lia|]. apply Hmm; lia. }
  assert (exists s4, (if 1 <? w then vput gm src rm s3 else Some s3) = Some s4 /\ IR w s4) as (s4 & -> & HI4).
  { destruct (Nat.ltb_spec 1 w) as [H1|H1].
    - replace (S (w - 2)) with (w - 1) in HI3 by lia.
      destruct (Hput (w - 1) rm s3 ltac:(lia) (Hrm H1) HI3) as (s4 & E & HI4). exists s4. split; auto.
      by replace (S (w - 1)) with w in HI4 by lia.
    - exists s3. split; auto. by replace (S (w - 2)) with w in HI3 by lia. }
  unfold IR in HI4.
  replace (pid r w) with ((r + 1) * (w + 2) + (w + 1)) in HI4 by (unfold FloodRefine.pid; lia).
  destruct (vborder_ok _ _ _ _ HI4) as (s5 & -> & HI5).
  { apply Hb. lia. }
  { apply vwant_col. auto. }
  eexists. split; [done|]. rewrite vrows_S. destruct HI5.
  constructor; cbn [li_img li_ip li_lvl li_sp]; auto.
  - lia.
  - rewrite vo_sp0. unfold Grid.gid. lia.
  - intros x Hx. apply vo_img0. lia.
Qed.

Lemma lv_lt p : p ∈ nodes -> lv p < 256.
Proof. intros Hp. apply elem_rect in Hp as (r & c & Hr & Hc & ->). by destruct (Hsrc r c Hr Hc) as (? & _ & _ & ?). Qed.

Lemma vfresh_ok b : vbuf_ok w h hl hr ht hb b ->
  exists img lvl, vfresh (lcfg4 w h) gm src cols (gid 0 0) b = Some (img, lvl) /\
    length img = plen /\ (forall x, x < plen -> img !! x = Some (vwant x)) /\
    length lvl = 257 /\ (forall v, v < 257 -> lvl !! v = Some (lcount lv nodes v)).
Proof.
  intros [B1 B2 B3 B4 B5 B6 B7 B8 B9]. unfold vfresh. cbn [l_w l_h lcfg4].
  rewrite (mask_sbit _ _ _ B6), (mask_sbit _ _ _ B7), (mask_sbit _ _ _ B8), (mask_sbit _ _ _ B9).
  set (wm := if w =? 1 then sbit hr else 0%N). set (hm := if h =? 1 then sbit hb else 0%N).
  assert (wm = sbit (hr && (w =? 1))) as ->. { unfold wm. by destruct (w =? 1), hr. }
  assert (hm = sbit (hb && (h =? 1))) as ->. { unfold hm. by destruct (h =? 1), hb. }
  rewrite !sbit_or.
  assert (VI 0 (gid 0 0) [] (LIni (vb_img b) 0 (replicate 257 0) (gid 0 0))) as HI0.
  { constructor; cbn [li_img li_ip li_lvl li_sp]; auto; try lia. intros v Hv. by rewrite lookup_replicate_2. }
  destruct (for_n_inv (fun i s => VI i (gid 0 0) [] s) (w + 2) put_border _ HI0) as (s1 & -> & HI1).
  { intros i s Hi HI. apply vborder_ok; auto.
    - unfold FloodRefine.plen. nia.
    - apply (vwant_row 0 i); auto. }
  set (IR := fun i s => VI ((i + 1) * (w + 2)) (gid i 0) (vrows i) s).
  assert (IR 0 s1) as HR1. { unfold IR. replace ((0 + 1) * (w + 2)) with (w + 2) by lia. done. }
  assert (forall a b : bool, a = b -> sbit a = sbit b) as Hsb by (by intros ? ? ->).
  destruct (vrow_ok 0 (sbit (hl || ht || hr && (w =? 1) || hb && (h =? 1))) (sbit (ht || hb && (h =? 1)))
    (sbit (hr || (ht || hb && (h =? 1)))) s1 Hh) as (s2 & -> & HR2); auto.
  { apply Hsb. unfold V1FloodRefine.seamrc. rewrite (Nat.eqb_sym w 1), (Nat.eqb_sym h 1).
    change (0 =? 0) with true. rewrite !andb_true_r. destruct hl, hr, ht, hb; cbn; btauto. }
  { intros c Hc0 Hc1. apply Hsb. unfold V1FloodRefine.seamrc. rewrite (Nat.eqb_sym h 1).
    change (0 =? 0) with true. replace (c =? 0) with false by (symmetry; apply Nat.eqb_neq; lia).
    replace (S c =? w) with false by (symmetry; apply Nat.eqb_neq; lia). destruct hl, hr, ht, hb; cbn; btauto. }
  { intros Hw1. apply Hsb. unfold V1FloodRefine.seamrc. rewrite (Nat.eqb_sym h 1).
    change (0 =? 0) with true. replace (w - 1 =? 0) with false by (symmetry; apply Nat.eqb_neq; lia).
    replace (S (w - 1) =? w) with true by (symmetry; apply Nat.eqb_eq; lia). destruct hl, hr, ht, hb; cbn; btauto. }
  fold (IR 1 s2) in HR2.
  destruct (for_n_inv (fun i s => IR (S i) s) (h - 2)
    (vrow (lcfg4 w h) gm src cols (sbit (hl || hr && (w =? 1))) 0 (sbit hr)) s2 HR2) as (s3 & -> & HR3).
  { intros i s Hi HI. apply vrow_ok; auto; [lia| | |].
    - apply Hsb. unfold V1FloodRefine.seamrc. rewrite (Nat.eqb_sym w 1).
      change (0 =? 0) with true. replace (S i =? 0) with false by done.
      replace (S (S i) =? h) with false by (symmetry; apply Nat.eqb_neq; lia). destruct hl, hr, ht, hb; cbn; btauto.
    - intros c Hc0 Hc1. change 0%N with (sbit false). apply Hsb. unfold V1FloodRefine.seamrc.
      replace (c =? 0) with false by (symmetry; apply Nat.eqb_neq; lia).
      replace (S c =? w) with false by (symmetry; apply Nat.eqb_neq; lia). replace (S i =? 0) with false by done.
      replace (S (S i) =? h) with false by (symmetry; apply Nat.eqb_neq; lia). destruct hl, hr, ht, hb; cbn; btauto.
    - intros Hw1. apply Hsb. unfold V1FloodRefine.seamrc.
      replace (w - 1 =? 0) with false by (symmetry; apply Nat.eqb_neq; lia).
      replace (S (w - 1) =? w) with true by (symmetry; apply Nat.eqb_eq; lia). replace (S i =? 0) with false by done.
      replace (S (S i) =? h) with false by (symmetry; apply Nat.eqb_neq; lia). destruct hl, hr, ht, hb; cbn; btauto. }
  assert (exists s4, (if 1 <? h then vrow (lcfg4 w h) gm src cols (sbit (hb || (hl || hr && (w =? 1)))) (sbit hb) (sbit (hr || hb)) s3
    else Some s3) = Some s4 /\ IR h s4) as (s4 & -> & HR4).
  { destruct (Nat.ltb_spec 1 h) as [H1|H1].
    - replace (S (h - 2)) with (h - 1) in HR3 by lia.
      destruct (vrow_ok (h - 1) (sbit (hb || (hl || hr && (w =? 1)))) (sbit hb) (sbit (hr || hb)) s3) as (s4 & E & HI4); auto.
      + lia.
      + apply Hsb. unfold V1FloodRefine.seamrc. rewrite (Nat.eqb_sym w 1).
        change (0 =? 0) with true. replace (h - 1 =? 0) with false by (symmetry; apply Nat.eqb_neq; lia).
        replace (S (h - 1) =? h) with true by (symmetry; apply Nat.eqb_eq; lia). destruct hl, hr, ht, hb; cbn; btauto.
      + intros c Hc0 Hc1. apply Hsb. unfold V1FloodRefine.seamrc.
        replace (c =? 0) with false by (symmetry; apply Nat.eqb_neq; lia).
        replace (S c =? w) with false by (symmetry; apply Nat.eqb_neq; lia).
        replace (h - 1 =? 0) with false by (symmetry; apply Nat.eqb_neq; lia).
        replace (S (h - 1) =? h) with true by (symmetry; apply Nat.eqb_eq; lia). destruct hl, hr, ht, hb; cbn; btauto.
      + intros Hw1. apply Hsb. unfold V1FloodRefine.seamrc.
        replace (w - 1 =? 0) with false by (symmetry; apply Nat.eqb_neq; lia).
        replace (S (w - 1) =? w) with true by (symmetry; apply Nat.eqb_eq; lia).
        replace (h - 1 =? 0) with false by (symmetry; apply Nat.eqb_neq; lia).
        replace (S (h - 1) =? h) with true by (symmetry; apply Nat.eqb_eq; lia). destruct hl, hr, ht, hb; cbn; btauto.
      + exists s4. split; auto. unfold IR. by replace (S (h - 1)) with h in HI4 by lia.
    - exists s3. split; auto. by replace (S (h - 2)) with h in HR3 by lia. }
  destruct (for_n_inv (fun i s => VI ((h + 1) * (w + 2) + i) (gid h 0) (vrows h) s) (w + 2) put_border s4)
    as (s5 & -> & HI5).
  { by rewrite Nat.add_0_r. }
  { intros i s Hi HI. rewrite Nat.add_succ_r. apply vborder_ok; auto.
    - unfold FloodRefine.plen. nia.
    - apply vwant_row; auto. }
  destruct HI5 as [I1 I2 I3 I4 I5 I6]. eexists _, _. split; [done|]. split; [done|]. split; [|auto].
  intros x Hx. apply I4. unfold FloodRefine.plen in Hx. nia.
Qed.

Lemma vbase_total lvl : (forall v, v < 256 -> lvl !! v = Some (lcount lv nodes v)) -> base_of lvl 256 = w * h + 256.
Proof.
  intros I6. unfold base_of. f_equal. rewrite <-(length_rect cols top left w h), <-(lcount_sum lv nodes 256) by apply lv_lt.
  f_equal. apply map_ext_in. intros v Hv. apply in_seq in Hv. unfold cap_of. by rewrite I6 by lia.
Qed.
Lemma vcap lvl : (forall v, v < 256 -> lvl !! v = Some (lcount lv nodes v)) ->
  forall g, length (filter (fun p => lv p = g) nodes) <= cap_of lvl g.
Proof.
  intros I6 g. unfold cap_of. destruct (decide (g < 256)) as [Hg|Hg]; [by rewrite I6|].
  destruct (filter (fun p => lv p = g) nodes) as [|p l] eqn:E; [cbn; lia|]. exfalso.
  assert (p ∈ filter (fun p => lv p = g) nodes) as Hp by (rewrite E; apply elem_of_cons; auto).
  apply elem_of_list_filter in Hp as [Hp1 Hp2]. apply lv_lt in Hp2. lia.
Qed.

(* what process_tree_patch yields *)
Definition vpready (b b' : vbuf) : Prop :=
  length (vb_img b') = plen /\ (forall x, x < plen -> vb_img b' !! x = Some (vwant x)) /\
  length (vb_lvl b') = 257 /\ (forall v, v < 256 -> vb_lvl b' !! v = Some (lcount lv nodes v)) /\
  heapL phi (base_of (vb_lvl b')) (vb_heap b') (vb_hs b') (fun _ => []) /\
  vb_pts b' = vb_pts b /\ vb_tab b' = vb_tab b.

Lemma vstart_ok lvl heap hs : length lvl = 257 -> (forall v, v < 256 -> lvl !! v = Some (lcount lv nodes v)) ->
  length heap = w * h + 257 -> length hs = 257 -> hs !! 0 = Some 0 ->
  exists heap' hs' m, for_n 256 (start_iter lvl) (<[0 := None]> heap, hs, 1) = Some (heap', hs', m) /\
    heapL phi (base_of lvl) heap' hs' (fun _ => []).
Proof.
  intros Hl Hlv Hhp Hhs H0.
  destruct (starts_ok cols w lvl heap hs) as (heap' & hs' & m & E & HH); auto.
  { rewrite vbase_total by auto. lia. }
  exists heap', hs', m. split; auto. destruct HH as (K1 & K2 & K3). split; auto. split; auto.
  intros g Hg. destruct (K3 g Hg) as (K4 & K5 & K6). split; auto. split; auto. intros i x Hx. done.
Qed.

Lemma vprocess_fresh_ok b : vbuf_ok w h hl hr ht hb b ->
  exists b', vprocess (lcfg4 w h) true gm src cols (gid 0 0) b = Some b' /\ vpready b b'.
Proof.
  intros Hb. unfold vprocess. destruct (vfresh_ok b Hb) as (img & lvl & -> & I1 & I2 & I3 & I4).
  destruct Hb as [B1 B2 B3 B4 B5 B6 B7 B8 B9]. rewrite B4, store_ok by lia.
  destruct (vstart_ok lvl (vb_heap b) (vb_hs b)) as (heap' & hs' & m & -> & HH); auto.
  eexists. split; [done|]. split_and!; auto.
Qed.
End vi.

Section reuse.
Context (cols top left w h : nat) (src : list N) (lv : nat -> nat).
Context (Hw : 0 < w) (Hh : 0 < h) (Hfit : left + w <= cols).
Context (hl hr ht hb : bool).
Notation gid := (gid cols top left).
Notation pid := (pid w).
Notation plen := (plen w h).
Notation border := (border w h).
Notation nodes := (rect_nodes cols top left w h).
Notation seamrc := (seamrc w h hl hr ht hb).
Notation seam := (seam cols top left w h hl hr ht hb).
Context (Hlv : forall p, p ∈ nodes -> lv p < 256).
Notation lv' := (fun p => 255 - lv p).

(* SPEC: the buffers after a first pass over levels lv: finished words, level sizes *)
Record vbuf_done (b : vbuf) : Prop := {
  vd_ok : vbuf_ok w h hl hr ht hb b;
  vd_img : forall p, p ∈ nodes -> vb_img b !! phi cols top left w p = Some (venc (seam p) 4 (lv p));
  vd_bd : forall x, border x -> vb_img b !! x = Some 0xffff%N;
  vd_ll : length (vb_lvl b) = 257;
  vd_lv : forall v, v < 256 -> vb_lvl b !! v = Some (lcount lv nodes v)
}.

Lemma lcount_neg v : v < 256 -> lcount lv' nodes v = lcount lv nodes (255 - v).
Proof.
  intros Hv. unfold lcount. revert Hlv. generalize nodes. intros l. induction l as [|p l IH]; intros Hn; auto.
  rewrite !filter_cons. pose proof (Hn p ltac:(set_solver)). cbv beta in *.
  destruct (decide (255 - lv p = v)), (decide (lv p = 255 - v)); try lia;
    cbn [length]; rewrite ?IH; auto; set_solver.
Qed.

Lemma vflip_row_ok r l : r < h -> length l = plen ->
  (forall c, c < w -> l !! pid r c = Some (venc (seamrc r c) 4 (lv (gid r c)))) ->
  exists l', vflip_row (lcfg4 w h) (l, pid r 0) = Some (l', pid (S r) 0) /\ length l' = plen /\
    (forall c, c < w -> l' !! pid r c = Some (vun (seamrc r c) (lv' (gid r c)))) /\
    (forall x, (forall c, c < w -> x <> pid r c) -> l' !! x = l !! x).
Proof.
  intros Hr Hl Hin. unfold vflip_row. cbn [l_w lcfg4].
  destruct (for_n_inv (fun c (s : list N * nat) => snd s = pid r c /\ length (fst s) = plen /\
      (forall c', c' < c -> fst s !! pid r c' = Some (vun (seamrc r c') (lv' (gid r c')))) /\
      (forall x, (forall c', c' < c -> x <> pid r c') -> fst s !! x = l !! x)) w vflip (l, pid r 0))
    as ([l' p] & -> & Hp & Hl' & Hz & Hk).
  - cbn [fst snd]. split; auto. split; auto. split; auto. intros; lia.
  - intros c [l1 p1] Hc (Hp & Hl1 & Hz & Hk). cbn [fst snd] in *. unfold vflip. cbn [fst snd].
    assert (pid r c < plen). { unfold FloodRefine.pid, FloodRefine.plen. nia. }
    subst p1. rewrite Hk, Hin by (auto; intros c' Hc'; unfold FloodRefine.pid; lia).
    assert (lv (gid r c) < 256) as Hlt. { apply Hlv. apply elem_rect. eauto 6. }
    destruct (init_words (seamrc r c) (lv (gid r c)) Hlt) as [_ ->].
    eexists. split; [done|]. cbn [fst snd]. rewrite insert_length.
    split. { unfold FloodRefine.pid. lia. } split; auto. split.
    + intros c' Hc'. destruct (decide (c' = c)) as [->|].
      * rewrite list_lookup_insert by lia. done.
      * rewrite list_lookup_insert_ne; [apply Hz; lia|]. unfold FloodRefine.pid. lia.
    + intros x Hx. rewrite list_lookup_insert_ne by (apply not_eq_sym; auto). auto.
  - cbn [fst snd] in *. exists l'. split; auto. f_equal. f_equal. rewrite Hp. unfold FloodRefine.pid. lia.
Qed.

Lemma vflip_rows_ok l : length l = plen ->
  (forall r c, r < h -> c < w -> l !! pid r c = Some (venc (seamrc r c) 4 (lv (gid r c)))) ->
  exists l' p, for_n h (vflip_row (lcfg4 w h)) (l, pid 0 0) = Some (l', p) /\ length l' = plen /\
    (forall r c, r < h -> c < w -> l' !! pid r c = Some (vun (seamrc r c) (lv' (gid r c)))) /\
    (forall x, border x -> l' !! x = l !! x).
Proof.
  intros Hl Hin.
  destruct (for_n_inv (fun r (s : list N * nat) => snd s = pid r 0 /\ length (fst s) = plen /\
      (forall r' c, r' < r -> c < w -> fst s !! pid r' c = Some (vun (seamrc r' c) (lv' (gid r' c)))) /\
      (forall r' c, r <= r' -> r' < h -> c < w -> fst s !! pid r' c = l !! pid r' c) /\
      (forall x, border x -> fst s !! x = l !! x)) h (vflip_row (lcfg4 w h)) (l, pid 0 0))
    as ([l' p] & -> & Hp & Hl' & Hz & _ & Hk).
  - cbn [fst snd]. split; auto. split; auto. split; auto. intros; lia.
  - intros r [l1 p1] Hr (Hp & Hl1 & Hz & Hn & Hk). cbn [fst snd] in *. subst p1.
    destruct (vflip_row_ok r l1 Hr Hl1) as (l2 & -> & Hl2 & Hz2 & Hk2).
    { intros c Hc. rewrite Hn by auto. auto. }
    eexists. split; [done|]. cbn [fst snd]. split; auto. split; auto. split; [|split].
    + intros r' c Hr' Hc. destruct (decide (r' = r)) as [->|]; auto.
      rewrite Hk2. { apply Hz; auto; lia. }
      intros c' Hc' He. apply pid_inj in He as [? ?]; auto.
    + intros r' c Hr' Hr'' Hc. rewrite Hk2. { apply Hn; auto; lia. }
      intros c' Hc' He. apply pid_inj in He as [? ?]; auto; lia.
    + intros x Hx. rewrite Hk2; auto. intros c Hc. by apply Hx.
  - cbn [fst snd] in *. exists l', p. auto.
Qed.

Lemma vprocess_reuse_ok b gm : vbuf_done b ->
  exists b', vprocess (lcfg4 w h) false gm src cols (gid 0 0) b = Some b' /\
    vpready cols top left w h lv' hl hr ht hb b b'.
Proof.
  intros [Hb D1 D2 D3 D4]. unfold vprocess, vreuse. cbn [l_w l_h lcfg4].
  replace (w + 2 + 1) with (pid 0 0) by (unfold FloodRefine.pid; lia).
  destruct (vflip_rows_ok (vb_img b)) as (l1 & p1 & -> & Hl1 & Hz & Hk).
  { by destruct Hb. }
  { intros r c Hr Hc. specialize (D1 (gid r c)). rewrite (phi_gid cols top left w Hfit) in D1 by auto.
    rewrite D1 by (apply elem_rect; eauto 6). unfold V1FloodRefine.seam. by rewrite (gid_row _ _ _ w), (gid_col _ _ _ w). }
  destruct (swap_ok (vb_lvl b) D3) as (l2 & p2 & Hsw & Hl2 & Hs & _).
  change (for_n 128 vswap (vb_lvl b, 0)) with (for_n 128 swap_level (vb_lvl b, 0)). rewrite Hsw.
  assert (forall v, v < 256 -> l2 !! v = Some (lcount lv' nodes v)) as Hlv2.
  { intros v Hv. rewrite Hs by auto. rewrite D4 by lia. by rewrite lcount_neg. }
  destruct Hb as [B1 B2 B3 B4 B5 B6 B7 B8 B9]. rewrite B4, store_ok by lia.
  destruct (starts_ok cols w l2 (vb_heap b) (vb_hs b)) as (heap' & hs' & m & -> & HH); auto.
  { rewrite B2. enough (base_of l2 256 = w * h + 256) by lia.
    unfold base_of. f_equal. rewrite <-(length_rect cols top left w h), <-(lcount_sum lv' nodes 256).
    - f_equal. apply map_ext_in. intros v Hv. apply in_seq in Hv. unfold cap_of. by rewrite Hlv2 by lia.
    - intros p _. lia. }
  eexists. split; [done|]. split_and!; cbn [vb_img vb_lvl vb_heap vb_hs vb_pts vb_tab]; auto.
  - intros x Hx. assert (border x \/ ~ border x) as [Hbx|Hnb].
    { destruct (linner w h x) eqn:Hi.
      - right. intros [_ Hb]. unfold linner in Hi. rewrite !andb_true_iff, !Nat.leb_le in Hi.
        apply (Hb (x / (w + 2) - 1) (x mod (w + 2) - 1)); [lia|lia|].
        unfold FloodRefine.pid. pose proof (Nat.div_mod x (w + 2) ltac:(lia)) as Hd.
        replace (x / (w + 2) - 1 + 1) with (x / (w + 2)) by lia. lia.
      - left. split; auto. intros r c Hr Hc ->. apply not_true_iff_false in Hi. apply Hi. unfold linner, FloodRefine.pid.
        destruct (vdm w (r + 1) (c + 1)) as [-> ->]; [lia|]. rewrite !andb_true_iff, !Nat.leb_le. lia. }
    + rewrite Hk, D2 by auto. by rewrite (vwant_border cols top left w h).
    + assert (exists r c, r < h /\ c < w /\ x = pid r c) as (r & c & Hr & Hc & ->).
      { destruct (decide (linner w h x = true)) as [Hi|Hi].
        - unfold linner in Hi. rewrite !andb_true_iff, !Nat.leb_le in Hi.
          exists (x / (w + 2) - 1), (x mod (w + 2) - 1). split; [lia|]. split; [lia|].
          unfold FloodRefine.pid. pose proof (Nat.div_mod x (w + 2) ltac:(lia)) as Hd.
          replace (x / (w + 2) - 1 + 1) with (x / (w + 2)) by lia. lia.
        - exfalso. apply Hnb. split; auto. intros r c Hr Hc ->. apply Hi. unfold linner, FloodRefine.pid.
          destruct (vdm w (r + 1) (c + 1)) as [-> ->]; [lia|]. rewrite !andb_true_iff, !Nat.leb_le. lia. }
      rewrite Hz by auto. by rewrite vwant_pid.
  - destruct HH as (K1 & K2 & K3). split; auto. split; auto.
    intros g Hg. destruct (K3 g Hg) as (K4 & K5 & K6). split; auto. split; auto. intros i x Hx. done.
Qed.
End reuse.
