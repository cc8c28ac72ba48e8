(* pre_process_image (LinkedModel) leaves the buffers as the flooding loop expects. *)
From stdpp Require Import sorting relations functions list.
From Coq Require Import NArith ZArith.
From Verif Require Import Spec FloodAbs Grid FloodModel FloodRefine FloodInit
  LinkedModel LinkedHeap LinkedRefine.
Local Open Scope nat_scope.

(* SPEC: buffers of the right sizes whose first stack starts at the beginning;
   their contents are arbitrary *)
Record lbuf_ok (w h : nat) (b : lbuf) : Prop := {
  lbo_img : length (lb_img b) = (w + 2) * (h + 2);
  lbo_heap : length (lb_heap b) = w * h + 257;
  lbo_hs : length (lb_hs b) = 257;
  lbo_hs0 : lb_hs b !! 0 = Some 0;
  lbo_pts : length (lb_pts b) = w * h
}.

Lemma alloc_buf_ok w h junk : lbuf_ok w h (lalloc_buf w h junk).
Proof.
  constructor; cbn [lalloc_buf lb_img lb_heap lb_hs lb_pts]; rewrite ?replicate_length; auto.
  lia.
Qed.

Section li.
Context (step w h : nat) (k : lcfg) (gm : N) (src : list N) (lv : nat -> nat).
Context (Hw : 0 < w) (Hh : 0 < h) (Hfit : w <= step) (Hkw : l_w k = w) (Hkh : l_h k = h).
Notation gid := (gid step 0 0).
Notation pid := (pid w).
Notation plen := (plen w h).
Notation border := (border w h).
Notation nodes := (rect_nodes step 0 0 w h).
Context (Hsrc : forall r c, r < h -> c < w -> exists v, src !! gid r c = Some v /\
  (if (gm =? 0)%N then v else (0xff - v)%N) = N.of_nat (lv (gid r c)) /\ lv (gid r c) < 256).

Definition linner (x : nat) : bool :=
  ((1 <=? x / (w + 2)) && (x / (w + 2) <=? h) && (1 <=? x mod (w + 2)) && (x mod (w + 2) <=? w)).
Definition lwant (x : nat) : N :=
  if linner x then N.of_nat (lv (gid (x / (w + 2) - 1) (x mod (w + 2) - 1))) else 0xffff%N.

Lemma ldm r c : c < w + 2 -> (r * (w + 2) + c) / (w + 2) = r /\ (r * (w + 2) + c) mod (w + 2) = c.
Proof.
  clear. intros Hc. split.
  - rewrite Nat.div_add_l by lia. rewrite Nat.div_small by lia. lia.
  - rewrite Nat.add_comm, Nat.mod_add by lia. by rewrite Nat.mod_small.
Qed.
Lemma lwant_pid r c : r < h -> c < w -> lwant (pid r c) = N.of_nat (lv (gid r c)).
Proof.
  clear. intros Hr Hc. unfold lwant, linner, FloodRefine.pid. destruct (ldm (r + 1) (c + 1)) as [-> ->]; [lia|].
  destruct (Nat.leb_spec 1 (r + 1)), (Nat.leb_spec (r + 1) h), (Nat.leb_spec 1 (c + 1)),
    (Nat.leb_spec (c + 1) w); try lia. cbn [andb]. by rewrite !Nat.add_sub.
Qed.
Lemma lwant_row r c : r = 0 \/ r = h + 1 -> c < w + 2 -> lwant (r * (w + 2) + c) = 0xffff%N.
Proof.
  clear. intros Hr Hc. unfold lwant, linner. destruct (ldm r c Hc) as [-> ->].
  destruct (Nat.leb_spec 1 r), (Nat.leb_spec r h); try lia; done.
Qed.
Lemma lwant_col r c : c = 0 \/ c = w + 1 -> lwant (r * (w + 2) + c) = 0xffff%N.
Proof.
  clear. intros Hc. unfold lwant, linner. destruct (ldm r c) as [-> ->]; [lia|].
  destruct (Nat.leb_spec 1 c), (Nat.leb_spec c w); try lia; by rewrite ?andb_false_r.
Qed.
Lemma lwant_border x : border x -> lwant x = 0xffff%N.
Proof.
  clear. intros [Hx Hb]. unfold lwant. destruct (linner x) eqn:Hi; auto. exfalso. unfold linner in Hi.
  apply andb_prop in Hi as [Hi H4]. apply andb_prop in Hi as [Hi H3]. apply andb_prop in Hi as [H1 H2].
  apply Nat.leb_le in H1, H2, H3, H4.
  apply (Hb (x / (w + 2) - 1) (x mod (w + 2) - 1)); [lia|lia|].
  unfold FloodRefine.pid. pose proof (Nat.div_mod x (w + 2) ltac:(lia)) as Hd.
  replace (x / (w + 2) - 1 + 1) with (x / (w + 2)) by lia. lia.
Qed.

Record LI (ip sp : nat) (dn : list nat) (s : lini) : Prop := {
  lo_ip : li_ip s = ip; lo_sp : li_sp s = sp;
  lo_len : length (li_img s) = plen;
  lo_img : forall x, x < ip -> li_img s !! x = Some (lwant x);
  lo_ll : length (li_lvl s) = 257;
  lo_lv : forall v, v < 257 -> li_lvl s !! v = Some (lcount lv dn v)
}.

Lemma put_border_ok ip sp dn s : LI ip sp dn s -> ip < plen -> lwant ip = 0xffff%N ->
  exists s', put_border s = Some s' /\ LI (S ip) sp dn s'.
Proof.
  intros [? ? Hl Hi ? ?] Hlt Hwant. unfold put_border. rewrite store_ok by lia. eexists. split; [done|].
  constructor; cbn [li_img li_ip li_lvl li_sp]; auto.
  - by rewrite insert_length.
  - intros x Hx. subst ip. destruct (decide (x = li_ip s)) as [->|].
    + rewrite list_lookup_insert by lia. by rewrite Hwant.
    + rewrite list_lookup_insert_ne by auto. apply Hi. lia.
Qed.

Lemma put_pixel_ok r c dn s : r < h -> c < w -> LI (pid r c) (gid r c) dn s ->
  exists s', put_pixel gm src s = Some s' /\ LI (pid r (S c)) (gid r (S c)) (dn ++ [gid r c]) s'.
Proof.
  intros Hr Hc [Hip Hsp Hl Hi Hll Hlv]. unfold put_pixel.
  destruct (Hsrc r c Hr Hc) as (v & Hv & Hval & Hlt). rewrite Hsp, Hv. cbv zeta. rewrite Hval, Nat2N.id.
  rewrite Hlv by lia.
  assert (pid r c < plen). { unfold FloodRefine.pid, FloodRefine.plen. nia. }
  rewrite store_ok by lia. eexists. split; [done|].
  assert (pid r (S c) = S (pid r c)) as Hsucc. { unfold FloodRefine.pid. lia. }
  constructor; cbn [li_img li_ip li_lvl li_sp]; rewrite ?insert_length; auto; try lia.
  - unfold Grid.gid. lia.
  - intros x Hx. destruct (decide (x = pid r c)) as [->|].
    + rewrite Hip, list_lookup_insert by lia. by rewrite lwant_pid.
    + rewrite list_lookup_insert_ne by lia. apply Hi. lia.
  - intros u Hu. rewrite lcount_app. unfold lcount at 3. rewrite filter_cons, filter_nil.
    destruct (decide (lv (gid r c) = u)) as [<-|Hne].
    + rewrite list_lookup_insert by lia. f_equal. simpl. lia.
    + rewrite list_lookup_insert_ne by auto. rewrite Hlv by auto. f_equal. simpl. lia.
Qed.

Definition lrows (n : nat) : list nat := rect_nodes step 0 0 w n.
Lemma lrows_S n : lrows (S n) = lrows n ++ map (fun c => gid n c) (seq 0 w).
Proof.
  clear. unfold lrows, rect_nodes. rewrite seq_S, flat_map_app. cbn [flat_map]. by rewrite app_nil_r, Nat.add_0_l.
Qed.

Lemma put_row_ok r s : r < h -> LI ((r + 1) * (w + 2)) (r * step) (lrows r) s ->
  exists s', put_row k gm src step s = Some s' /\
    LI ((S r + 1) * (w + 2)) (S r * step) (lrows (S r)) s'.
Proof.
  intros Hr HI. unfold put_row.
  assert (forall c, c < w + 2 -> (r + 1) * (w + 2) + c < plen) as Hb.
  { intros c Hc. unfold FloodRefine.plen. nia. }
  destruct (put_border_ok _ _ _ _ HI) as (s1 & -> & HI1).
  { rewrite <-Nat.add_0_r at 1. apply Hb. lia. }
  { rewrite <-(Nat.add_0_r ((r + 1) * (w + 2))). apply lwant_col. auto. }
  rewrite Hkw.
  destruct (for_n_inv (fun i s => LI (pid r i) (gid r i) (lrows r ++ map (fun c => gid r c) (seq 0 i)) s)
    w (put_pixel gm src) s1) as (s2 & -> & HI2).
  { cbn [seq map]. rewrite app_nil_r.
    replace (pid r 0) with (S ((r + 1) * (w + 2))) by (unfold FloodRefine.pid; lia).
    replace (gid r 0) with (r * step) by (unfold Grid.gid; lia). done. }
  { intros i s' Hi HI'. destruct (put_pixel_ok r i _ s' Hr Hi HI') as (s'' & -> & HI'').
    eexists. split; [done|]. rewrite seq_S, map_app. cbn [map]. by rewrite Nat.add_0_l, app_assoc. }
  replace (pid r w) with ((r + 1) * (w + 2) + (w + 1)) in HI2 by (unfold FloodRefine.pid; lia).
  destruct (put_border_ok _ _ _ _ HI2) as (s3 & -> & HI3).
  { apply Hb. lia. }
  { apply lwant_col. auto. }
  eexists. split; [done|]. rewrite lrows_S. destruct HI3.
  constructor; cbn [li_img li_ip li_lvl li_sp]; auto.
  - lia.
  - rewrite lo_sp0. unfold Grid.gid. lia.
  - intros x Hx. apply lo_img0. lia.
Qed.

Lemma starts_ok lvl heap hs : length lvl = 257 -> length hs = 257 -> hs !! 0 = Some 0 ->
  length heap = base_of lvl 256 + 1 ->
  exists heap' hs' m, for_n 256 (start_iter lvl) (<[0 := None]> heap, hs, 1) = Some (heap', hs', m) /\
    heapL (lphi step w) (base_of lvl) heap' hs' (fun _ => []).
Proof.
  clear. intros Hll Hhl H0 Hpl.
  destruct (for_n_inv (fun i (s : list (option nat) * list nat * nat) =>
    let '(heap', hs', j) := s in j = S i /\ length heap' = length heap /\ length hs' = 257 /\
      forall g, g <= i -> hs' !! g = Some (base_of lvl g) /\ heap' !! base_of lvl g = Some None)
    256 (start_iter lvl) (<[0 := None]> heap, hs, 1)) as ([[heap' hs'] m] & He & (_ & HI1 & HI2 & HI3)).
  { split; auto. rewrite insert_length. split; auto. split; auto. intros g Hg. replace g with 0 by lia.
    change (base_of lvl 0) with 0. split; auto. apply list_lookup_insert. lia. }
  { intros i [[heap1 hs1] j] Hi (-> & I1 & I2 & I3). unfold start_iter. rewrite Nat.sub_succ, Nat.sub_0_r.
    destruct (I3 i) as [H1 H2]; auto. rewrite H1.
    destruct (lookup_lt_is_Some_2 lvl i) as [n Hn]; [lia|]. rewrite Hn.
    assert (base_of lvl (S i) = base_of lvl i + n + 1) as HbS.
    { rewrite base_of_S. unfold cap_of. by rewrite Hn. }
    rewrite <-HbS. rewrite store_ok by lia.
    pose proof (base_of_le lvl (S i) 256 ltac:(lia)). rewrite store_ok by lia.
    eexists. split; [done|]. split; [done|]. split; [by rewrite insert_length|]. split; [by rewrite insert_length|].
    intros g Hg. destruct (decide (g = S i)) as [->|Hgi].
    - rewrite list_lookup_insert by lia. split; auto. apply list_lookup_insert. lia.
    - rewrite list_lookup_insert_ne by auto. destruct (I3 g) as [G1 G2]; [lia|]. split; auto.
      rewrite list_lookup_insert_ne; auto. intros Hb. apply base_of_inj in Hb. lia. }
  exists heap', hs', m. split; auto. split; auto. split; [congruence|].
  intros g Hg. destruct (HI3 g Hg) as [G1 G2]. rewrite Nat.add_0_r. split; auto. split; auto.
  intros i x Hx. done.
Qed.

Lemma pre_process_ok b : lbuf_ok w h b ->
  exists b' cap base, pre_process k gm src step b = Some b' /\
    (forall g, base (S g) = base g + cap g + 1) /\ base 0 = 0 /\ base 256 = w * h + 256 /\
    (forall g, length (filter (fun p => lv p = g) nodes) <= cap g) /\
    lready step w h 0 (fun _ _ => None) lv base b'.
Proof.
  intros [B1 B2 B3 B4 B5]. unfold pre_process. rewrite Hkw, Hkh.
  assert (LI 0 0 [] (LIni (lb_img b) 0 (replicate 257 0) 0)) as HI0.
  { constructor; cbn [li_img li_ip li_lvl li_sp]; auto; try lia. intros v Hv. by rewrite lookup_replicate_2. }
  destruct (for_n_inv (fun i s => LI i 0 [] s) (w + 2) put_border _ HI0) as (s1 & -> & HI1).
  { intros i s Hi HI. apply put_border_ok; auto.
    - unfold FloodRefine.plen. nia.
    - apply (lwant_row 0 i); auto. }
  destruct (for_n_inv (fun i s => LI ((i + 1) * (w + 2)) (i * step) (lrows i) s) h (put_row k gm src step) s1)
    as (s2 & -> & HI2).
  { replace ((0 + 1) * (w + 2)) with (w + 2) by lia. done. }
  { intros i s Hi HI. by apply put_row_ok. }
  destruct (for_n_inv (fun i s => LI ((h + 1) * (w + 2) + i) (h * step) (lrows h) s) (w + 2) put_border s2)
    as (s3 & -> & HI3).
  { by rewrite Nat.add_0_r. }
  { intros i s Hi HI. rewrite Nat.add_succ_r. apply put_border_ok; auto.
    - unfold FloodRefine.plen. nia.
    - apply lwant_row; auto. }
  rewrite B4, store_ok by lia. destruct HI3 as [I1 I2 I3 I4 I5 I6].
  assert (forall p, p ∈ nodes -> lv p < 256) as Hlt.
  { intros p Hp. apply elem_rect in Hp as (r & c & Hr & Hc & ->). by destruct (Hsrc r c Hr Hc) as (? & _ & _ & ?). }
  assert (base_of (li_lvl s3) 256 = w * h + 256) as Hb.
  { unfold base_of. f_equal. rewrite <-(length_rect step 0 0 w h), <-(lcount_sum lv nodes 256) by auto.
    f_equal. apply map_ext_in. intros v Hv. apply in_seq in Hv. unfold cap_of. by rewrite I6 by lia. }
  destruct (starts_ok (li_lvl s3) (lb_heap b) (lb_hs b)) as (heap' & hs' & m & -> & HH); auto; try lia.
  eexists _, (cap_of (li_lvl s3)), (base_of (li_lvl s3)). split; [done|].
  split; [apply base_of_S|]. split; [done|]. split; [done|]. split.
  { intros g. unfold cap_of. destruct (decide (g < 257)) as [Hg|Hg]; [by rewrite I6|].
    destruct (filter (fun p => lv p = g) nodes) as [|p l] eqn:E; [cbn; lia|]. exfalso.
    assert (p ∈ filter (fun p => lv p = g) nodes) as Hp by (rewrite E; apply elem_of_cons; auto).
    apply elem_of_list_filter in Hp as [Hp1 Hp2]. apply Hlt in Hp2. lia. }
  split; [done|]. split; [|split; [|split; [done|done]]]; cbn [lb_img].
  - intros p Hp. cbn [g_nodes lgraph] in Hp. apply elem_rect in Hp as (r & c & Hr & Hc & ->).
    rewrite (lphi_gid step w) by auto. rewrite I4; [by rewrite lwant_pid|].
    unfold FloodRefine.pid. nia.
  - intros x Hx. rewrite I4; [by rewrite lwant_border|]. destruct Hx as [Hx _]. unfold FloodRefine.plen in Hx. nia.
Qed.
End li.
