(* What a call of the OpenCV3-style extraction returns, in terms of the image. *)
From stdpp Require Import sorting relations functions list_numbers list.
From Coq Require Import NArith ZArith SpecFloat.
From Verif Require Import Spec FloodAbs FloodAbsInv FloodAbsProof Grid TreeSpec FloodTree JoinCorrect FloodModel FloodInit FloodCorrect FloatModel RectModel RecogModel CvExtract
  ExtractTop LinkedHeap OcvModel OcvWords OcvHeap OcvTree OcvComp OcvStack OcvRefine OcvRun OcvInit.
Local Open Scope nat_scope.

(* SPEC: an image of rows * cols bytes, at least 3 x 3 and small enough for 29 bit offsets *)
Record oimage (src : list N) (rows cols : nat) : Prop := {
  oi_rows : 3 <= rows; oi_cols : 3 <= cols;
  oi_len : length src = rows * cols; oi_bytes : Forall (fun v => (v < 256)%N) src;
  oi_small : (N.of_nat (rows * cols) <= 2 ^ 29)%N
}.
(* SPEC: the image without its border *)
Definition inner_view (src : list N) (gm : N) (rows cols : nat) : view := rect_view cols 1 1 (cols - 2) (rows - 2) (level src gm).
(* SPEC: a record lists the pixels of the set *)
Definition o_lists (cols : nat) (m : omser) (R : nat -> Prop) : Prop := lists_set cols R (om_pts m) /\ om_size m = length (om_pts m).
(* SPEC: the records are different extremal regions of the image without its border *)
Definition o_good (src : list N) (gm : N) (rows cols : nat) (P : rparam) (ms : list omser) : Prop :=
  (forall i m, ms !! i = Some m -> exists g R, extremal (inner_view src gm rows cols) g R /\ o_lists cols m R /\
     (p_min P <= Z.of_nat (om_size m) <= p_max P)%Z /\ bounding (om_pts m) (om_rect m)) /\
  forall i j m m' R, ms !! i = Some m -> ms !! j = Some m' -> o_lists cols m R -> o_lists cols m' R -> i = j.

Lemma oxy_pixel cols p : oxy cols p = pixel cols p.
Proof. done. Qed.
Lemma pixel_inj cols p q : 0 < cols -> pixel cols p = pixel cols q -> p = q.
Proof.
  unfold pixel. intros Hc H. injection H as H1 H2. apply Nat2Z.inj in H1, H2.
  rewrite (Nat.div_mod p cols), (Nat.div_mod q cols) by lia. congruence.
Qed.
Lemma lists_of cols (L : list nat) : 0 < cols -> NoDup L -> lists_set cols (fun p => p ∈ L) (map (oxy cols) L).
Proof.
  intros Hc Hnd. split.
  - apply NoDup_fmap_2_strong; [|done]. intros p q _ _. rewrite !oxy_pixel. by apply pixel_inj.
  - intros q. rewrite elem_of_list_fmap. setoid_rewrite oxy_pixel. split; intros (p & H1 & H2); eauto.
Qed.
Lemma lists_iff cols (A B : nat -> Prop) L : (forall p, A p <-> B p) -> lists_set cols A L -> lists_set cols B L.
Proof. intros H [H1 H2]. split; [done|]. intros q. rewrite H2. by setoid_rewrite H. Qed.

Section correct.
Context (src : list N) (rows cols : nat) (HI : oimage src rows cols).
Notation nodes := (rect_nodes cols 1 1 (cols - 2) (rows - 2)).

Lemma oconn gray l p q : conn (ograph rows cols gray) l p q <-> vconn (rect_view cols 1 1 (cols - 2) (rows - 2) gray) l p q.
Proof using HI.
  destruct HI as [Hr Hc _ _ _]. rewrite <-conn_vconn by lia. unfold conn. cbn [g_nodes g_gray ograph rect_graph].
  assert (forall x y, lstep (ograph rows cols gray) l x y <-> lstep (rect_graph cols 1 1 (cols - 2) (rows - 2) gray) l x y) as Hs.
  { intros x y. unfold lstep. rewrite ograph_adj. done. }
  assert (forall x y, rtc (lstep (ograph rows cols gray) l) x y <-> rtc (lstep (rect_graph cols 1 1 (cols - 2) (rows - 2) gray) l) x y) as Hr'.
  { intros x y. split; apply rtc_subrel; intros ? ?; by rewrite Hs. }
  by rewrite Hr'.
Qed.

Lemma tree_region gray lab regs r a : tree_of (ograph rows cols gray) lab regs -> regs !! r = Some a ->
  extremal (rect_view cols 1 1 (cols - 2) (rows - 2) gray) (rg a) (fun p => p ∈ rl a).
Proof using HI.
  intros HT Ha. destruct (to_own _ _ _ HT r a Ha) as (p0 & Hp0 & Hl). destruct (to_lab _ _ _ HT p0 Hp0) as (b & Hb & Hg).
  rewrite Hl in Hb. assert (b = a) as -> by congruence. exists p0. split; [|split].
  - cbn [vw_in rect_view]. destruct HI as [Hr Hc _ _ _]. apply (in_rect_nodes cols 1 1 (cols - 2) (rows - 2) gray ltac:(lia)). done.
  - cbn [vw_gray rect_view]. by rewrite Hg.
  - intros p. rewrite <-oconn. destruct (to_mem _ _ _ HT r a Ha) as [_ Hm]. rewrite Hm. split.
    + intros [Hp Hu]. apply (to_comp _ _ _ HT r a p0 p); auto. rewrite Hl. apply rtc_refl.
    + intros Hcn. assert (p ∈ nodes) as Hp by apply Hcn. split; [done|]. apply (to_comp _ _ _ HT r a p0 p); auto. rewrite Hl. apply rtc_refl.
Qed.

Lemma tree_differ gray lab regs r a r' a' : tree_of (ograph rows cols gray) lab regs -> regs !! r = Some a -> regs !! r' = Some a' ->
  (forall p, p ∈ rl a <-> p ∈ rl a') -> r = r'.
Proof using.
  intros HT Ha Ha' He.
  assert (forall r a r' a', regs !! r = Some a -> regs !! r' = Some a' -> (forall p, p ∈ rl a -> p ∈ rl a') -> under regs r r') as Hsub.
  { clear -HT. intros r a r' a' Ha Ha' H. destruct (to_own _ _ _ HT r a Ha) as (p & Hp & <-).
    apply (proj2 (to_mem _ _ _ HT r' a' Ha') p). apply H. apply (proj2 (to_mem _ _ _ HT _ a Ha) p). split; [done|apply rtc_refl]. }
  assert (forall x y, under regs x y -> x = y \/ exists b c, regs !! x = Some b /\ regs !! y = Some c /\ rg b < rg c) as Hlt.
  { clear -HT. intros x y H. induction H as [x|x y z Hxy _ IH]; [by left|]. right. destruct Hxy as (b & Hb & Hp).
    destruct (to_par _ _ _ HT x b y Hb Hp) as (c & Hc & Hlt). destruct IH as [->|(c' & d & Hc' & Hd & Hlt')]; [eauto|].
    assert (c' = c) as -> by congruence. exists b, d. split; [done|]. split; [done|]. lia. }
  destruct (Hlt r r') as [|(b & c & Hb & Hc & H1)]; [apply (Hsub r a r' a' Ha Ha'); intros p Hp; by apply He|done|].
  destruct (Hlt r' r) as [|(c' & b' & Hc' & Hb' & H2)]; [apply (Hsub r' a' r a Ha' Ha); intros p Hp; by apply He|done|].
  assert (c' = c) as -> by congruence. assert (b' = b) as -> by congruence. lia.
Qed.

Lemma pass_good gm P s' t lab regs : opass_ok rows cols P (level src gm) s' t lab regs -> o_good src gm rows cols P (ot_out t).
Proof using HI.
  intros HO. destruct (op_recs _ _ _ _ _ _ _ _ HO) as (rs & Hnd & HF). pose proof (op_tree _ _ _ _ _ _ _ _ HO) as HT.
  assert (0 < cols) as Hc0 by (destruct HI; lia).
  assert (forall i m, ot_out t !! i = Some m -> exists r a, rs !! i = Some r /\ regs !! r = Some a /\ o_lists cols m (fun p => p ∈ rl a) /\
    (p_min P <= Z.of_nat (om_size m) <= p_max P)%Z /\ bounding (om_pts m) (om_rect m)) as Hrec.
  { intros i m Hm. destruct (Forall2_lookup_r _ _ _ _ _ HF Hm) as (r & Hr & g & l & L & H1 & H2 & H3 & H4 & H5 & H6).
    unfold RLfin in H1. destruct (regs !! r) as [a|] eqn:Ha; [|done]. injection H1 as <- <-. exists r, a. split; [done|]. split; [done|].
    split; [|rewrite H4; done]. split.
    - rewrite H3. eapply lists_iff; [|apply lists_of; [done|]].
      + intros p. cbn beta. by rewrite H2.
      + rewrite H2. apply (to_mem _ _ _ HT r a Ha).
    - rewrite H3, H4. by rewrite map_length. }
  split.
  - intros i m Hm. destruct (Hrec i m Hm) as (r & a & _ & Ha & H1 & H2 & H3). exists (rg a), (fun p => p ∈ rl a).
    split; [by eapply tree_region|]. done.
  - intros i j m m' R Hm Hm' HR HR'. destruct (Hrec i m Hm) as (r & a & Hr & Ha & [H1 _] & _). destruct (Hrec j m' Hm') as (r' & a' & Hr' & Ha' & [H2 _] & _).
    assert (forall A B L, lists_set cols A L -> lists_set cols B L -> forall p, A p -> B p) as Hs.
    { intros A B L [_ HA] [_ HB] p Hp. destruct (proj1 (HB (pixel cols p))) as (q & Hq & E); [apply HA; eauto|]. apply pixel_inj in E; [|done]. by subst q. }
    assert (r = r') as ->.
    { eapply (tree_differ _ _ _ r a r' a' HT Ha Ha'). intros p. destruct HR as [HR _], HR' as [HR' _]. split; intros Hp.
      - apply (Hs R _ _ HR' H2). by apply (Hs _ R _ H1 HR).
      - apply (Hs R _ _ HR H1). by apply (Hs _ R _ H2 HR'). }
    by eapply NoDup_lookup.
Qed.

(* the largest component is the image without its border *)
Lemma pass_top gm P s' t lab regs : opass_ok rows cols P (level src gm) s' t lab regs ->
  exists c l, head (t_comps s') = Some c /\ opixels (t_pix s') cols (o_head c) (o_size c) = Some l /\
    lists_set cols (in_rect cols 1 1 (cols - 2) (rows - 2)) l /\ length l = (rows - 2) * (cols - 2).
Proof using HI.
  intros HO. destruct (op_top _ _ _ _ _ _ _ _ HO) as (c & L & Hc & HL & Hsz & Hpx). exists c, (map (oxy cols) L).
  rewrite Hc. split; [done|]. split; [done|]. assert (1 + (cols - 2) <= cols) as Hfit by (destruct HI; lia). split.
  - eapply lists_iff; [|apply lists_of].
    + intros p. cbn beta. rewrite HL. symmetry. apply (in_rect_nodes cols 1 1 (cols - 2) (rows - 2) (level src gm) Hfit).
    + destruct HI; lia.
    + rewrite HL. by apply NoDup_rect.
  - rewrite map_length, HL, length_rect. lia.
Qed.
End correct.

(* ---------- the previous contents of the buffers do not matter ---------- *)
Section same.
Context (src : list N) (rows cols : nat) (gm : N) (P : rparam) (gray : nat -> nat).
Context (Hrows : 3 <= rows) (Hcols : 3 <= cols) (Harea : (N.of_nat (rows * cols) <= 2 ^ 29)%N).
Notation G := (ograph rows cols gray).
Notation nodes := (rect_nodes cols 1 1 (cols - 2) (rows - 2)).
Context (Hgray : forall p, p ∈ nodes -> get_gray src gm p = Some (gray p)) (Hgb : gray_bound G).
Context (cap base : nat -> nat).
Context (Hbase : forall g, base (S g) = base g + cap g + 1).
Context (Hcap : forall g, length (filter (fun p => gray p = g) nodes) <= cap g).

(* equal but for the stack array *)
Definition osame (s1 s2 : ost) : Prop :=
  t_pix s1 = t_pix s2 /\ t_cur s1 = t_cur s2 /\ t_d s1 = t_d s2 /\ t_gray s1 = t_gray s2 /\ t_hs s1 = t_hs s2 /\ t_comps s1 = t_comps s2 /\ t_tree s1 = t_tree s2.

Lemma same_top h1 h2 hs ah g : heapO cap base h1 hs ah -> heapO cap base h2 hs ah -> heap_top h1 hs g = heap_top h2 hs g.
Proof using Hgray Hgb Hcap Hbase Hrows Hcols Harea.
  intros H1 H2. destruct (le_lt_dec g 255) as [Hg|Hg].
  - by rewrite (otop_spec cap base h1 hs ah), (otop_spec cap base h2 hs ah).
  - unfold heap_top. rewrite (lookup_ge_None_2 hs g); [done|]. destruct H1 as [H1 _]. lia.
Qed.
Lemma same_find h1 h2 hs : (forall g, heap_top h1 hs g = heap_top h2 hs g) -> forall n g, ofind h1 hs g n = ofind h2 hs g n.
Proof using Hgray Hgb Hcap Hbase Hrows Hcols Harea. intros H n. induction n as [|n IH]; intros g; [done|]. cbn [ofind]. rewrite H. destruct (heap_top h2 hs g) as [[p|]|]; auto. Qed.
Lemma same_push h1 h2 hs g p : length h1 = length h2 ->
  match heap_push h1 hs g p, heap_push h2 hs g p with Some (_, a), Some (_, b) => a = b | None, None => True | _, _ => False end.
Proof using Hgray Hgb Hcap Hbase Hrows Hcols Harea. intros H. unfold heap_push, store. destruct (hs !! g); [|done]. rewrite H. by destruct (_ <? _). Qed.

Definition ressame (r1 r2 : ores) : Prop :=
  match r1, r2 with ONext a, ONext b | OHalt a, OHalt b => osame a b | OStuck, OStuck => True | _, _ => False end.
Lemma same_take h1 h2 hs pix g comps t : (forall g, heap_top h1 hs g = heap_top h2 hs g) ->
  ressame (otake src gm pix h1 hs g comps t) (otake src gm pix h2 hs g comps t).
Proof using Hgray Hgb Hcap Hbase Hrows Hcols Harea.
  intros H. unfold otake. rewrite H. destruct (heap_top h2 hs g) as [[p|]|]; try done. destruct (heap_pop hs g); [|done].
  destruct (pix !! p); [|done]. destruct (get_gray src gm p); done.
Qed.

Lemma step_same s1 s2 a Ls1 rids1 Ls2 rids2 : OR rows cols P gray cap base s1 a Ls1 rids1 -> OR rows cols P gray cap base s2 a Ls2 rids2 -> osame s1 s2 ->
  ressame (ostep src rows cols gm P s1) (ostep src rows cols gm P s2).
Proof using Hgray Hgb Hcap Hbase Hrows Hcols Harea.
  intros [_ _ _ _ _ _ H1 _ L1] [_ _ _ _ _ _ H2 _ L2] (E1 & E2 & E3 & E4 & E5 & E6 & E7).
  destruct s1 as [pix cur d g h1 hs comps t], s2 as [pix2 cur2 d2 g2 h2 hs2 comps2 t2].
  cbn [t_pix t_cur t_d t_gray t_heap t_hs t_comps t_tree] in *. subst pix2 cur2 d2 g2 hs2 comps2 t2.
  assert (length h1 = length h2) as Hl by congruence.
  assert (forall g, heap_top h1 hs g = heap_top h2 hs g) as Ht by (intros; by eapply same_top).
  unfold ostep. cbn [t_d]. destruct (d <=? 4).
  - unfold otour. cbn [t_pix t_cur t_d t_gray t_heap t_hs t_comps t_tree]. destruct (onbr cols cur d) as [q|]; [|done]. destruct (pix !! q); [|done].
    destruct (visited _); [done|]. destruct (get_gray src gm q) as [gq|]; [|done].
    destruct (gq <? g).
    + pose proof (same_push h1 h2 hs g cur Hl) as Hp. destruct (heap_push h1 hs g cur) as [[? a1]|], (heap_push h2 hs g cur) as [[? a2]|]; try done.
      subst a2. destruct (length comps <? 257); done.
    + pose proof (same_push h1 h2 hs gq q Hl) as Hp. destruct (heap_push h1 hs gq q) as [[? a1]|], (heap_push h2 hs gq q) as [[? a2]|]; done.
  - unfold ofinish. cbn [t_pix t_cur t_d t_gray t_heap t_hs t_comps t_tree]. destruct comps as [|c rest]; [done|].
    destruct (oadd _ cur c) as [[pix1 c1]|]; [|done]. rewrite Ht. destruct (heap_top h2 hs g) as [[p|]|]; [by apply same_take| |done].
    rewrite (same_find h1 h2 hs Ht). destruct (ofind h2 hs _ _) as [[g'|]|]; [|done|done]. destruct rest as [|c2 rest']; [done|].
    destruct (g' <? o_gray c2).
    + destruct (ogrow _ _ _ _ _ _ _ _) as [[c1' t']|]; [|done]. by apply same_take.
    + destruct (omerge _ _ _ _ _ _ _) as [[[c2' pix2] t']|]; [|done]. by apply same_take.
Qed.

Lemma run_same n s1 s2 a Ls1 rids1 Ls2 rids2 : Inv G a -> OR rows cols P gray cap base s1 a Ls1 rids1 -> OR rows cols P gray cap base s2 a Ls2 rids2 -> osame s1 s2 ->
  forall s1' s2', orun src rows cols gm P n s1 = OHalt s1' -> orun src rows cols gm P n s2 = OHalt s2' -> osame s1' s2'.
Proof using Hgray Hgb Hcap Hbase Hrows Hcols Harea.
  revert s1 s2 a Ls1 rids1 Ls2 rids2. induction n as [|n IH]; intros s1 s2 a Ls1 rids1 Ls2 rids2 HI H1 H2 Hs s1' s2' E1 E2; [done|].
  cbn [orun] in E1, E2. pose proof (step_same s1 s2 a _ _ _ _ H1 H2 Hs) as Hst.
  pose proof (ostep_refine src rows cols gm P gray Hrows Hcols Harea Hgray Hgb cap base Hbase Hcap s1 a Ls1 rids1 H1 HI) as R1.
  pose proof (ostep_refine src rows cols gm P gray Hrows Hcols Harea Hgray Hgb cap base Hbase Hcap s2 a Ls2 rids2 H2 HI) as R2.
  pose proof (astep_inv G (ograph_ok rows cols gray ltac:(lia)) a Hgb HI) as HI'.
  destruct (astep G a) as [a'|a'|].
  - destruct R1 as (t1 & L1 & r1 & X1 & R1), R2 as (t2 & L2 & r2 & X2 & R2). rewrite X1, X2 in *. by eapply (IH t1 t2 a').
  - destruct R1 as (t1 & X1 & _), R2 as (t2 & X2 & _). rewrite X1, X2 in *. injection E1 as <-. injection E2 as <-. done.
  - destruct (ostep src rows cols gm P s1), (ostep src rows cols gm P s2); done.
Qed.
End same.

(* ---------- a pass, and a call ---------- *)
Lemma run_more src rows cols gm P n m s s' : n <= m -> orun src rows cols gm P n s = OHalt s' -> orun src rows cols gm P m s = OHalt s'.
Proof.
  revert m s. induction n as [|n IH]; intros m s Hm H; [done|]. destruct m as [|m]; [lia|]. cbn [orun] in *.
  destruct (ostep src rows cols gm P s); [|done|done]. apply IH; [lia|done].
Qed.
Lemma pass_more src rows cols gm P n m first b r : n <= m -> ocv_pass src rows cols gm P n first b = Some r -> ocv_pass src rows cols gm P m first b = Some r.
Proof.
  intros Hm. unfold ocv_pass. destruct (opreprocess src rows cols first b) as [b1|]; [|done]. destruct (oinit src cols gm b1) as [s| |]; [|done|done].
  destruct (orun src rows cols gm P n s) as [|s'|] eqn:E; [done| |done]. by rewrite (run_more src rows cols gm P n m s s' Hm E).
Qed.

Section call.
Context (src : list N) (rows cols : nat) (HI : oimage src rows cols) (P : rparam).
Notation area := (rows * cols).
Notation nodes := (rect_nodes cols 1 1 (cols - 2) (rows - 2)).

Lemma good_unique pix pix' : good rows cols (fun _ => True) pix -> good rows cols (fun _ => True) pix' -> pix = pix'.
Proof using.
  intros [H1 H2] [H3 H4]. apply list_eq. intros i. destruct (le_lt_dec area i) as [Hi|Hi].
  - rewrite !lookup_ge_None_2 by lia. done.
  - by rewrite H2, H4.
Qed.
Lemma counts_unique (lvl lvl' : list nat) f : length lvl = 256 -> length lvl' = 256 -> (forall v, v < 256 -> lvl !! v = Some (f v)) ->
  (forall v, v < 256 -> lvl' !! v = Some (f v)) -> lvl = lvl'.
Proof using.
  clear. intros H1 H2 H3 H4. apply list_eq. intros i. destruct (le_lt_dec 256 i) as [Hi|Hi].
  - rewrite !lookup_ge_None_2 by lia. done.
  - rewrite H3, H4 by done. done.
Qed.

(* what the preparation leaves is determined but for the stack array *)
Lemma prepared (first : bool) b (gm := if first then 0%N else 255%N) : (if first then obuf_ok rows cols b else obuf_second src rows cols b) ->
  exists pix lvl heap hs, opreprocess src rows cols first b = Some (OBuf pix heap hs lvl) /\
    good rows cols (fun _ => True) pix /\ length lvl = 256 /\ (forall v, v < 256 -> lvl !! v = Some (lcount (level src gm) nodes v)) /\
    (forall g, length (filter (fun p => level src gm p = g) nodes) <= cap_of lvl g) /\
    oready rows cols (cap_of lvl) (base_of lvl) (OBuf pix heap hs lvl).
Proof using HI.
  intros Hb. destruct HI as [Hr Hc Hl HB Hs]. assert (gm = 0%N \/ gm = 255%N) as Hgm by (destruct first; auto).
  assert (exists pix lvl, (if first then oprepare_first src rows cols (ob_pix b) else oprepare_second rows cols (ob_pix b) (ob_lvl b)) = Some (pix, lvl) /\
    good rows cols (fun _ => True) pix /\ length lvl = 256 /\ (forall v, v < 256 -> lvl !! v = Some (lcount (level src gm) nodes v)) /\ obuf_ok rows cols b) as (pix & lvl & Hpre & Hg & Hll & Hlv & Hbo).
  { destruct first.
    - destruct (prepare_first_ok src rows cols Hr Hc Hl HB (ob_pix b)) as (pix & lvl & H1 & H2 & H3 & H4); [apply Hb|]. exists pix, lvl. done.
    - destruct Hb as [B1 B2 B3]. destruct (prepare_second_ok src rows cols Hr Hc Hl HB (ob_pix b) (ob_lvl b)) as (pix & lvl & H1 & H2 & H3 & H4); [|done|].
      + split; [apply B1|]. intros x Hx Hn0. rewrite B2 by done. unfold want. by rewrite decide_False.
      + exists pix, lvl. done. }
  destruct (ready_of src rows cols Hr Hc Hl HB gm b pix lvl Hgm Hg Hll Hlv Hbo) as (heap & hs & Hh & Hcap & HR).
  exists pix, lvl, heap, hs. unfold opreprocess. rewrite Hpre, Hh. done.
Qed.

(* one pass: dark first, or bright after dark *)
Theorem pass_ok n (first : bool) b (gm := if first then 0%N else 255%N) : 6 * ((rows - 2) * (cols - 2)) < n ->
  (if first then obuf_ok rows cols b else obuf_second src rows cols b) ->
  exists s' t lab regs b', ocv_pass src rows cols gm P n first b = Some (t, s', b') /\
    opass_ok rows cols P (level src gm) s' t lab regs /\ (first = true -> obuf_second src rows cols b').
Proof using HI.
  intros Hn Hb. destruct (prepared first b Hb) as (pix & lvl & heap & hs & Hpre & Hg & Hll & Hlv & Hcap & HR).
  destruct HI as [Hr Hc Hl HB Hs]. assert (gm = 0%N \/ gm = 255%N) as Hgm by (destruct first; auto).
  unfold ocv_pass. rewrite Hpre.
  destruct (opass_refined src rows cols gm P (level src gm) Hr Hc Hs) with (cap := cap_of lvl) (base := base_of lvl) (b := OBuf pix heap hs lvl) (n := n)
    as (s & s' & t & lab & regs & Hi & Hrun & Hcl & HO); auto.
  { intros p Hp. by apply (level_lt src rows cols). }
  { intros p Hp. cbn [g_gray ograph]. pose proof (proj2 (level_lt src rows cols Hr Hc Hl HB gm p Hgm Hp)). lia. }
  { apply base_of_S. }
  rewrite Hi, Hrun, Hcl. eexists s', t, lab, regs, _. split; [done|]. split; [done|]. intros ->. cbn [ob_lvl].
  destruct (op_len _ _ _ _ _ _ _ _ HO) as (L1 & L2 & L3). constructor; [constructor; done|apply HO|]. cbn [ob_lvl]. split; [done|]. exact Hlv.
Qed.

(* the result of a pass does not depend on the old contents of the buffers *)
Theorem pass_same n (first : bool) b1 b2 (gm := if first then 0%N else 255%N) : 6 * ((rows - 2) * (cols - 2)) < n ->
  (if first then obuf_ok rows cols b1 else obuf_second src rows cols b1) ->
  (if first then obuf_ok rows cols b2 else obuf_second src rows cols b2) ->
  forall t1 s1 b1' t2 s2 b2', ocv_pass src rows cols gm P n first b1 = Some (t1, s1, b1') -> ocv_pass src rows cols gm P n first b2 = Some (t2, s2, b2') -> t1 = t2.
Proof using HI.
  intros Hn H1 H2 t1 s1 b1' t2 s2 b2' E1 E2.
  destruct (prepared first b1 H1) as (pix1 & lvl1 & heap1 & hs1 & Hp1 & Hg1 & Hl1 & Hlv1 & Hcap1 & HR1).
  destruct (prepared first b2 H2) as (pix2 & lvl2 & heap2 & hs2 & Hp2 & Hg2 & Hl2 & Hlv2 & _ & HR2).
  pose proof (good_unique _ _ Hg1 Hg2) as <-. pose proof (counts_unique _ _ _ Hl1 Hl2 Hlv1 Hlv2) as <-.
  assert (hs1 = hs2) as <-.
  { destruct HR1 as [_ _ _ (A1 & _ & A2) _], HR2 as [_ _ _ (B1 & _ & B2) _]. cbn [ob_hs] in *. eapply counts_unique; [done|done| |].
    - intros v Hv. apply A2. lia.
    - intros v Hv. cbn beta. destruct (B2 v ltac:(lia)) as [B3 _]. exact B3. }
  destruct HI as [Hr Hc Hl HB Hs]. assert (gm = 0%N \/ gm = 255%N) as Hgm by (destruct first; auto).
  assert (forall p, p ∈ nodes -> get_gray src gm p = Some (level src gm p)) as Hgr. { intros p Hp. by apply (level_lt src rows cols). }
  assert (gray_bound (ograph rows cols (level src gm))) as Hgb. { intros p Hp. cbn [g_gray ograph]. pose proof (proj2 (level_lt src rows cols Hr Hc Hl HB gm p Hgm Hp)). lia. }
  destruct (oinit_refine src rows cols gm P (level src gm) Hr Hc Hs Hgr (cap_of lvl1) (base_of lvl1) (base_of_S lvl1) Hcap1 _ HR1) as (i1 & I1 & R1).
  destruct (oinit_refine src rows cols gm P (level src gm) Hr Hc Hs Hgr (cap_of lvl1) (base_of lvl1) (base_of_S lvl1) Hcap1 _ HR2) as (i2 & I2 & R2).
  unfold ocv_pass in E1, E2. rewrite Hp1, I1 in E1. rewrite Hp2, I2 in E2.
  assert (osame i1 i2) as Hi.
  { unfold oinit in I1, I2. cbn [ob_pix ob_heap ob_hs] in I1, I2. destruct (pix1 !! (cols + 1)); [|done]. destruct (get_gray src gm (cols + 1)); [|done].
    injection I1 as <-. injection I2 as <-. done. }
  destruct (orun src rows cols gm P n i1) as [|e1|] eqn:Y1; [done| |done]. destruct (orun src rows cols gm P n i2) as [|e2|] eqn:Y2; [done| |done].
  destruct (run_same src rows cols gm P (level src gm) Hr Hc Hs Hgr Hgb (cap_of lvl1) (base_of lvl1) (base_of_S lvl1) Hcap1 n i1 i2 _ _ _ _ _
    (ainit_inv (ograph rows cols (level src gm)) (cols + 1) (start_node rows cols Hr Hc)) R1 R2 Hi e1 e2 Y1 Y2) as (D1 & _ & _ & _ & _ & D2 & D3).
  rewrite D1, D2, D3 in E1. destruct (oclose _ _ _ _ _ _) as [t|]; [|done]. injection E1 as <- _ _. injection E2 as <- _ _. done.
Qed.

(* a call that searches dark regions, and then bright ones if bright *)
Theorem ocv_call_ok (bright : bool) : exists R0 R1, o_good src 0 rows cols P R0 /\
  (if bright then o_good src 255 rows cols P R1 else R1 = []) /\
  forall n b, 6 * ((rows - 2) * (cols - 2)) < n -> obuf_ok rows cols b ->
    ocv_call n src rows cols P true bright b = Some (R0, R1).
Proof using HI.
  set (n0 := S (6 * ((rows - 2) * (cols - 2)))).
  assert (exists b, obuf_ok rows cols b) as (b0 & Hb0).
  { exists (oalloc rows cols 0%N None 0). constructor; cbn [oalloc ob_pix ob_heap ob_hs]; by rewrite replicate_length. }
  destruct (pass_ok n0 true b0 ltac:(lia) Hb0) as (s0 & t0 & lab0 & regs0 & b0' & E0 & O0 & B0). specialize (B0 eq_refl). cbn zeta in E0.
  destruct (pass_ok n0 false b0' ltac:(lia) B0) as (s1 & t1 & lab1 & regs1 & b1' & E1 & O1 & _).
  exists (ot_out t0), (if bright then ot_out t1 else []). split; [by eapply pass_good|]. split.
  { destruct bright; [by eapply pass_good|done]. }
  intros n b Hn Hb. unfold ocv_call.
  destruct (pass_ok n true b Hn Hb) as (s2 & t2 & lab2 & regs2 & b2' & E2 & O2 & B2). specialize (B2 eq_refl). rewrite E2.
  pose proof (pass_more src rows cols 0 P n0 n true b0 _ ltac:(lia) E0) as E0'.
  pose proof (pass_same n true b0 b Hn Hb0 Hb _ _ _ _ _ _ E0' E2) as <-.
  destruct bright; [|done]. cbn [negb].
  destruct (pass_ok n false b2' Hn B2) as (s3 & t3 & lab3 & regs3 & b3' & E3 & O3 & _). rewrite E3.
  pose proof (pass_more src rows cols 255 P n0 n false b0' _ ltac:(lia) E1) as E1'.
  by pose proof (pass_same n false b0' b2' Hn B0 B2 _ _ _ _ _ _ E1' E3) as <-.
Qed.
End call.
