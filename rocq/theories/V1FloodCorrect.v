(* make_tree_patch of Fast MSER V1 builds the component tree of a partition, with the
   pixels of every region a stretch of one linked list, in both passes. *)
From stdpp Require Import sorting relations functions list.
From Coq Require Import NArith ZArith.
From Verif Require Import Spec TreeSpec FloodAbs FloodAbsInv FloodAbsProof Grid FloodModel
  FloodRefine FloodInit FloodTree FloodCorrect LinkedModel LinkedHeap LinkedInit V1JoinModel V1Model V1FloodLists V1FloodRefine
  V1FloodInit.
Local Open Scope nat_scope.

(* ---------- stretches of lists ---------- *)
Lemma nodup_split {A} (i : A) X Y X' Y' : NoDup (X ++ i :: Y) -> X ++ i :: Y = X' ++ i :: Y' -> X = X' /\ Y = Y'.
Proof.
  revert X'. induction X as [|x X IH]; intros [|x' X'] Hn He; cbn in *.
  - injection He as ->. done.
  - injection He as -> ->. apply NoDup_cons in Hn as [Hn _]. destruct Hn. apply elem_of_app. right. apply elem_of_cons. auto.
  - injection He as -> <-. apply NoDup_cons in Hn as [Hn _]. destruct Hn. apply elem_of_app. right. apply elem_of_cons. auto.
  - injection He as <- He. apply NoDup_cons in Hn as [_ Hn]. destruct (IH _ Hn He) as [-> ->]. done.
Qed.
Lemma stretch_nest {A} (L A1 S1 B1 A2 S2 B2 : list A) : NoDup L -> L = A1 ++ S1 ++ B1 -> L = A2 ++ S2 ++ B2 ->
  S2 <> [] -> (forall x, x ∈ S2 -> x ∈ S1) -> exists X Y, S1 = X ++ S2 ++ Y.
Proof.
  intros Hn E1 E2 Hne Hsub. destruct S2 as [|i S2]; [done|].
  destruct (elem_of_list_split S1 i) as (X & Y & ->). { apply Hsub. apply elem_of_cons. auto. }
  assert (L = (A1 ++ X) ++ i :: (Y ++ B1)) as E3. { rewrite E1. rewrite <-!app_assoc. done. }
  rewrite E3 in Hn, E2. cbn [app] in E2. destruct (nodup_split _ _ _ _ _ Hn E2) as [_ E4].
  apply app_eq_app in E4 as (k & [[E5 E6]|[E5 E6]]).
  - exists X, k. by rewrite E5.
  - destruct k as [|j k].
    + rewrite app_nil_r in E5. subst S2. exists X, []. by rewrite app_nil_r.
    + exfalso. apply NoDup_app in Hn as (_ & Hd & Hn2). apply NoDup_cons in Hn2 as [Hi Hn2].
      apply NoDup_app in Hn2 as (_ & Hd2 & _).
      assert (j ∈ B1) as Hj. { rewrite E6. apply elem_of_cons. auto. }
      assert (j ∈ X ++ i :: Y) as Hj2. { apply Hsub. apply elem_of_cons. right. rewrite E5. apply elem_of_app. right. apply elem_of_cons. auto. }
      apply elem_of_app in Hj2 as [Hj2|Hj2].
      * apply (Hd j); [apply elem_of_app; auto|]. apply elem_of_cons. right. apply elem_of_app. auto.
      * apply elem_of_cons in Hj2 as [->|Hj2]; [apply Hi; apply elem_of_app; auto|]. by apply (Hd2 j).
Qed.
Lemma fseg_stretch kp v S' : forall i a A B, ldl kp v a (A ++ i :: B) -> fseg kp v (i :: S') ->
  exists B', i :: B = (i :: S') ++ B'.
Proof.
  induction S' as [|j S' IH]; intros i a A B HL HF.
  - exists B. done.
  - cbn [fseg] in HF. destruct HF as [[?|(p & Hv)] HF]; [done|]. cbn [head] in Hv.
    assert (exists a', ldl kp v a' (i :: B)) as (a' & Hi & HB).
    { clear -HL. revert a HL. induction A as [|x A IHA]; intros a HL; [eauto|]. destruct HL as [_ HL]. eauto. }
    rewrite Hi in Hv. injection Hv as Hb _. destruct B as [|j' B]; [done|]. cbn in Hb. injection Hb as ->.
    destruct (IH j (Some i) [] B HB HF) as (B' & E). exists B'. rewrite E. done.
Qed.

Section vt.
Context (cols top left w h kp : nat) (gray : nat -> nat) (hl hr ht hb : bool).
Notation V := (rect_view cols top left w h gray).
Notation xy := (vxy cols).

(* what flooding a partition leaves behind: aregs, the tree; lab, the region of each
   pixel; dn, the pixel held by each entry of m_linked_points; seg, the entries of each region *)
Record vtree_ok (regs : list wreg) (pts : list wpt) (tab : vtab)
  (aregs : list areg) (lab : nat -> nat) (dn : list nat) (seg : nat -> list nat) : Prop := {
  vt_tree : ctree V lab (table_of (convr kp aregs));
  vt_len : length regs = length aregs;
  vt_reg : forall r b a, regs !! r = Some b -> aregs !! r = Some a ->
    w_gray b = rg a /\ w_par b = pair kp <$> rpar a /\ w_flag b = 0 /\ w_patch b = kp /\
    w_size b = Z.of_nat (length (rl a)) /\ w_un b = Z.of_nat (length (rl a)) /\
    (exists i p, head (seg r) = Some i /\ w_head b = Some (kp, i) /\ dn !! i = Some p /\ gray p = rg a) /\
    (exists z, last (seg r) = Some z /\ w_tail b = Some (kp, z)) /\
    Forall2 (holds dn) (seg r) (rl a) /\
    pbox xy (w_left b) (w_right b) (w_top b) (w_bot b) (rl a);
  vt_nodup : forall r, NoDup (seg r);
  vt_mem : forall r a i, aregs !! r = Some a -> i ∈ seg r <->
    exists p, dn !! i = Some p /\ vunder (table_of (convr kp aregs)) (lab p) r;
  vt_nest : forall r y a b, aregs !! r = Some a -> aregs !! y = Some b ->
    vunder (table_of (convr kp aregs)) y r -> exists A B, seg r = A ++ seg y ++ B;
  vt_chain : forall r a, aregs !! r = Some a -> rpar a = None -> ldl kp (wvw pts) None (seg r);
  vt_dup : NoDup dn;
  vt_dn : forall p, p ∈ dn <-> in_rect cols top left w h p;
  vt_pt : ptok xy dn pts;
  vt_room : w * h <= length pts;
  vt_tab : tabok cols top left w h kp hl hr ht hb (fun p => PD (lab p)) tab;
  vt_few : length aregs <= w * h
}.

Context (Hw : 0 < w) (Hh : 0 < h) (Hfit : left + w <= cols).
Notation G := (rect_graph cols top left w h gray).

(* the entries of a region: any list with the links and pixels asked for *)
Lemma seg_exists (aregs : list areg) regs dn v : Forall2 (vrrel kp xy gray dn v) aregs regs ->
  (forall r x, aregs !! r = Some x -> rl x <> []) ->
  exists seg : nat -> list nat, forall r a b, aregs !! r = Some a -> regs !! r = Some b ->
    w_size b = Z.of_nat (length (rl a)) /\ w_un b = Z.of_nat (length (rl a)) /\
    w_head b = pair kp <$> head (seg r) /\ w_tail b = pair kp <$> last (seg r) /\
    (exists p, head (rl a) = Some p /\ gray p = rg a) /\
    fseg kp v (seg r) /\ Forall2 (holds dn) (seg r) (rl a) /\
    pbox xy (w_left b) (w_right b) (w_top b) (w_bot b) (rl a).
Proof using.
  induction 1 as [|a b aregs regs Hab _ IH]; intros Hne.
  - exists (fun _ => []). by intros r a b [=].
  - destruct IH as (seg & IH). { intros r x Hx. by apply (Hne (S r)). }
    destruct Hab as (_ & _ & _ & _ & [E|(L & HL)]). { by destruct (Hne 0 a eq_refl). }
    exists (fun r => match r with O => L | S r' => seg r' end). intros [|r] a' b' Ha Hb; cbn in Ha, Hb.
    + injection Ha as <-. injection Hb as <-. exact HL.
    + by apply IH.
Qed.

Lemma vtree_intro aregs regs dn pts tab lab L :
  gray_bound G -> tree_of G lab aregs ->
  Forall2 (vrrel kp xy gray dn (wvw pts)) aregs regs ->
  (forall r x, aregs !! r = Some x -> rl x <> []) ->
  ptok xy dn pts -> NoDup dn -> (forall p, p ∈ dn <-> p ∈ g_nodes G) ->
  ldl kp (wvw pts) None L -> L ≡ₚ seq 0 (length dn) ->
  tabok cols top left w h kp hl hr ht hb (fun p => PD (lab p)) tab -> w * h <= length pts ->
  exists seg, vtree_ok regs pts tab aregs lab dn seg.
Proof using All.
  intros Hgb HT HR Hne Hpt Hnd Hdn HL HLp Htab Hroom.
  destruct (tree_ctree cols top left w h gray Hfit kp lab aregs Hgb HT) as [HC HRoot].
  destruct (seg_exists _ _ _ _ HR Hne) as (seg0 & Hs).
  set (seg := fun r => match aregs !! r with Some _ => seg0 r | None => [] end).
  assert (forall r a b, aregs !! r = Some a -> regs !! r = Some b ->
    w_size b = Z.of_nat (length (rl a)) /\ w_un b = Z.of_nat (length (rl a)) /\
    w_head b = pair kp <$> head (seg r) /\ w_tail b = pair kp <$> last (seg r) /\
    (exists p, head (rl a) = Some p /\ gray p = rg a) /\
    fseg kp (wvw pts) (seg r) /\ Forall2 (holds dn) (seg r) (rl a) /\
    pbox xy (w_left b) (w_right b) (w_top b) (w_bot b) (rl a)) as Hseg.
  { intros r a b Ha Hb. unfold seg. rewrite Ha. by apply Hs. }
  clear Hs.
  assert (forall r a, aregs !! r = Some a -> exists b, regs !! r = Some b) as Hreg.
  { intros r a Ha. destruct (Forall2_lookup_l _ _ _ _ _ HR Ha) as (b & Hb & _). eauto. }
  assert (NoDup L) as HLn. { rewrite HLp. apply NoDup_seq. }
  assert (forall r a i, aregs !! r = Some a -> i ∈ seg r <-> exists p, dn !! i = Some p /\ p ∈ rl a) as Hin.
  { intros r a i Ha. destruct (Hreg r a Ha) as (b & Hb).
    destruct (Hseg r a b Ha Hb) as (_ & _ & _ & _ & _ & _ & HF & _). split.
    - intros Hi. apply elem_of_list_lookup in Hi as [j Hj].
      destruct (Forall2_lookup_l _ _ _ _ _ HF Hj) as (p & Hp & Hd). exists p. split; [done|].
      by eapply elem_of_list_lookup_2.
    - intros (p & Hd & Hp). apply elem_of_list_lookup in Hp as [j Hj].
      destruct (Forall2_lookup_r _ _ _ _ _ HF Hj) as (i' & Hi' & Hd').
      assert (i' = i) as ->. { exact (NoDup_lookup _ _ _ _ Hnd Hd' Hd). } by eapply elem_of_list_lookup_2. }
  assert (forall r a i, aregs !! r = Some a -> i ∈ seg r <->
    exists p, dn !! i = Some p /\ vunder (table_of (convr kp aregs)) (lab p) r) as Hmem.
  { intros r a i Ha. rewrite (Hin r a i Ha). destruct (to_mem _ _ _ HT r a Ha) as [_ Hm].
    split; intros (p & Hd & Hp); exists p; (split; [done|]).
    - rewrite vunder_convr. by apply Hm.
    - apply Hm. split; [|by rewrite vunder_convr in Hp]. apply Hdn. by eapply elem_of_list_lookup_2. }
  assert (forall r, NoDup (seg r)) as Hsd.
  { intros r. unfold seg. destruct (aregs !! r) as [a|] eqn:Ha; [|constructor].
    destruct (Hreg r a Ha) as (b & Hb). destruct (Hseg r a b Ha Hb) as (_ & _ & _ & _ & _ & _ & HF & _).
    unfold seg in HF. rewrite Ha in HF. destruct (to_mem _ _ _ HT r a Ha) as [Hn _].
    apply NoDup_alt. intros i j x Hi Hj.
    destruct (Forall2_lookup_l _ _ _ _ _ HF Hi) as (p & Hp & Hd).
    destruct (Forall2_lookup_l _ _ _ _ _ HF Hj) as (q & Hq & Hd'). unfold holds in *.
    assert (p = q) as -> by congruence. eapply NoDup_lookup; eauto. }
  assert (forall r a, aregs !! r = Some a -> seg r <> []) as Hsne.
  { intros r a Ha. destruct (Hreg r a Ha) as (b & Hb). destruct (Hseg r a b Ha Hb) as (_ & _ & _ & _ & _ & _ & HF & _).
    intros E. rewrite E in HF. inversion HF as [E2|]. by destruct (Hne r a Ha). }
  assert (forall r a, aregs !! r = Some a -> exists A B, L = A ++ seg r ++ B) as Hstr.
  { intros r a Ha. destruct (Hreg r a Ha) as (b & Hb). destruct (Hseg r a b Ha Hb) as (_ & _ & _ & _ & _ & HF & _).
    pose proof (Hsne r a Ha) as Hn1. destruct (seg r) as [|i S'] eqn:Es; [done|].
    assert (i ∈ L) as Hi.
    { rewrite HLp, elem_of_seq. assert (i ∈ seg r) as Hi by (rewrite Es; apply elem_of_cons; auto).
      apply (Hin r a i Ha) in Hi as (p & Hp & _). apply lookup_lt_Some in Hp. lia. }
    apply elem_of_list_split in Hi as (A & B & EL). rewrite EL in HL.
    destruct (fseg_stretch _ _ _ _ _ _ _ HL HF) as (B' & EB). exists A, B'. by rewrite EL, EB. }
  exists seg. constructor; auto.
  - by rewrite (Forall2_length _ _ _ HR).
  - intros r b a Hb Ha. pose proof (Forall2_lookup_lr _ _ _ _ _ _ HR Ha Hb) as (R1 & R2 & R3 & R4 & _).
    destruct (Hseg r a b Ha Hb) as (Q1 & Q2 & Q3 & Q4 & (p & Q5 & Q6) & Q7 & Q8 & Q9).
    pose proof (Hsne r a Ha) as Hn1. split_and!; auto.
    + destruct (seg r) as [|i S'] eqn:Es; [done|]. destruct (rl a) as [|p' l]; [done|].
      injection Q5 as ->. inversion Q8; subst. exists i, p. split_and!; auto.
    + destruct (last (seg r)) as [z|] eqn:Ez; [|by apply last_None in Ez]. exists z. auto.
  - intros r y a b Ha Hb Hu. destruct (Hstr r a Ha) as (A1 & B1 & E1), (Hstr y b Hb) as (A2 & B2 & E2).
    eapply stretch_nest; eauto. intros i Hi. apply (Hmem y b i Hb) in Hi as (p & Hp & Hup).
    apply (Hmem r a i Ha). exists p. split; [done|]. by eapply rtc_transitive.
  - intros r a Ha Hp. destruct (Hstr r a Ha) as (A & B & E).
    assert (forall i, i ∈ L -> i ∈ seg r) as Hall.
    { intros i Hi. rewrite HLp, elem_of_seq in Hi. destruct (lookup_lt_is_Some_2 dn i) as [p Hp']; [lia|].
      apply (Hmem r a i Ha). exists p. split; [done|].
      assert (in_rect cols top left w h p) as Hpr. { apply (in_rect_nodes cols top left w h gray Hfit). apply Hdn. by eapply elem_of_list_lookup_2. }
      destruct (ct_lab _ _ _ HC p Hpr) as (x & Hx & _).
      destruct (ct_acyc _ _ _ HC _ _ Hx) as (t & y & Hut & Hy & Hyn).
      destruct HRoot as (r0 & _ & Hr0).
      assert (t = r) as ->; [|done]. transitivity r0; [by eapply Hr0|].
      symmetry. eapply (Hr0 r). { rewrite table_convr, Ha. done. } done. }
    rewrite E in HLn, Hall. destruct A as [|x A].
    + destruct B as [|x B]; [cbn in E; rewrite app_nil_r in E; by rewrite <-E|].
      exfalso. cbn in HLn. apply NoDup_app in HLn as (_ & Hd & _). apply (Hd x).
      * apply Hall. cbn. apply elem_of_app. right. apply elem_of_cons. auto.
      * apply elem_of_cons. auto.
    + exfalso. cbn in HLn. apply NoDup_cons in HLn as [Hx _]. apply Hx. apply elem_of_app. right.
      apply elem_of_app. left. apply Hall. cbn. apply elem_of_cons. auto.
  - intros p. rewrite Hdn. symmetry. by apply in_rect_nodes.
  - assert (seq 0 (length aregs) ⊆+ lab <$> g_nodes G) as Hsub.
    { apply NoDup_submseteq; [apply NoDup_seq|]. intros r Hr%elem_of_seq.
      destruct (lookup_lt_is_Some_2 aregs r) as [a Ha]; [lia|].
      destruct (to_own _ _ _ HT r a Ha) as (p & Hp & Hlab). apply elem_of_list_fmap. eauto. }
    apply submseteq_length in Hsub. rewrite seq_length, fmap_length in Hsub. cbn [g_nodes rect_graph] in Hsub.
    rewrite length_rect in Hsub. lia.
Qed.
End vt.

(* SPEC: the image holds the rectangle, its samples are bytes, coordinates fit 16 bits *)
Record vpatch_fits (img : list N) (cols top left w h : nat) : Prop := {
  vp_w : 0 < w; vp_h : 0 < h; vp_cols : left + w <= cols;
  vp_img : (top + h) * cols <= length img;
  vp_byte : forall i v, img !! i = Some v -> (v < 256)%N;
  vp_16w : left + w <= 2 ^ 16; vp_16h : top + h <= 2 ^ 16
}.

Section vpass.
Context (img : list N) (cols top left w h kp : nat) (hl hr ht hb : bool).
Context (HP : vpatch_fits img cols top left w h).
Notation gid := (gid cols top left).
Notation pid := (pid w).
Notation nodes := (rect_nodes cols top left w h).
Notation k := (vcfg4 kp left top w h).
Notation phi := (phi cols top left w).
Notation vd gr := (vbuf_done cols top left w h gr hl hr ht hb).

Lemma vimg_at r c : r < h -> c < w -> img !! gid r c = Some (nth (gid r c) img 0%N) /\ (nth (gid r c) img 0 < 256)%N.
Proof using HP.
  destruct HP as [? ? ? Hi Hb ? ?]. intros Hr Hc. destruct (lookup_lt_is_Some_2 img (gid r c)) as [v Hv].
  - unfold Grid.gid. nia.
  - rewrite (nth_lookup_Some _ _ _ _ Hv). eauto.
Qed.
Lemma vlevel_lt gm : gm = 0%N \/ gm = 255%N -> forall p, p ∈ nodes -> level img gm p < 256.
Proof using HP.
  intros Hgm p Hp. apply elem_rect in Hp as (r & c & Hr & Hc & ->). destruct (vimg_at r c Hr Hc) as [_ Hb].
  unfold level. destruct Hgm as [-> | ->]; [rewrite N.lxor_0_r|rewrite lxor_byte by auto]; lia.
Qed.
Lemma vlevel_neg p : p ∈ nodes -> level img 255 p = 255 - level img 0 p.
Proof using HP.
  intros Hp. apply elem_rect in Hp as (r & c & Hr & Hc & ->). destruct (vimg_at r c Hr Hc) as [_ Hb].
  unfold level. rewrite N.lxor_0_r. by apply lxor_byte.
Qed.

Lemma vflood_end gm gr n b b1 : gm = 0%N \/ gm = 255%N ->
  (forall p, p ∈ nodes -> gr p = level img gm p) -> misses_level img gm cols top left w h ->
  vbuf_ok w h hl hr ht hb b -> vpready cols top left w h gr hl hr ht hb b b1 -> 6 * (w * h) < n ->
  exists s s' aregs lab dn seg, vkinit k b1 = VNext s /\ vkrun k n s = VHalt s' /\
    vtree_ok cols top left w h kp (level img gm) hl hr ht hb (z_regs s') (z_pts s') (z_tab s') aregs lab dn seg /\
    vd gr (VBuf (z_img s') (z_heap s') (z_hs s') (vb_lvl b1) (z_pts s') (z_tab s')).
Proof using HP.
  intros Hgm Hgr (v & Hv & Hmiss) [B1 B2 B3 B4 B5 B6 B7 B8 B9] (P1 & P2 & P3 & P4 & P5 & P6 & P7) Hn.
  pose proof HP as [Hw Hh Hfit Himg Hbyte H16w H16h].
  set (L := filter (fun x => x <> v) (seq 0 256)).
  assert (gray_bound (rect_graph cols top left w h gr)) as Hgb.
  { intros p Hp. cbn [g_gray rect_graph]. rewrite Hgr by auto. pose proof (vlevel_lt gm Hgm p Hp). lia. }
  assert (length L <= 255) as HL1.
  { assert (length L < length (seq 0 256)) as Hlt.
    { apply (filter_length_lt _ _ v). { apply elem_of_seq. lia. } intros Hne. by apply Hne. }
    rewrite seq_length in Hlt. lia. }
  assert (forall p, p ∈ g_nodes (rect_graph cols top left w h gr) -> gr p ∈ L) as HL2.
  { intros p Hp. apply elem_of_list_filter. rewrite Hgr by auto. split.
    - apply Hmiss. by apply in_rect_nodes with (gray := gr).
    - apply elem_of_seq. pose proof (vlevel_lt gm Hgm p Hp). lia. }
  assert (forall g, length (filter (fun p => gr p = g) nodes) <= cap_of (vb_lvl b1) g) as Hcap.
  { intros g. unfold cap_of. destruct (decide (g < 256)) as [Hg|Hg]; [by rewrite P4|].
    destruct (filter (fun p => gr p = g) nodes) as [|p l] eqn:E; [cbn; lia|]. exfalso.
    assert (p ∈ filter (fun p => gr p = g) nodes) as Hp by (rewrite E; apply elem_of_cons; auto).
    apply elem_of_list_filter in Hp as [Hp1 Hp2]. rewrite Hgr in Hp1 by auto. pose proof (vlevel_lt gm Hgm p Hp2). lia. }
  assert (vready cols top left w h kp gr hl hr ht hb (base_of (vb_lvl b1)) b1) as Hready.
  { split_and!; auto.
    - intros p Hp. apply elem_rect in Hp as (r & c & Hr & Hc & ->).
      rewrite (phi_gid cols top left w Hfit) by auto.
      rewrite P2 by (unfold FloodRefine.pid, FloodRefine.plen; nia).
      rewrite vwant_pid by auto. f_equal. f_equal. unfold seam.
      by rewrite (gid_row _ _ _ w), (gid_col _ _ _ w).
    - intros x Hx. rewrite P2 by apply Hx. by rewrite vwant_border.
    - rewrite P6. done.
    - rewrite P7. clear -B6 B7 B8 B9.
      assert (forall has m f t, side_alloc has m t -> sideok kp (fun _ => PU) has m f t) as Hs.
      { intros has m f [l|]; cbn; [|done]. intros [-> ->]. split_and!; auto. intros i r _ [=]. }
      constructor; by apply Hs. }
  destruct (vflood_refined cols top left w h kp gr Hw Hh Hfit H16w H16h hl hr ht hb Hgb L HL1 HL2
    (cap_of (vb_lvl b1)) (base_of (vb_lvl b1)) (base_of_S (vb_lvl b1)) Hcap b1 n Hready Hn)
    as (s & s' & a & dn & Lc & E1 & E2 & Ha & HT & HR & Hne & Hpt & Hnd & Hdn & HLc & HLp & Htab & Hil & Hiw & Hib & Hheap & Hroom).
  destruct (vtree_intro cols top left w h kp gr hl hr ht hb Hw Hh Hfit (a_regs a) (z_regs s') dn (z_pts s') (z_tab s')
    (labof (a_px a)) Lc) as (seg & Hok); auto.
  exists s, s', (a_regs a), (labof (a_px a)), dn, seg. split; [done|]. split; [done|]. split.
  - destruct Hok as [V1 V2 V3 V4 V5 V6 V7 V8 V9 V10 V11 V12 V13]. constructor; auto.
    + eapply ctree_ext; [exact V1| | |]; auto. intros p Hp. apply Hgr. by apply (in_rect_nodes cols top left w h gr Hfit).
    + intros r b2 a2 Hb2 Ha2. destruct (V3 r b2 a2 Hb2 Ha2) as (Q1 & Q2 & Q3 & Q4 & Q5 & Q6 & (i & p & Q7 & Q8 & Q9 & Q10) & Q11 & Q12 & Q13).
      split_and!; auto. exists i, p. split_and!; auto. rewrite <-Q10. symmetry. apply Hgr. apply Hdn. by eapply elem_of_list_lookup_2.
  - destruct Hheap as (K1 & K2 & K3). constructor; cbn [vb_img vb_heap vb_hs vb_lvl vb_pts vb_tab]; auto.
    constructor; cbn [vb_img vb_heap vb_hs vb_lvl vb_pts vb_tab]; auto.
    + rewrite K2. unfold base_of.
      assert (sum_list (map (cap_of (vb_lvl b1)) (seq 0 256)) = w * h) as ->; [|lia].
      rewrite <-(length_rect cols top left w h), <-(lcount_sum gr nodes 256).
      * f_equal. apply map_ext_in. intros g Hg. apply in_seq in Hg. unfold cap_of. by rewrite P4 by lia.
      * intros p Hp. rewrite Hgr by done. by apply (vlevel_lt gm).
    + destruct (K3 0 ltac:(lia)) as [-> _]. done.
    + destruct Htab as [T1 _ _ _]. clear -T1. destruct (tb_l (z_tab s')); cbn in *; tauto.
    + destruct Htab as [_ T1 _ _]. clear -T1. destruct (tb_r (z_tab s')); cbn in *; tauto.
    + destruct Htab as [_ _ T1 _]. clear -T1. destruct (tb_t (z_tab s')); cbn in *; tauto.
    + destruct Htab as [_ _ _ T1]. clear -T1. destruct (tb_b (z_tab s')); cbn in *; tauto.
Qed.

Lemma gid00 : top * cols + left = gid 0 0.
Proof using. unfold Grid.gid. lia. Qed.

(* first pass over fresh buffers, either polarity *)
Lemma vfresh_pass gm n b : gm = 0%N \/ gm = 255%N -> misses_level img gm cols top left w h ->
  vbuf_ok w h hl hr ht hb b -> 6 * (w * h) < n ->
  exists regs b' aregs lab dn seg, vmake_tree n k true gm img cols b = VTree regs b' /\
    vtree_ok cols top left w h kp (level img gm) hl hr ht hb regs (vb_pts b') (vb_tab b') aregs lab dn seg /\
    vd (level img gm) b'.
Proof using HP.
  intros Hgm Hm Hb Hn. pose proof HP as [Hw Hh Hfit Himg Hbyte H16w H16h].
  unfold vmake_tree. cbn [v_lc v_top v_left vcfg4]. rewrite gid00.
  destruct (vprocess_fresh_ok cols top left w h gm img (level img gm) Hw Hh Hfit hl hr ht hb) with (b := b)
    as (b1 & -> & Hr); auto.
  { intros r c Hr Hc. destruct (vimg_at r c Hr Hc) as [Hi Hb2]. eexists. split; [exact Hi|].
    unfold level. destruct Hgm as [-> | ->].
    - cbn [N.eqb]. rewrite N.lxor_0_r. split; lia.
    - cbn [N.eqb]. rewrite lxor_byte by auto. split; lia. }
  destruct (vflood_end gm (level img gm) n b b1) as (s & s' & aregs & lab & dn & seg & -> & -> & Hok & Hd); auto.
  eexists _, _, aregs, lab, dn, seg. split; [done|]. split; auto.
Qed.

(* bright pass on the buffers of a dark one *)
Lemma vreuse_pass n b : misses_level img 255 cols top left w h ->
  vd (level img 0) b -> 6 * (w * h) < n ->
  exists regs b' aregs lab dn seg, vmake_tree n k false 255 img cols b = VTree regs b' /\
    vtree_ok cols top left w h kp (level img 255) hl hr ht hb regs (vb_pts b') (vb_tab b') aregs lab dn seg.
Proof using HP.
  intros Hm Hb Hn. pose proof HP as [Hw Hh Hfit Himg Hbyte H16w H16h].
  unfold vmake_tree. cbn [v_lc v_top v_left vcfg4]. rewrite gid00.
  destruct (vprocess_reuse_ok cols top left w h img (level img 0) Hw Hh Hfit hl hr ht hb) with (b := b) (gm := 255%N)
    as (b1 & -> & Hr); auto.
  { apply (vlevel_lt 0). auto. }
  destruct (vflood_end 255 (fun p => 255 - level img 0 p) n b b1) as (s & s' & aregs & lab & dn & seg & -> & -> & Hok & Hd); auto.
  { intros p Hp. symmetry. by apply vlevel_neg. }
  { apply Hb. }
  eexists _, _, aregs, lab, dn, seg. split; [done|]. done.
Qed.
End vpass.
