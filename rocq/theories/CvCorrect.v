(* A channel of a CV-MSER+ call: tree, recognition and extraction together. *)
From stdpp Require Import sorting relations functions list_numbers list.
From Coq Require Import NArith ZArith SpecFloat.
From Verif Require Import Spec TreeSpec TreeFacts JoinMath JoinCorrect FloodAbs FloodAbsInv FloodAbsProof Grid FloodModel FloodRefine FloodInit FloodTree FloodCorrect
  ConnectModel ConnectProof FloatModel FloatFacts RectModel RecogModel RecogSpec RecogStatic RecogSerial RecogOrder DupAbs RecogDup RecogTree RecogCompose RecogFinal RecogTransport
  RecogResults RunCorrect LinkedModel LinkedHeap LinkedLists LinkedRefine LinkedGrid LinkedInit LinkedCorrect CvModel CvRecog CvExtract.
Local Open Scope nat_scope.

(* SPEC: the arrays a channel leaves behind keep their sizes *)
Definition fair_dirt (c : cvchan) : Prop := forall h, length (cc_dirt c h) = length h.
(* SPEC: at most 2^31 / 256 pixels *)
Definition cv_modest (w h : nat) : Prop := (Z.of_nat (w * h) * 256 < 2 ^ 31)%Z.

(* the list of reported regions *)
Definition cvl (F : forest) (P : rparam) : list rref :=
  if fgt (p_dup P) fzero then reported F P One else CL F (flags F P One).

Section corr.
Context (e : bool) (src : list N) (gm : N) (step w h : nat).
Context (HF : limg_fits src step w h) (Hgm : gm = 0%N \/ gm = 255%N) (Hmod : cv_modest w h).
Notation lv := (level src gm).
Notation V := (lview e step w h lv).
Notation G := (lgraph step w h (ldeg e) (dnbr e step w h) lv).

Lemma lview_sym : vsym V.
Proof.
  intros p q. cbn [vw_adj lview]. unfold adj4, adj8. destruct e; [|lia]. intros [H1 H2]. split; [congruence|lia].
Qed.
Lemma lview_connected : vconnected V.
Proof.
  pose proof (lf_step _ _ _ _ HF) as Hfit. intros p q Hp Hq.
  apply (lin_rect e step w h lv Hfit) in Hp, Hq.
  pose proof (lconnected e step w h lv Hfit p q Hp Hq) as Hpath. clear Hq.
  induction Hpath as [x|x y z Hxy _ IH]; [apply rtc_refl|].
  assert (adj G x y) as Hxy' by done.
  apply (ladj_view e step w h lv Hfit) in Hxy' as [Hy Ha]; auto.
  eapply rtc_l; [|by apply IH]. split; [by apply (lin_rect e step w h lv Hfit)|].
  split; auto. by apply (lin_rect e step w h lv Hfit).
Qed.
Lemma lview_card : card_is (vw_in V) (w * h).
Proof.
  pose proof (lf_step _ _ _ _ HF) as Hfit. exists (rect_nodes step 0 0 w h).
  split; [by apply NoDup_rect|]. split; [intros p; by rewrite (lin_rect e step w h lv Hfit p)|].
  apply length_rect.
Qed.

Section tree.
Context (regs : list lreg) (lab : nat -> nat).
Context (HT : ctree V lab (ltable regs)) (H0 : forall i a, regs !! i = Some a -> n_flag a = 0 /\ n_gray a < 256).
Context (Hlen : length regs <= w * h) (Hsz : forall i a, regs !! i = Some a -> is_Some (n_size a)).
Notation F := (fo regs).
Notation lab2 := (fun p => (0, lab p)).

Lemma tab_fo k i : tab F (k, i) = if decide (k = 0) then (fun v => VReg (v_gray v) (v_live v) (v_size v) (pair 0 <$> v_par v)) <$> ltable regs i else None.
Proof.
  unfold tab, ltable. destruct (decide (k = 0)) as [->|Hne].
  - rewrite fo_get. destruct (regs !! i) as [a|] eqn:Ea; [|done]. cbn. unfold vr, conv. cbn. by rewrite (proj1 (H0 i a Ea)).
  - unfold fget. cbn [fst]. destruct k; [done|]. done.
Qed.
Lemma tab_inv z a : tab F z = Some a -> exists i v, z = (0, i) /\ ltable regs i = Some v /\ a = VReg (v_gray v) (v_live v) (v_size v) (pair 0 <$> v_par v).
Proof.
  destruct z as [k i]. rewrite tab_fo. destruct (decide (k = 0)) as [->|]; [|done].
  destruct (ltable regs i) as [v|] eqn:E; [|done]. intros [= <-]. exists i, v. done.
Qed.
Lemma tab_at i v : ltable regs i = Some v -> tab F (0, i) = Some (VReg (v_gray v) (v_live v) (v_size v) (pair 0 <$> v_par v)).
Proof. intros E. rewrite tab_fo, decide_True by done. by rewrite E. Qed.
Lemma vup_fo x y : vup (tab F) x y <-> exists i j, x = (0, i) /\ y = (0, j) /\ vup (ltable regs) i j.
Proof.
  split.
  - intros (a & Ha & Hp). destruct (tab_inv x a Ha) as (i & v & -> & Hv & ->). cbn in Hp.
    destruct (v_par v) as [j|] eqn:Ej; [|done]. injection Hp as <-. exists i, j. split; auto. split; auto. exists v. auto.
  - intros (i & j & -> & -> & v & Hv & Hj). eexists. split; [by apply tab_at|]. cbn. by rewrite Hj.
Qed.
Lemma vunder_fo i y : vunder (tab F) (0, i) y <-> exists j, y = (0, j) /\ vunder (ltable regs) i j.
Proof.
  split.
  - intros Hr. remember (0, i) as x eqn:Ex. revert i Ex. induction Hr as [x|x y z Hxy _ IH]; intros i ->.
    + exists i. split; auto. apply rtc_refl.
    + apply vup_fo in Hxy as (i' & j & [= <-] & -> & Hu). destruct (IH j eq_refl) as (k & -> & Hk). exists k. split; auto.
      eapply rtc_l; eauto.
  - intros (j & -> & Hr). induction Hr as [x|x y z Hxy _ IH]; [apply rtc_refl|]. eapply rtc_l; [|exact IH].
    apply vup_fo. eauto.
Qed.
Lemma pix_fo i p : region_pixels V lab2 (tab F) (0, i) p <-> vw_in V p /\ vunder (ltable regs) (lab p) i.
Proof.
  unfold region_pixels. rewrite vunder_fo. split; intros [Hp H]; split; auto; [|by eauto]. destruct H as (j & [= <-] & ?). done.
Qed.
Lemma ctree_fo : ctree V lab2 (tab F).
Proof.
  destruct HT as [T1 T2 T3 T4 T5 T6 T7]. constructor.
  - intros p Hp. destruct (T1 p Hp) as (a & Ha & Hg). eexists. split; [by apply tab_at|]. done.
  - intros r a t Ha Ht. destruct (tab_inv r a Ha) as (i & v & -> & Hv & ->). cbn in Ht.
    destruct (v_par v) as [j|] eqn:Ej; [|done]. injection Ht as <-. destruct (T2 i v j Hv Ej) as (b & Hb & Hlt).
    eexists. split; [by apply tab_at|]. done.
  - intros r a Ha Hl. destruct (tab_inv r a Ha) as (i & v & -> & Hv & ->). destruct (T3 i v Hv Hl) as (t & b & Ht & Hb & Hg).
    exists (0, t). eexists. cbn [v_par]. rewrite Ht. split; [done|]. split; [by apply tab_at|]. done.
  - intros r a Ha Hl. destruct (tab_inv r a Ha) as (i & v & -> & Hv & ->). destruct (T4 i v Hv Hl) as (p & Hp & Hg & Hu).
    exists p. split; auto. split; auto. apply vunder_fo. eauto.
  - intros r a p q Ha Hl Hp Hq. destruct (tab_inv r a Ha) as (i & v & -> & Hv & ->). rewrite !vunder_fo. cbn [v_gray].
    intros (j & [= <-] & Hu). rewrite <-(T5 i v p q Hv Hl Hp Hq Hu). split; [intros (j & [= <-] & ?); done|eauto].
  - intros r a Ha Hl. destruct (tab_inv r a Ha) as (i & v & -> & Hv & ->). cbn [v_size].
    eapply card_ext; [|exact (T6 i v Hv Hl)]. intros p. cbn beta. rewrite vunder_fo. split; intros [? H]; split; auto; [by eauto|].
    destruct H as (j & [= <-] & ?). done.
  - intros r a Ha. destruct (tab_inv r a Ha) as (i & v & -> & Hv & ->). destruct (T7 i v Hv) as (t & b & Ht & Hb & Hn).
    exists (0, t). eexists. split; [apply vunder_fo; eauto|]. split; [by apply tab_at|]. cbn. by rewrite Hn.
Qed.
Lemma input_fo : recog_input V lab2 F.
Proof.
  constructor; [apply lview_sym|apply lview_connected|apply ctree_fo| |].
  - exists (w * h). split; [apply lview_card|]. rewrite fo_nregs. split; [done|]. unfold cv_modest in Hmod. lia.
  - intros k i a Ha. destruct k as [|k]; [|done]. rewrite fo_get in Ha. destruct (regs !! i) as [y|] eqn:Ey; [|done].
    injection Ha as <-. destruct (H0 i y Ey). cbn. split; auto. split; [lia|]. by left.
Qed.
Lemma wfr_fo : wfr regs.
Proof.
  constructor; auto.
  - intros i a Ha. destruct (H0 i a Ha) as [-> _]. done.
  - intros i a Ha. by apply (H0 i a).
  - intros i a t Ha Ht. destruct (ct_par _ _ _ HT i (VReg (n_gray a) true (default 0 (n_size a)) (n_parent a)) t) as (b & Hb & _); auto.
    { unfold ltable. by rewrite Ha. }
    unfold ltable in Hb. destruct (regs !! t) eqn:E; [|done]. by eapply lookup_lt_Some.
Qed.
Lemma ready_fo P fuel v0 : delta_ok P -> length regs < fuel -> ready V lab2 F P fuel One (RSt F v0 (fun _ => false)).
Proof. intros Hd Hf. constructor; auto. - apply input_fo. - by rewrite fo_nregs. - done. Qed.

Lemma live_fo z : live0 F z <-> exists i, z = (0, i) /\ i < length regs.
Proof.
  split.
  - intros (a & Ha & _). destruct z as [[|k] i]; [|done]. rewrite fo_get in Ha. destruct (regs !! i) eqn:E; [|done].
    exists i. split; auto. by eapply lookup_lt_Some.
  - intros (i & -> & Hi). destruct (lookup_lt_is_Some_2 regs i Hi) as [a Ha]. exists (conv i a). rewrite fo_get, Ha. split; [done|].
    cbn. by rewrite (proj1 (H0 i a Ha)).
Qed.
Lemma cvl_live P z : z ∈ cvl F P -> live0 F z /\ flags F P One z = 0.
Proof.
  pose proof input_fo as HI. unfold cvl. destruct (fgt _ _); intros Hz.
  - apply (elem_reported V lab2 F HI P One z) in Hz. tauto.
  - by apply (elem_CL V lab2 F HI P) in Hz.
Qed.
Lemma cvl_NoDup P : NoDup (cvl F P).
Proof.
  unfold cvl. destruct (fgt _ _); [|by eapply CL_NoDup].
  apply NoDup_ListNoDup, List.NoDup_filter, NoDup_ListNoDup. by eapply CL_NoDup.
Qed.
Lemma cvl_reported P : fgt (p_dup P) fzero = true \/ fge fzero (p_dup P) = true -> cvl F P = reported F P One.
Proof.
  intros Hor. unfold cvl. destruct (fgt (p_dup P) fzero); [done|]. destruct Hor as [|Hge]; [done|].
  pose proof input_fo as HI. unfold reported.
  assert (forall (f : rref -> bool) l, (forall x, x ∈ l -> f x = true) -> List.filter f l = l) as Hall.
  { intros f l Hin. induction l as [|x l IHl]; auto. cbn. rewrite Hin by apply elem_of_list_here. f_equal. apply IHl. intros.
    apply Hin. by apply elem_of_list_further. }
  symmetry. apply Hall. intros x Hx. apply Nat.eqb_eq. apply (elem_CL V lab2 F HI P) in Hx as [Hx Hf].
  apply (keep_nonpos V lab2 F HI P (flags F P One)); auto; [apply flags_le|]. intros z Hz Hfz. by apply (flags_limits V lab2 F HI P One z Hz Hfz).
Qed.

Lemma recog_fo P fuel cap var0 : delta_ok P -> length regs < fuel -> length regs <= cap ->
  exists regs' l' ks, cv_recognize fuel P cap regs var0 = Some (regs', l', (N.of_nat (sum_list ks) mod 2 ^ 32)%N) /\
    cvl F P = pair 0 <$> l' /\ same_but regs regs' /\ Forall2 (fun x k => cv_size regs x = Some k) l' ks.
Proof.
  intros Hd Hf Hcap. pose proof input_fo as HI. set (s0 := RSt F (fun z => var0 (snd z)) (fun _ => false)).
  assert (nregs F < fuel) as Hnf by (by rewrite fo_nregs).
  destruct (candidates_ok V lab2 F HI P Hd fuel One (CBuf 0 0) s0 Hnf I eq_refl (fun _ => eq_refl)) as (s1 & l & b' & Hc & (G1 & -> & ->) & _).
  assert (exists s3, (if fgt (p_dup P) fzero then dedup fuel P s1 (CL F (flags F P One)) else no_dedup s1 (CL F (flags F P One))) =
    Some (s3, cvl F P, length (cvl F P))) as (s3 & Hdd).
  { unfold cvl. destruct (fgt (p_dup P) fzero).
    - destruct (recognize_ok V lab2 F HI P Hd fuel One (CBuf 0 0) s0 Hnf I eq_refl (fun _ => eq_refl)) as (s & Hr & _).
      cbn [recognize] in Hr. unfold recognize_serial in Hr. cbn [candidates] in Hc. rewrite Hc in Hr.
      destruct (dedup _ _ _ _) as [[[s3 l3] n3]|]; [|done]. injection Hr as <- <- <-. eauto.
    - destruct (no_dedup_ok F P (flags F P One) s1 (CL F (flags F P One)) G1) as (s3 & E & _); [|eauto].
      intros z Hz. by apply (elem_CL V lab2 F HI P) in Hz as [? _]. }
  eapply (cv_recognize_sim P fuel cap regs var0 s0); eauto.
  - lia. - apply wfr_fo. - intros i a Ha. by apply (H0 i a).
  - etrans; [|exact Hcap]. rewrite <-fo_nregs. eapply count_live; [by eapply CL_NoDup|]. intros z Hz.
    by apply (elem_CL V lab2 F HI P) in Hz as [? _].
  - intros x Hx. apply (elem_CL V lab2 F HI P) in Hx as [Hx _]. apply live_fo in Hx as (i & [= <-] & Hi). done.
Qed.
End tree.
End corr.

Lemma map_at {A B} (f : A -> B) l j : map f l !! j = f <$> l !! j.
Proof. apply (list_lookup_fmap f). Qed.
Lemma arun_halt (G : pgraph) n s a : FloodAbs.arun G n s = AHalt a -> forall m, n <= m -> FloodAbs.arun G m s = AHalt a.
Proof.
  revert s. induction n as [|n IH]; intros s H m Hm; [done|]. destruct m as [|m]; [lia|]. cbn [FloodAbs.arun] in *.
  destruct (FloodAbs.astep G s) eqn:E; try done. apply IH; auto. lia.
Qed.
Lemma arun_same (G : pgraph) n m s a b : FloodAbs.arun G n s = AHalt a -> FloodAbs.arun G m s = AHalt b -> a = b.
Proof.
  intros H1 H2. pose proof (arun_halt G n s a H1 (max n m) ltac:(lia)) as E1. pose proof (arun_halt G m s b H2 (max n m) ltac:(lia)) as E2. congruence.
Qed.
Lemma pixel_inj step p q : 0 < step -> pixel_xy step p = pixel_xy step q -> p = q.
Proof.
  unfold pixel_xy. intros Hs [= H1 H2]. apply Nat2Z.inj in H1, H2. pose proof (Nat.div_mod p step ltac:(lia)).
  pose proof (Nat.div_mod q step ltac:(lia)). rewrite H1, H2 in *. congruence.
Qed.
Lemma map_inj_list {A B} (f : A -> B) l l' : (forall x y, f x = f y -> x = y) -> map f l = map f l' -> l = l'.
Proof. intros Hf. revert l'. induction l as [|x l IH]; intros [|y l'] H; try done. cbn in H. injection H as H1 H2. f_equal; auto. Qed.
Lemma region_same regs regs' pts x g L : same_but regs regs' -> region_is regs pts x g L -> region_is regs' pts x g L.
Proof. intros [_ H] (a & Ha & H1 & H2 & H3 & H4). destruct (H x a Ha) as [f Hf]. exists (cv_flag a f). auto. Qed.

(* the result of a channel with the tree F and the pixel lists Lof *)
Definition chan_res (gm : N) (step : nat) (F : forest) (P : rparam) (Lof : rref -> list nat) : cvres :=
  let Ls := map (fun z => map (pixel_xy step) (Lof z)) (cvl F P) in
  CvRes (Some <$> concat Ls) (recs_of gm 0 (map (gray0 F) (cvl F P)) Ls).

Section chan.
Context (e : bool) (src : list N) (gm : N) (step w h : nat).
Context (HF : limg_fits src step w h) (Hgm : gm = 0%N \/ gm = 255%N) (Hmod : cv_modest w h).
Notation lv := (level src gm).
Notation V := (lview e step w h lv).
Notation G := (lgraph step w h (ldeg e) (dnbr e step w h) lv).

(* the tree of the channel, the lists of its regions, and what every run returns *)
Record channel_tree (F : forest) (lab : nat -> rref) (Lof : rref -> list nat) : Prop := {
  ch_input : recog_input V lab F;
  ch_regs : nregs F <= w * h;
  ch_list : forall z, live0 F z -> NoDup (Lof z) /\ length (Lof z) = size0 F z /\
    forall p, p ∈ Lof z <-> region_pixels V lab (tab F) z p;
  ch_cvl : forall P z, z ∈ cvl F P -> live0 F z /\ flags F P One z = 0;
  ch_nodup : forall P, NoDup (cvl F P);
  ch_rep : forall P, fgt (p_dup P) fzero = true \/ fge fzero (p_dup P) = true -> cvl F P = reported F P One;
  ch_run : forall P n b c, delta_ok P -> lbuf_ok w h b -> (ldeg e + 2) * (w * h) < n -> fair_dirt c ->
    exists b', cv_channel n (lcfgn e w h) gm src step P b c = Some (chan_res gm step F P Lof, b') /\ lbuf_ok w h b'
}.

Lemma channel_ok : exists F lab Lof, channel_tree F lab Lof.
Proof.
  pose proof HF as [Hw Hh Hfit _ _]. set (n0 := S ((ldeg e + 2) * (w * h))).
  destruct (lbuild_ok e src gm step w h HF Hgm (lalloc_buf w h 0%N) n0 (alloc_buf_ok w h _) ltac:(unfold n0; lia))
    as (regs & b' & lab & _ & HT & _ & _ & H0 & Hlen & _ & (a & Ha & Hlab & Hall) & Hlists).
  assert (forall i y, regs !! i = Some y -> is_Some (n_size y)) as Hsz.
  { intros i y Hy. destruct (Hlists i y Hy) as (l & -> & _). eauto. }
  set (F := fo regs). set (lab2 := fun p => (0, lab p)).
  set (Lof := fun z : rref => match a_regs a !! snd z with Some x => rl x | None => [] end).
  pose proof (input_fo e src gm step w h HF Hgm Hmod regs lab HT H0 Hlen Hsz) as HI.
  (* other runs build the same table *)
  assert (forall n b, lbuf_ok w h b -> (ldeg e + 2) * (w * h) < n ->
    exists regs1 b1, lbuild n (lcfgn e w h) gm src step b = LTree regs1 b1 /\ lbuf_ok w h b1 /\ fo regs1 = F /\ ctree V lab (ltable regs1) /\
      length regs1 = length regs /\
      (forall i y, regs1 !! i = Some y -> n_flag y = 0 /\ n_gray y < 256) /\ (forall i y, regs1 !! i = Some y -> is_Some (n_size y)) /\
      forall i y, regs1 !! i = Some y -> exists x, a_regs a !! i = Some x /\ n_size y = Some (length (rl x)) /\
        lwalk (lb_pts b1) (n_head y) (length (rl x)) = Some (map (pixel_xy step) (rl x)) /\
        NoDup (rl x) /\ forall p, p ∈ rl x <-> vw_in V p /\ vunder (ltable regs1) (lab p) i) as Hrun.
  { intros n b Hb Hn. destruct (lbuild_ok e src gm step w h HF Hgm b n Hb Hn)
      as (regs1 & b1 & lab1 & E1 & HT1 & _ & _ & H01 & Hlen1 & Hb1 & (a1 & Ha1 & Hlab1 & Hall1) & Hlists1).
    assert (a1 = a) as -> by (by eapply arun_same). rewrite <-Hlab in Hlab1. subst lab1.
    assert (length regs1 = length regs) as Hll.
    { rewrite <-(Forall2_length _ _ _ Hall1). apply (Forall2_length _ _ _ Hall). }
    assert (fo regs1 = F) as HFo.
    { unfold F, fo. f_equal. apply list_eq. intros i. rewrite !list_lookup_imap.
      destruct (regs1 !! i) as [y1|] eqn:E2.
      - destruct (Forall2_lookup_r _ _ _ _ _ Hall1 E2) as (x & Hx & R1 & R2 & R3 & _).
        destruct (Forall2_lookup_l _ _ _ _ _ Hall Hx) as (y & Hy & S1 & S2 & S3 & _). rewrite Hy. cbn. unfold conv.
        rewrite R1, R2, R3, S1, S2, S3, (proj1 (H01 i y1 E2)), (proj1 (H0 i y Hy)). done.
      - apply lookup_ge_None in E2. rewrite lookup_ge_None_2 by lia. done. }
    exists regs1, b1. do 6 (split; [done|]). split.
    { intros i y Hy. destruct (Hlists1 i y Hy) as (l & -> & _). eauto. }
    intros i y Hy. destruct (Forall2_lookup_r _ _ _ _ _ Hall1 Hy) as (x & Hx & R1 & R2 & R3 & R4). exists x. split; auto. split; auto. split; auto.
    destruct (Hlists1 i y Hy) as (l & L1 & L2 & L3 & L4). assert (l = rl x) as ->; [|auto].
    rewrite R3 in L1. injection L1 as L1. rewrite <-L1, R4 in L2. injection L2 as L2. symmetry. eapply map_inj_list; [|exact L2].
    intros p q. apply pixel_inj. lia. }
  assert (forall z, live0 F z -> NoDup (Lof z) /\ length (Lof z) = size0 F z /\ forall p, p ∈ Lof z <-> region_pixels V lab2 (tab F) z p) as HL.
  { intros z Hz. destruct (Hrun n0 (lalloc_buf w h 0%N) (alloc_buf_ok w h _) ltac:(unfold n0; lia))
      as (regs1 & b1 & _ & _ & HFo & HT1 & _ & H01 & Hsz1 & Hx1).
    rewrite <-HFo in Hz. apply (live_fo regs1 H01) in Hz as (i & -> & Hi). destruct (lookup_lt_is_Some_2 _ _ Hi) as [y Hy].
    destruct (Hx1 i y Hy) as (x & Hx & R1 & _ & R2 & R3). unfold Lof. cbn [snd]. rewrite Hx. split; auto. split.
    - rewrite <-HFo. unfold size0. rewrite fo_get, Hy. cbn. by rewrite R1.
    - intros p. rewrite R3, <-HFo. unfold lab2. by rewrite (pix_fo e src gm step w h regs1 lab H01 i p). }
  assert (forall P z, z ∈ cvl F P -> live0 F z /\ flags F P One z = 0) as Hlive2.
  { intros P z Hz. by apply (cvl_live e src gm step w h HF Hgm Hmod regs lab HT H0 Hlen Hsz P z Hz). }
  assert (forall P z, z ∈ cvl F P -> live0 F z) as Hlive by (intros P z Hz; by apply (Hlive2 P)).
  assert (forall P, NoDup (cvl F P)) as Hnd.
  { intros P. apply cvl_NoDup. }
  exists F, lab2, Lof. constructor; auto.
  - unfold F. by rewrite fo_nregs.
  - intros P. apply (cvl_reported e src gm step w h HF Hgm Hmod regs lab HT H0 Hlen Hsz).
  - intros P n b c Hd Hb Hn Hc. destruct (Hrun n b Hb Hn) as (regs1 & b1 & E1 & Hb1 & HFo & HT1 & Hll & H01 & Hsz1 & Hx1).
    assert (1 <= ldeg e) as Hdeg by (destruct e; cbn; lia).
    unfold cv_channel. rewrite E1. destruct (recog_fo e src gm step w h HF Hgm Hmod regs1 lab HT1 H01 ltac:(lia) Hsz1 P n (length (lb_heap b1)) (cc_var0 c) Hd)
      as (regs' & l' & ks & -> & Hcl & Hsame & Hks).
    { nia. } { rewrite (lbo_heap _ _ _ Hb1). lia. }
    rewrite HFo in Hcl.
    assert (forall j x, l' !! j = Some x -> region_is regs1 (lb_pts b1) x (gray0 F (0, x)) (map (pixel_xy step) (Lof (0, x))) /\ size0 F (0, x) = length (Lof (0, x)) /\ cv_size regs1 x = Some (size0 F (0, x))) as Hreg.
    { intros j x Hj. assert (live0 F (0, x)) as Hx. { apply (Hlive P). rewrite Hcl. apply elem_of_list_fmap. exists x. split; auto. by eapply elem_of_list_lookup_2. }
      destruct (HL _ Hx) as (N1 & N2 & N3). rewrite <-HFo in Hx. pose proof Hx as Hx'. apply (live_fo regs1 H01) in Hx as (i & [= <-] & Hi).
      destruct (lookup_lt_is_Some_2 _ _ Hi) as [y Hy]. destruct (Hx1 x y Hy) as (r & Hr & R1 & R2 & _ & R3). split; [|split; auto].
      - exists y. split; auto. rewrite <-HFo. unfold gray0. rewrite fo_get, Hy. cbn. split; auto. unfold Lof. cbn [snd]. rewrite Hr, map_length.
        split; auto. split; auto. destruct (rl r) as [|p l] eqn:El; [|done]. exfalso.
        destruct (pix_own V lab2 (fo regs1) ltac:(by rewrite HFo) (0, x) Hx') as (p & Hp & _). apply (pix_fo e src gm step w h regs1 lab H01) in Hp. apply R3 in Hp.
        by apply elem_of_nil in Hp.
      - unfold cv_size. rewrite Hy, R1. f_equal. rewrite <-N2. unfold Lof. cbn [snd]. by rewrite Hr. }
    assert (ks = map (size0 F) (cvl F P)) as Eks.
    { rewrite Hcl. clear -Hks Hreg. assert (Forall (fun x => cv_size regs1 x = Some (size0 F (0, x))) l') as Hall.
      { apply Forall_lookup. intros j x Hj. by destruct (Hreg j x Hj) as (_ & _ & ?). }
      clear Hreg. induction Hks as [|x k l ks Hk _ IH]; [done|]. inversion_clear Hall. cbn. f_equal; [congruence|]. by apply IH. }
    assert (sum_list ks = length (concat (map (fun z => map (pixel_xy step) (Lof z)) (cvl F P)))) as Esum.
    { subst ks. assert (forall q, (forall z, z ∈ q -> live0 F z) -> sum_list (map (size0 F) q) = length (concat (map (fun z => map (pixel_xy step) (Lof z)) q))) as Hq.
      { induction q as [|z q IHq]; intros Hq; [done|]. cbn [map concat]. rewrite app_length, map_length. change (sum_list (?x :: ?y)) with (x + sum_list y).
        destruct (HL z) as (_ & -> & _); [apply Hq; left|]. f_equal. apply IHq. intros y Hy. apply Hq. by right. }
      apply Hq. apply Hlive. }
    assert (sum_list ks <= 256 * (w * h)) as Hle.
    { subst ks. eapply (sum_sizes V lab2 F HI); [apply lview_card; auto|apply Hnd|apply Hlive]. }
    unfold cv_modest in Hmod. rewrite N.mod_small by lia.
    rewrite (extract_ok gm regs' (lb_pts b1) l' (map (gray0 F) (cvl F P)) (map (fun z => map (pixel_xy step) (Lof z)) (cvl F P))).
    + eexists. split; [done|]. destruct Hb1 as [B1 B2 B3 B4 B5]. constructor; cbn; auto. by rewrite Hc.
    + by rewrite map_length, Hcl, fmap_length.
    + by rewrite map_length, Hcl, fmap_length.
    + intros j x g L Hj Hg HLj. rewrite map_at, Hcl, list_lookup_fmap, Hj in Hg. rewrite map_at, Hcl, list_lookup_fmap, Hj in HLj.
      cbn in Hg, HLj. injection Hg as <-. injection HLj as <-. eapply region_same; [exact Hsame|]. by apply (Hreg j x Hj).
    + by rewrite Esum.
    + lia.
Qed.
End chan.
