(* CV-MSER+ builds the component tree of the image, and following the list of a
   region visits the pixels of its component. *)
From stdpp Require Import sorting relations functions list.
From Coq Require Import NArith ZArith.
From Verif Require Import Spec TreeSpec FloodAbs FloodAbsInv FloodAbsProof Grid FloodModel FloodRefine FloodInit
  FloodTree FloodCorrect LinkedModel LinkedHeap LinkedLists LinkedRefine LinkedGrid LinkedInit.
Local Open Scope nat_scope.

(* SPEC: an image of width w and height h in rows of [step] byte samples; the last
   row need not be followed by padding *)
Record limg_fits (src : list N) (step w h : nat) : Prop := {
  lf_w : 0 < w; lf_h : 0 < h; lf_step : w <= step;
  lf_img : (h - 1) * step + w <= length src;
  lf_byte : forall i v, src !! i = Some v -> (v < 256)%N
}.

(* SPEC: coordinates of the pixel at offset p *)
Definition pixel_xy (step p : nat) : Z * Z := (Z.of_nat (p mod step), Z.of_nat (p / step)).

(* SPEC: the list of every region, followed for its recorded size, holds each pixel
   of one connected component of its level once; every pixel's component at the
   pixel's own level is the list of a region *)
Definition lists_ok (V : view) (step : nat) (regs : list lreg) (pts : list lpt) : Prop :=
  (forall i a, regs !! i = Some a -> exists n l p0,
     n_size a = Some n /\ lwalk pts (n_head a) n = Some l /\ length l = n /\ NoDup l /\
     vw_in V p0 /\ vw_gray V p0 = n_gray a /\
     forall q, q ∈ l <-> exists p, vconn V (n_gray a) p0 p /\ q = pixel_xy step p) /\
  (forall p0, vw_in V p0 -> exists i a n l,
     regs !! i = Some a /\ n_gray a = vw_gray V p0 /\
     n_size a = Some n /\ lwalk pts (n_head a) n = Some l /\
     forall q, q ∈ l <-> exists p, vconn V (vw_gray V p0) p0 p /\ q = pixel_xy step p).

(* SPEC: the region table as a stored tree *)
Definition ltable (regs : list lreg) (i : nat) : option (vreg nat) :=
  (fun a => VReg (n_gray a) true (default 0 (n_size a)) (n_parent a)) <$> regs !! i.

Section corr.
Context (e : bool) (src : list N) (gm : N) (step w h : nat).
Context (HF : limg_fits src step w h) (Hgm : gm = 0%N \/ gm = 255%N).
Notation lv := (level src gm).
Notation V := (lview e step w h lv).
Notation G := (lgraph step w h (ldeg e) (dnbr e step w h) lv).
Notation gid := (gid step 0 0).

Lemma lsrc r c : r < h -> c < w -> exists v, src !! gid r c = Some v /\
  (if (gm =? 0)%N then v else (0xff - v)%N) = N.of_nat (lv (gid r c)) /\ lv (gid r c) < 256.
Proof.
  intros Hr Hc. destruct HF. destruct (lookup_lt_is_Some_2 src (gid r c)) as [v Hv].
  { unfold Grid.gid. rewrite !Nat.add_0_l. nia. }
  exists v. split; auto. pose proof (lf_byte0 _ _ Hv). unfold level. rewrite (nth_lookup_Some _ _ _ _ Hv).
  destruct Hgm as [-> | ->].
  - rewrite N.lxor_0_r. cbn [N.eqb]. lia.
  - rewrite lxor_byte by auto. change (255 =? 0)%N with false. cbn match. lia.
Qed.

Lemma lpixel_xy p : pixel_xy step p = lxy step p.
Proof. done. Qed.

Lemma lbuild_ok b n : lbuf_ok w h b -> (ldeg e + 2) * (w * h) < n ->
  exists regs b' lab, lbuild n (lcfgn e w h) gm src step b = LTree regs b' /\
    ctree V lab (ltable regs) /\ one_root (ltable regs) /\
    lists_ok V step regs (lb_pts b') /\
    (forall i a, regs !! i = Some a -> n_flag a = 0 /\ n_gray a < 256) /\
    length regs <= w * h /\ lbuf_ok w h b' /\
    (exists a, arun G n (ainit G 0) = AHalt a /\ lab = labof (a_px a) /\
       Forall2 (fun x y => n_gray y = rg x /\ n_parent y = rpar x /\ n_size y = Some (length (rl x)) /\
          lwalk (lb_pts b') (n_head y) (length (rl x)) = Some (map (pixel_xy step) (rl x))) (a_regs a) regs) /\
    (forall i y, regs !! i = Some y -> exists l, n_size y = Some (length l) /\
       lwalk (lb_pts b') (n_head y) (length l) = Some (map (pixel_xy step) l) /\ NoDup l /\
       forall p, p ∈ l <-> vw_in V p /\ vunder (ltable regs) (lab p) i).
Proof.
  intros Hb Hn. pose proof HF as [Hw Hh Hfit _ _]. unfold lbuild.
  assert (l_w (lcfgn e w h) = w /\ l_h (lcfgn e w h) = h) as [Hkw Hkh] by (by destruct e).
  destruct (pre_process_ok step w h (lcfgn e w h) gm src lv Hw Hh Hfit Hkw Hkh lsrc b Hb)
    as (b1 & cap & base & -> & Hbase & Hb0 & Hb256 & Hcap & Hready).
  assert (gray_bound G) as Hgb.
  { intros p Hp. cbn [g_nodes g_gray lgraph] in *. apply elem_rect in Hp as (r & c & Hr & Hc & ->).
    destruct (lsrc r c Hr Hc) as (? & _ & _ & ?). lia. }
  destruct (lflood_refined step w h (ldeg e) (lcfgn e w h) (dnbr e step w h) lv Hw Hh Hfit
    (lgraph_ok e step w h lv Hfit) (lconnected e step w h lv Hfit) Hgb Hkw Hkh ltac:(by destruct e; cbn; lia)
    (lmask_ok e step w h lv Hfit) (lmax_ok e w h) cap base Hbase Hcap (lnbr_ok e step w h lv Hfit) b1 n Hready Hn)
    as (s & s' & aregs & lab & -> & -> & (a & Ha & -> & ->) & HT & HR & Hlen & Hl1 & Hl2 & Hl3).
  exists (s_regs s'), (LBuf (s_img s') (s_heap s') (s_hs s') (s_pts s')), (labof (a_px a)).
  split; auto. cbn [lb_pts lb_img lb_heap lb_hs].
  assert (forall i, ltable (s_regs s') i =
    (fun x => VReg (rg x) true (length (rl x)) (rpar x)) <$> a_regs a !! i) as Htab.
  { intros i. unfold ltable. destruct (a_regs a !! i) as [x|] eqn:Ex.
    - destruct (Forall2_lookup_l _ _ _ _ _ HR Ex) as (y & -> & (E1 & E2 & E3 & E4 & E5)).
      cbn. rewrite E1, E2, E4. done.
    - destruct (s_regs s' !! i) as [y|] eqn:Ey; auto.
      destruct (Forall2_lookup_r _ _ _ _ _ HR Ey) as (x & Hx & _). congruence. }
  assert (forall r t, vup (ltable (s_regs s')) r t <-> rparent (a_regs a) r t) as Hup.
  { intros r t. unfold vup, rparent. rewrite Htab. split.
    - intros (z & Hz & Hp). destruct (a_regs a !! r) as [x|]; [|done]. cbn in Hz. injection Hz as <-. eauto.
    - intros (z & -> & Hp). cbn. eauto. }
  assert (forall r t, vunder (ltable (s_regs s')) r t <-> under (a_regs a) r t) as Hun.
  { intros r t. split; apply rtc_subrel; intros ? ?; by rewrite Hup. }
  assert (forall p, vw_in V p <-> p ∈ g_nodes G) as Hin by (apply (lin_rect e step w h lv Hfit)).
  destruct HT as [T1 T2 T3 T4 T5 T6].
  (* membership of the list of a region *)
  assert (forall r x, a_regs a !! r = Some x -> exists p0, vw_in V p0 /\ lv p0 = rg x /\ labof (a_px a) p0 = r /\
    forall p, p ∈ rl x <-> vconn V (rg x) p0 p) as Hmem.
  { intros r x Hx. destruct (T2 r x Hx) as (p0 & Hp0 & Hlab). exists p0. split; [by apply Hin|].
    destruct (T1 p0 Hp0) as (y & Hy & Hg). rewrite Hlab in Hy. assert (y = x) as -> by congruence.
    split; [by rewrite Hg|]. split; auto. intros p. destruct (T5 r x Hx) as [_ Hm]. rewrite Hm. split.
    - intros [Hp Hu]. apply (lconn_view e step w h lv Hfit).
      apply (T4 r x p0 p Hx Hp0 Hp); auto. rewrite Hlab. apply rtc_refl.
    - intros Hc. assert (p ∈ g_nodes G) as Hp. { apply Hin. by destruct Hc as (_ & ? & _). }
      split; auto. apply (T4 r x p0 p Hx Hp0 Hp); [rewrite Hlab; apply rtc_refl|].
      by apply (lconn_view e step w h lv Hfit). }
  assert (forall p q, vw_in V p -> vw_in V q -> pixel_xy step p = pixel_xy step q -> p = q) as Hinj.
  { intros p q Hp Hq Heq. unfold pixel_xy in Heq. injection Heq as H1 H2.
    apply Nat2Z.inj in H1, H2. rewrite (Nat.div_mod p step), (Nat.div_mod q step) by lia. by rewrite H1, H2. }
  split; [|split; [|split; [|split; [|split; [|split; [|split]]]]]].
  - (* the tree *)
    constructor.
    + intros p Hp. apply Hin in Hp. destruct (T1 p Hp) as (x & Hx & Hg). rewrite Htab, Hx. cbn. eauto.
    + intros r z t Hz Ht. rewrite Htab in Hz. destruct (a_regs a !! r) as [x|] eqn:Hx; [|done].
      injection Hz as <-. cbn in Ht. destruct (T3 r x t Hx Ht) as (y & Hy & Hlt). rewrite Htab, Hy. cbn. eauto.
    + intros r z Hz Hl. rewrite Htab in Hz. destruct (a_regs a !! r); [|done]. by injection Hz as <-.
    + intros r z Hz _. rewrite Htab in Hz. destruct (a_regs a !! r) as [x|] eqn:Hx; [|done]. injection Hz as <-.
      destruct (Hmem r x Hx) as (p0 & Hp0 & Hg & Hlab & _). exists p0. split; auto. split; auto.
      rewrite Hlab. apply rtc_refl.
    + intros r z p q Hz _ Hp Hq. rewrite Htab in Hz. destruct (a_regs a !! r) as [x|] eqn:Hx; [|done].
      injection Hz as <-. cbn [v_gray]. rewrite !Hun. intros Hu. apply Hin in Hp, Hq.
      rewrite <-(lconn_view e step w h lv Hfit). by apply (T4 r x p q).
    + intros r z Hz _. rewrite Htab in Hz. destruct (a_regs a !! r) as [x|] eqn:Hx; [|done].
      injection Hz as <-. cbn [v_size]. destruct (T5 r x Hx) as [Hnd Hm]. exists (rl x). split; auto.
      split; auto. intros p. by rewrite Hm, Hun, Hin.
    + (* climbing ends: levels grow and are bounded *)
      assert (forall m r x, a_regs a !! r = Some x -> 256 - rg x <= m ->
        exists t y, under (a_regs a) r t /\ a_regs a !! t = Some y /\ rpar y = None) as Hac.
      { induction m as [|m IH]; intros r x Hx Hm.
        - exfalso. destruct (Hmem r x Hx) as (p0 & Hp0 & Hg & _). apply Hin in Hp0. apply Hgb in Hp0.
          cbn in Hp0. lia.
        - destruct (rpar x) as [t|] eqn:Ht; [|exists r, x; split; [apply rtc_refl|auto]].
          destruct (T3 r x t Hx Ht) as (y & Hy & Hlt). destruct (IH t y Hy) as (u & z & Hu & Hz); [lia|].
          exists u, z. split; auto. eapply rtc_l; [|exact Hu]. exists x. auto. }
      intros r z Hz. rewrite Htab in Hz. destruct (a_regs a !! r) as [x|] eqn:Hx; [|done].
      destruct (Hac _ r x Hx (le_n _)) as (t & y & Hu & Hy & Hp). eexists t, _.
      rewrite Hun, Htab, Hy. cbn. split; auto.
  - destruct T6 as (r & (x & Hx & Hp) & Huniq). exists r. split.
    + eexists. rewrite Htab, Hx. cbn. split; eauto.
    + intros r' z Hz Hn'. rewrite Htab in Hz. destruct (a_regs a !! r') as [y|] eqn:Hy; [|done].
      injection Hz as <-. eauto.
  - assert (forall i y, s_regs s' !! i = Some y -> exists x p0, a_regs a !! i = Some x /\
      n_gray y = rg x /\ n_size y = Some (length (rl x)) /\
      lwalk (s_pts s') (n_head y) (length (rl x)) = Some (map (pixel_xy step) (rl x)) /\
      NoDup (map (pixel_xy step) (rl x)) /\ vw_in V p0 /\ lv p0 = rg x /\
      forall q, q ∈ map (pixel_xy step) (rl x) <-> exists p, vconn V (rg x) p0 p /\ q = pixel_xy step p) as Hall.
    { intros i y Hy. destruct (Forall2_lookup_r _ _ _ _ _ HR Hy) as (x & Hx & (E1 & E2 & E3 & E4 & E5)).
      destruct (Hmem i x Hx) as (p0 & Hp0 & Hg & Hlab & Hm). exists x, p0. split; auto. split; auto. split; auto.
      split; auto. split; [|split; [auto|split; [auto|]]].
      - apply NoDup_fmap_2_strong; [|by apply (T5 i x Hx)]. intros p q Hp Hq. apply Hinj; apply Hin.
        + by apply (T5 i x Hx) in Hp as [? _].
        + by apply (T5 i x Hx) in Hq as [? _].
      - intros q. rewrite elem_of_list_fmap. split.
        + intros (p & -> & Hp). exists p. split; auto. by apply Hm.
        + intros (p & Hp & ->). exists p. split; auto. by apply Hm. }
    split.
    + intros i y Hy. destruct (Hall i y Hy) as (x & p0 & Hx & E1 & E2 & E3 & E4 & E5 & E6 & E7).
      exists (length (rl x)), (map (pixel_xy step) (rl x)), p0. rewrite map_length, E1.
      split; auto. split; auto.
    + intros p0 Hp0. pose proof Hp0 as Hp0'. apply Hin in Hp0'. destruct (T1 p0 Hp0') as (x & Hx & Hg).
      destruct (Forall2_lookup_l _ _ _ _ _ HR Hx) as (y & Hy & _).
      destruct (Hall _ y Hy) as (x' & p1 & Hx' & E1 & E2 & E3 & E4 & E5 & E6 & E7).
      assert (x' = x) as -> by congruence.
      exists (labof (a_px a) p0), y, (length (rl x)), (map (pixel_xy step) (rl x)).
      split; auto. split; [by rewrite E1, Hg|]. split; auto. split; auto.
      intros q. rewrite E7. cbn [vw_gray lview]. change (lv p0) with (g_gray G p0). rewrite <-Hg.
      assert (vconn V (rg x) p1 p0) as H10.
      { assert (pixel_xy step p0 ∈ map (pixel_xy step) (rl x)) as Hin0.
        { apply elem_of_list_fmap. exists p0. split; auto. apply (T5 _ x Hx). split; auto. apply rtc_refl. }
        apply E7 in Hin0 as (p & Hc & Hq). assert (p = p0) as -> ; auto.
        symmetry. apply Hinj; auto. by destruct Hc as (_ & ? & _). }
      assert (forall u v, vconn V (rg x) u v -> vconn V (rg x) v u) as Hsym.
      { intros u v (H1 & H2 & H3 & H4 & H5). split; auto. split; auto. split; auto. split; auto.
        revert H5. clear -Hfit. intros H5. induction H5 as [|u v z Huv Hvz IH]; [apply rtc_refl|].
        eapply rtc_r; [exact IH|]. destruct Huv as (K1 & K2 & K3 & K4 & K5).
        split; auto. split; auto. split; auto. cbn [vw_adj lview] in *. unfold adj4, adj8 in *.
        destruct e; [|lia]. destruct K3 as (K3 & K6). split; [congruence|lia]. }
      assert (forall u v z, vconn V (rg x) u v -> vconn V (rg x) v z -> vconn V (rg x) u z) as Htr.
      { intros u v z (H1 & H2 & H3 & H4 & H5) (_ & K2 & _ & K4 & K5). split; auto. split; auto.
        split; auto. split; auto. etrans; eauto. }
      split; intros (p & Hc & ->); exists p; split; auto; eapply Htr; eauto.
  - intros i y Hy. destruct (Forall2_lookup_r _ _ _ _ _ HR Hy) as (x & Hx & (E1 & E2 & E3 & E4 & E5)).
    split; auto. rewrite E1. destruct (Hmem i x Hx) as (p0 & Hp0 & Hg & _). apply Hin in Hp0. apply Hgb in Hp0.
    cbn in Hp0. lia.
  - by rewrite <-(Forall2_length _ _ _ HR).
  - constructor; cbn [lb_pts lb_img lb_heap lb_hs]; auto.
    + destruct Hl2 as (_ & -> & _). lia.
    + by destruct Hl2 as (-> & _).
    + destruct Hl2 as (_ & _ & Hg). destruct (Hg 0) as (-> & _); [lia|]. cbn. by rewrite Hb0.
  - exists a. split; auto. split; auto. eapply Forall2_impl; [exact HR|].
    intros x y (E1 & E2 & E3 & E4 & E5). auto.
  - intros i y Hy. destruct (Forall2_lookup_r _ _ _ _ _ HR Hy) as (x & Hx & (E1 & E2 & E3 & E4 & E5)).
    exists (rl x). split; [done|]. split; [done|]. destruct (T5 i x Hx) as [Hnd Hm]. split; [done|].
    intros p. by rewrite Hm, Hun, Hin.
Qed.
End corr.
