(* The OpenCV-style extraction does not depend on the old contents of its buffers: two runs on
   the same image stay in step. *)
From stdpp Require Import sorting relations functions list_numbers list.
From Coq Require Import NArith ZArith SpecFloat.
From Verif Require Import Spec FloodAbs FloodAbsInv FloodAbsProof Grid FloodModel FloodInit FloatModel RectModel RecogModel
  LinkedHeap LinkedCorrect OcvModel OcvHeap OcvInit OcvRefine Oc2Model Oc2Spec Oc2Hist Oc2Comp Oc2Join Oc2Seg Oc2Refine Oc2Correct.
Local Open Scope nat_scope.

Lemma wfind_same heap1 hs1 heap2 hs2 lev i n : (forall g, g < lev + n -> heap_top heap1 hs1 g = heap_top heap2 hs2 g) ->
  wfind heap1 hs1 lev i n = wfind heap2 hs2 lev i n.
Proof.
  revert lev i. induction n as [|n IH]; intros lev i H; cbn [wfind]; [done|]. rewrite (H lev) by lia.
  destruct (heap_top heap2 hs2 lev) as [[p|]|]; [done| |done]. apply IH. intros g Hg. apply H. lia.
Qed.

(* SPEC (proof relation): outcomes of img_opencv_mser.cpp:257-353 with the same components and records *)
Definition wsame (r1 r2 : wres) : Prop :=
  match r1, r2 with
  | WNext t1, WNext t2 => s_comps t1 = s_comps t2 /\ s_mem t1 = s_mem t2
  | WHalt t1, WHalt t2 => s_mem t1 = s_mem t2
  | WStuck, _ | _, WStuck => True
  | _, _ => False
  end.

Lemma wstep_same W area gap gm P img1 img2 cur lev heap1 heap2 hs1 hs2 comps m v : img1 !! cur = Some v -> img2 !! cur = Some v -> lev = gray_of v -> lev <= 255 ->
  ((N.land v 0x700 <? 0x400)%N = true -> forall x, onbr W cur (S (dir_of v)) = Some x -> img1 !! x = img2 !! x) ->
  (forall g, g <= 255 -> heap_top heap1 hs1 g = heap_top heap2 hs2 g) ->
  wsame (wstep W area gap gm P (WSt img1 cur lev heap1 hs1 comps m)) (wstep W area gap gm P (WSt img2 cur lev heap2 hs2 comps m)).
Proof.
  intros H1 H2 Hlev Hle Hx Ht. unfold wstep. cbn [s_img s_cur]. rewrite H1, H2.
  destruct (N.land v 0x700 <? 0x400)%N.
  - specialize (Hx eq_refl). unfold wtour. cbn [s_img s_cur s_lev s_heap s_hs s_comps s_mem]. destruct (onbr W cur (S (dir_of v))) as [x|]; [|done].
    rewrite (Hx x eq_refl). destruct (img2 !! x) as [u|]; [|done]. destruct (negative16 u); [done|].
    destruct (lev + gray_of u <? gray_of v); [done|]. destruct (gray_of u <? gray_of v).
    + destruct (heap_push heap1 hs1 lev cur) as [[? ?]|]; [|done]. destruct (heap_push heap2 hs2 lev cur) as [[? ?]|]; [|by destruct (_ <? _)].
      by destruct (_ <? _).
    + destruct (heap_push heap1 hs1 _ x) as [[? ?]|]; [|done]. by destruct (heap_push heap2 hs2 _ x) as [[? ?]|].
  - clear Hx. unfold wfinish. cbn [s_img s_cur s_lev s_heap s_hs s_comps s_mem]. destruct (wpoint W gap cur) as [q|]; [|done]. destruct comps as [|c rest]; [done|].
    destruct (area <=? _); [done|]. destruct (waccumulate _ _ _) as [[c1 next]|]; [|done]. rewrite (Ht lev) by done.
    assert (forall l cs mm, wsame (wtake img1 heap1 hs1 l cs mm) (wtake img2 heap2 hs2 l cs mm)) as Htake.
    { intros l cs mm. unfold wtake. destruct (heap_top heap1 hs1 l) as [[p|]|]; [|done|done]. destruct (heap_pop hs1 l); [|done].
      destruct (heap_top heap2 hs2 l) as [[p'|]|]; [|done|done]. by destruct (heap_pop hs2 l). }
    destruct (heap_top heap2 hs2 lev) as [[p|]|]; [apply Htake| |done].
    rewrite (wfind_same heap1 hs1 heap2 hs2) by (intros g Hg; apply Ht; lia).
    destruct (wfind heap2 hs2 _ _ _) as [[[g lv]|]|]; [|done|done]. destruct rest as [|c2 rest']; [done|].
    destruct (if g <? w_gray c2 then _ else _) as [[cs m2]|]; [apply Htake|done].
Qed.

Section run.
Context (W w h : nat) (gap : Z) (gm : N) (P : rparam) (gray : nat -> nat) (pt : nat -> Z * Z).
Context (HW : w + 2 <= W) (Hw : 0 < w) (Hh : 0 < h).
Notation G := (wgraph W w h gray).
Notation nodes := (rect_nodes W 1 1 w h).
Context (Hpt : forall p, p ∈ nodes -> wpoint W gap p = Some (pt p)) (Hgb : gray_bound G).
Context (cap base : nat -> nat).
Context (Hbase : forall g, base (S g) = base g + cap g + 1).
Context (Hcap : forall g, length (filter (fun p => gray p = g) nodes) <= cap g).
Notation WRs := (WR W w h gm P gray pt cap base).

Lemma wstep_pair s1 s2 a pn1 pn2 Ls1 Ls2 : WRs s1 a pn1 Ls1 -> WRs s2 a pn2 Ls2 -> Inv G a -> s_comps s1 = s_comps s2 -> s_mem s1 = s_mem s2 ->
  wsame (wstep W (w * h) gap gm P s1) (wstep W (w * h) gap gm P s2).
Proof using All.
  intros R1 R2 [HA _ _] Hc Hm. destruct (i_cur _ _ _ _ _ HA) as (Hcn & _ & Hdd). cbn [g_deg g_nodes wgraph] in Hdd, Hcn.
  assert (gray (a_cur a) <= 255) as Hg by (by apply Hgb). destruct (ww_ok (a_d a) (gray (a_cur a)) Hdd Hg) as (V1 & V2 & V3 & V4 & _).
  destruct s1 as [img1 cur1 lev1 heap1 hs1 comps1 m1], s2 as [img2 cur2 lev2 heap2 hs2 comps2 m2]. cbn [s_comps s_mem] in Hc, Hm. subst comps2 m2.
  pose proof (wr_cur _ _ _ _ _ _ _ _ _ _ _ _ _ R1) as E1. pose proof (wr_cur _ _ _ _ _ _ _ _ _ _ _ _ _ R2) as E2.
  pose proof (wr_lev _ _ _ _ _ _ _ _ _ _ _ _ _ R1) as E3. pose proof (wr_lev _ _ _ _ _ _ _ _ _ _ _ _ _ R2) as E4.
  pose proof (wr_cw _ _ _ _ _ _ _ _ _ _ _ _ _ R1) as E5. pose proof (wr_cw _ _ _ _ _ _ _ _ _ _ _ _ _ R2) as E6.
  cbn [s_cur s_lev s_img] in *. subst cur1 cur2 lev1 lev2.
  eapply wstep_same; [exact E5|exact E6|done|done| |].
  - rewrite V4, V3. intros Hd x Hx. apply Nat.ltb_lt in Hd. destruct (wnbr_ok W w h gray HW Hw Hh (a_cur a) (a_d a) Hcn Hd) as (x' & Hx' & Hl & Hmod & Hn).
    rewrite Hx in Hx'. injection Hx' as <-. destruct (decide (x ∈ nodes)) as [Hin|Hout].
    + destruct (decide (x = a_cur a)) as [->|Hne]; [congruence|].
      pose proof (wr_px _ _ _ _ _ _ _ _ _ _ _ _ _ R1 x Hin Hne) as Q1. pose proof (wr_px _ _ _ _ _ _ _ _ _ _ _ _ _ R2 x Hin Hne) as Q2. cbn [s_img] in *. congruence.
    + pose proof (wr_bd _ _ _ _ _ _ _ _ _ _ _ _ _ R1 x Hl Hmod Hout) as Q1. pose proof (wr_bd _ _ _ _ _ _ _ _ _ _ _ _ _ R2 x Hl Hmod Hout) as Q2. cbn [s_img] in *. congruence.
  - intros g Hg255. pose proof (wr_heap _ _ _ _ _ _ _ _ _ _ _ _ _ R1) as Q1. pose proof (wr_heap _ _ _ _ _ _ _ _ _ _ _ _ _ R2) as Q2. cbn [s_heap s_hs] in *.
    rewrite (otop_spec cap base heap1 hs1 (a_heap a)), (otop_spec cap base heap2 hs2 (a_heap a)) by auto. done.
Qed.

Lemma wrun_pair n s1 s2 a pn1 pn2 Ls1 Ls2 : WRs s1 a pn1 Ls1 -> WRs s2 a pn2 Ls2 -> Inv G a -> s_comps s1 = s_comps s2 -> s_mem s1 = s_mem s2 ->
  forall t1 t2, wrun W (w * h) gap gm P n s1 = WHalt t1 -> wrun W (w * h) gap gm P n s2 = WHalt t2 -> s_mem t1 = s_mem t2.
Proof using All.
  revert s1 s2 a pn1 pn2 Ls1 Ls2. induction n as [|n IH]; intros s1 s2 a pn1 pn2 Ls1 Ls2 R1 R2 HI Hc Hm t1 t2; cbn [wrun]; [done|].
  pose proof (wstep_pair s1 s2 a pn1 pn2 Ls1 Ls2 R1 R2 HI Hc Hm) as Hs.
  pose proof (wstep_refine W w h gap gm P gray pt HW Hw Hh Hpt Hgb cap base Hbase Hcap s1 a pn1 Ls1 R1 HI) as S1.
  pose proof (wstep_refine W w h gap gm P gray pt HW Hw Hh Hpt Hgb cap base Hbase Hcap s2 a pn2 Ls2 R2 HI) as S2.
  pose proof (astep_inv G (wgraph_ok W w h gray HW) a Hgb HI) as HI'.
  destruct (astep G a) as [a'|a'|].
  - destruct S1 as (s1' & p1 & L1 & E1 & R1'), S2 as (s2' & p2 & L2 & E2 & R2'). rewrite E1, E2 in *. destruct Hs as [Hc' Hm']. by eapply IH.
  - destruct S1 as (s1' & E1 & _), S2 as (s2' & E2 & _). rewrite E1, E2 in *. intros [= <-] [= <-]. done.
  - done.
Qed.

Lemma wloop_pair img1 heap1 hs1 img2 heap2 hs2 n s1 s2 t1 t2 :
  length img1 = W * (h + 2) -> (forall p, p ∈ nodes -> img1 !! p = Some (N.of_nat (gray p))) ->
  (forall x, x < W * (h + 2) -> x mod W < w + 2 -> x ∉ nodes -> img1 !! x = Some 0xffff%N) ->
  heapO cap base heap1 hs1 (fun _ => []) -> length heap1 = w * h + 256 ->
  length img2 = W * (h + 2) -> (forall p, p ∈ nodes -> img2 !! p = Some (N.of_nat (gray p))) ->
  (forall x, x < W * (h + 2) -> x mod W < w + 2 -> x ∉ nodes -> img2 !! x = Some 0xffff%N) ->
  heapO cap base heap2 hs2 (fun _ => []) -> length heap2 = w * h + 256 ->
  winit W img1 heap1 hs1 = WNext s1 -> winit W img2 heap2 hs2 = WNext s2 ->
  wrun W (w * h) gap gm P n s1 = WHalt t1 -> wrun W (w * h) gap gm P n s2 = WHalt t2 -> s_mem t1 = s_mem t2.
Proof using All.
  intros A1 A2 A3 A4 A5 B1 B2 B3 B4 B5 E1 E2.
  destruct (winit_refine W w h gap gm P gray pt HW Hw Hh Hpt Hgb cap base Hbase Hcap img1 heap1 hs1 A1 A2 A3 A4 A5) as (u1 & F1 & R1).
  destruct (winit_refine W w h gap gm P gray pt HW Hw Hh Hpt Hgb cap base Hbase Hcap img2 heap2 hs2 B1 B2 B3 B4 B5) as (u2 & F2 & R2).
  assert (u1 = s1) as -> by congruence. assert (u2 = s2) as -> by congruence.
  pose proof (wstart_node W w h Hw Hh) as H0.
  assert (s_comps s1 = s_comps s2 /\ s_mem s1 = s_mem s2) as [Hc Hm].
  { unfold winit in E1, E2. rewrite (A2 _ H0) in E1. rewrite (B2 _ H0) in E2. injection E1 as <-. injection E2 as <-. done. }
  eapply wrun_pair; eauto. by apply ainit_inv.
Qed.
End run.

Section prep.
Context (src : list N) (step w h : nat) (HF : limg_fits src step w h).
Notation W := (wide w).
Notation nodes := (rect_nodes W 1 1 w h).

Lemma wpass_same gm n P gap b b2 out t b' out2 t2 b2' : (0 <= gap < 32)%Z -> wbuf_ok w h b -> wbuf_ok w h b2 ->
  w_pass n src step w h P gap gm b = Some (out, t, b') -> w_pass n src step w h P gap gm b2 = Some (out2, t2, b2') -> out = out2.
Proof using HF.
  intros Hgap [B1 B2 B3 B4] [C1 C2 C3 C4]. pose proof HF as [F1 F2 _ _ _]. destruct (wide_ok w) as [_ Hwide]. unfold w_pass.
  assert (forall p, p ∈ nodes -> wpoint W gap p = Some (default (0, 0)%Z (wpoint W gap p))) as Hpt.
  { intros p Hp. apply wpoint_some; [done|]. by apply (wnode_range W w h Hwide). }
  destruct (wfill_ok src step w h gm HF _ B1) as (img & -> & I1 & I2 & I3). destruct (wfill_ok src step w h gm HF _ C1) as (img2 & -> & J1 & J2 & J3).
  destruct (wcounts_ok src step w h gm HF) as (lvl & -> & L1 & L2).
  destruct (wheaps_ok src step w h gm HF lvl _ _ L1 L2 B2 B3 B4) as (heap & hs & -> & H1 & H2).
  destruct (wheaps_ok src step w h gm HF lvl _ _ L1 L2 C2 C3 C4) as (heap2 & hs2 & -> & K1 & K2).
  destruct (winit W img heap hs) as [s1| |] eqn:E1; [|done|done]. destruct (winit W img2 heap2 hs2) as [s2| |] eqn:E2; [|done|done].
  destruct (wrun W (w * h) gap gm P n s1) as [|u1|] eqn:E3; [done| |done]. destruct (wrun W (w * h) gap gm P n s2) as [|u2|] eqn:E4; [done| |done].
  intros Q1 Q2. injection Q1 as <- _ _. injection Q2 as <- _ _. f_equal.
  eapply (wloop_pair W w h gap gm P (wgray src step w gm) (fun p => default (0, 0)%Z (wpoint W gap p)) Hwide F1 F2 Hpt) with (cap := cap_of lvl) (base := base_of lvl)
    (img1 := img) (img2 := img2) (heap1 := heap) (heap2 := heap2); eauto.
  - intros p Hp. cbn [g_gray wgraph]. cbn [g_nodes wgraph] in Hp. pose proof (wgray_lt src step w h gm HF p Hp). lia.
  - intros g. apply base_of_S.
  - intros g. unfold cap_of. destruct (decide (g < 256)) as [Hg|Hg]; [by rewrite L2|].
    destruct (filter (fun p => wgray src step w gm p = g) nodes) as [|p l] eqn:E; [cbn; lia|]. exfalso.
    assert (p ∈ filter (fun p => wgray src step w gm p = g) nodes) as Hp by (rewrite E; left).
    apply elem_of_list_filter in Hp as [Hp1 Hp2]. apply (wgray_lt src step w h gm HF) in Hp2. lia.
Qed.

(* C102 *)
Theorem w_call_same n P gap dark bright b b2 : wbuf_ok w h b -> wbuf_ok w h b2 -> (0 <= gap < 32)%Z -> 6 * (w * h) < n ->
  w_call n src step w h P gap dark bright b = w_call n src step w h P gap dark bright b2.
Proof using HF.
  intros Hb Hb2 Hgap Hn. destruct (wide_ok w) as [_ Hwide].
  assert (forall p, p ∈ nodes -> wpoint W gap p = Some (default (0, 0)%Z (wpoint W gap p))) as Hpt.
  { intros p Hp. apply wpoint_some; [done|]. by apply (wnode_range W w h Hwide). }
  assert (forall gm b1 b2, wbuf_ok w h b1 -> wbuf_ok w h b2 -> exists out t1 t2 b1' b2', w_pass n src step w h P gap gm b1 = Some (out, t1, b1') /\
    w_pass n src step w h P gap gm b2 = Some (out, t2, b2') /\ wbuf_ok w h b1' /\ wbuf_ok w h b2') as Hp.
  { intros gm x y Hx Hy. destruct (wpass_ok src step w h gm HF n P gap _ x Hx Hn Hpt) as (out & t & x' & E1 & X' & _).
    destruct (wpass_ok src step w h gm HF n P gap _ y Hy Hn Hpt) as (out2 & t2 & y' & E2 & Y' & _).
    assert (out = out2) as <- by (by eapply (wpass_same gm n P gap x y)). exists out, t, t2, x', y'. done. }
  unfold w_call. destruct dark.
  - destruct (Hp 0%N b b2 Hb Hb2) as (out & t1 & t2 & x & y & -> & -> & Hx & Hy). destruct bright; [|done].
    destruct (Hp 255%N x y Hx Hy) as (out' & t1' & t2' & x' & y' & -> & -> & _). done.
  - destruct bright; [|done]. destruct (Hp 255%N b b2 Hb Hb2) as (out' & t1' & t2' & x' & y' & -> & -> & _). done.
Qed.
End prep.
