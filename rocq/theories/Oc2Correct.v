(* Whole passes and calls of the OpenCV-style extraction: the preparation of the buffers, the
   loop up to its end, and the pixels that the records hold. *)
From stdpp Require Import sorting relations functions list_numbers list.
From Coq Require Import NArith ZArith SpecFloat.
From Verif Require Import Spec FloodAbs FloodAbsInv FloodAbsProof Grid FloodModel FloodInit FloatModel RectModel RecogModel UtilFacts
  LinkedHeap LinkedCorrect OcvModel OcvHeap OcvInit OcvRefine Oc2Model Oc2Spec Oc2Hist Oc2Comp Oc2Join Oc2Seg Oc2Refine.
Local Open Scope nat_scope.

(* ---------- the width ---------- *)
Lemma wwidth_ok n need width sg : width = 2 ^ sg -> need < width + n + 1 ->
  let r := wwidth n need width sg in fst r = 2 ^ snd r /\ need <= fst r.
Proof.
  revert width sg. induction n as [|n IH]; intros width sg Hw Hn; cbn [wwidth]; [cbn; lia|].
  destruct (Nat.ltb_spec width need) as [H|H]; [|cbn; lia].
  apply IH.
  - rewrite Hw. cbn [Nat.pow]. lia.
  - assert (0 < width) by (rewrite Hw; clear; induction sg; cbn; lia). lia.
Qed.
Lemma wide_ok w : wide w = 2 ^ stepgap w /\ w + 2 <= wide w.
Proof. unfold wide, stepgap. apply wwidth_ok; [done|lia]. Qed.

(* the point of a pixel, with a shift that fits the width *)
Lemma wpoint_xy W k r c : W = 2 ^ k -> k < 32 -> c + 2 < W -> wpoint W (Z.of_nat k) (gid W 1 1 r c) = Some (Z.of_nat c, Z.of_nat r).
Proof.
  intros HW Hk Hc. unfold wpoint, gid. destruct (Nat.ltb_spec ((1 + r) * W + (1 + c)) (W + 1)); [lia|].
  destruct (Z.leb_spec 0 (Z.of_nat k)); [|lia]. destruct (Z.ltb_spec (Z.of_nat k) 32); [|lia]. cbn [andb].
  replace ((1 + r) * W + (1 + c) - (W + 1)) with (r * W + c) by lia. f_equal. f_equal.
  - f_equal. rewrite HW, Nat.sub_1_r, <-Nat.ones_equiv, Nat.land_ones, <-HW. rewrite Nat.add_comm, Nat.mod_add by lia. apply Nat.mod_small. lia.
  - rewrite Z.shiftr_div_pow2 by lia. replace (2 ^ Z.of_nat k)%Z with (Z.of_nat W).
    + rewrite <-Nat2Z.inj_div, Nat.div_add_l, Nat.div_small by lia. lia.
    + rewrite HW, Nat2Z.inj_pow. done.
Qed.
Lemma wpoint_some W gap p : (0 <= gap < 32)%Z -> W < p -> wpoint W gap p = Some (default (0, 0)%Z (wpoint W gap p)).
Proof.
  intros Hg Hp. unfold wpoint. destruct (Nat.ltb_spec p (W + 1)); [lia|]. destruct (Z.leb_spec 0 gap); [|lia]. destruct (Z.ltb_spec gap 32); [|lia]. done.
Qed.

(* ---------- the loop ---------- *)
Section run.
Context (W w h : nat) (gap : Z) (gm : N) (P : rparam) (gray : nat -> nat) (pt : nat -> Z * Z).
Context (HW : w + 2 <= W) (Hw : 0 < w) (Hh : 0 < h).
Notation G := (wgraph W w h gray).
Notation nodes := (rect_nodes W 1 1 w h).
Context (Hpt : forall p, p ∈ nodes -> wpoint W gap p = Some (pt p)) (Hgb : gray_bound G).
Context (cap base : nat -> nat).
Context (Hbase : forall g, base (S g) = base g + cap g + 1).
Context (Hcap : forall g, length (filter (fun p => gray p = g) nodes) <= cap g).
Notation WRs := (WR W w h gm P gray pt cap base).
Notation sound := (rec_sound W w h gm P gray pt).

Definition whalted (s' : wst) : Prop := Forall sound (wm_out (s_mem s')) /\ recs_ok W w h P pt (wm_out (s_mem s')) /\
  length (s_img s') = W * (h + 2) /\ length (s_heap s') = w * h + 256 /\ length (s_hs s') = 256 /\ s_hs s' !! 0 = Some (base 0).

Lemma wrun_refine n s a pn Ls : WRs s a pn Ls -> Inv G a ->
  match FloodAbs.arun G n a with
  | ANext a' => True
  | AHalt a' => exists s', wrun W (w * h) gap gm P n s = WHalt s' /\ whalted s'
  | AStuck => True
  end.
Proof using All.
  revert s a pn Ls. induction n as [|n IH]; intros s a pn Ls HR HI; cbn [FloodAbs.arun wrun]; [done|].
  pose proof (wstep_refine W w h gap gm P gray pt HW Hw Hh Hpt Hgb cap base Hbase Hcap s a pn Ls HR HI) as Hs.
  pose proof (astep_inv G (wgraph_ok W w h gray HW) a Hgb HI) as HI'.
  destruct (astep G a) as [a'|a'|]; [| |done].
  - destruct Hs as (s' & pn' & Ls' & -> & HR'). by eapply IH.
  - destruct Hs as (s' & -> & Hh'). exists s'. done.
Qed.

Lemma wstart_node : W + 1 ∈ nodes.
Proof using Hw Hh. clear -Hw Hh. apply elem_rect. exists 0, 0. unfold gid. repeat split; lia. Qed.

Lemma winit_refine img heap hs : length img = W * (h + 2) -> (forall p, p ∈ nodes -> img !! p = Some (N.of_nat (gray p))) ->
  (forall x, x < W * (h + 2) -> x mod W < w + 2 -> x ∉ nodes -> img !! x = Some 0xffff%N) ->
  heapO cap base heap hs (fun _ => []) -> length heap = w * h + 256 ->
  exists s, winit W img heap hs = WNext s /\ WRs s (ainit G (W + 1)) [] [[]].
Proof using All.
  intros R1 R2 R3 R4 R5. pose proof wstart_node as Hs. unfold winit. rewrite (R2 _ Hs).
  assert (gray (W + 1) <= 255) as Hg by (by apply Hgb). destruct (w0_ok _ Hg) as (_ & -> & ->). eexists. split; [done|].
  destruct (wnode_range W w h HW _ Hs) as (_ & Hlt).
  unfold ainit. constructor; cbn [s_img s_cur s_lev s_heap s_hs s_comps s_mem wm_xy wm_next wm_hist wm_out a_px a_cur a_d a_heap a_comps a_regs length map g_gray wgraph]; auto.
  - apply list_lookup_insert. lia.
  - intros p Hp Hne. rewrite list_lookup_insert_ne by done. rewrite fn_lookup_insert_ne by done. cbn [wword]. auto.
  - intros x Hx Hxm Hxn. rewrite list_lookup_insert_ne by (by intros <-). auto.
  - by rewrite insert_length.
  - exists [wcomp0 (gray (W + 1))]. split; [done|]. split.
    + apply CS_new. constructor; cbn; try done; try constructor.
    + exists []. split; [|constructor]. apply SG_new. constructor; [constructor| |].
      * intros R HR. by apply elem_of_nil in HR.
      * intros i j R R' HR. rewrite lookup_nil in HR. done.
  - intros p Hp. by apply elem_of_nil in Hp.
Qed.

Lemma wloop_ok img heap hs n : length img = W * (h + 2) -> (forall p, p ∈ nodes -> img !! p = Some (N.of_nat (gray p))) ->
  (forall x, x < W * (h + 2) -> x mod W < w + 2 -> x ∉ nodes -> img !! x = Some 0xffff%N) ->
  heapO cap base heap hs (fun _ => []) -> length heap = w * h + 256 -> 6 * (w * h) < n ->
  exists s s', winit W img heap hs = WNext s /\ wrun W (w * h) gap gm P n s = WHalt s' /\ whalted s'.
Proof using All.
  intros R1 R2 R3 R4 R5 Hn. destruct (winit_refine img heap hs R1 R2 R3 R4 R5) as (s & Hs & HR). pose proof wstart_node as H0.
  pose proof (wgraph_ok W w h gray HW) as HG.
  destruct (flood_abs_correct G HG (W + 1) n) as (a & Ha & _); auto.
  { by apply wgraph_connected. }
  { cbn [g_deg g_nodes wgraph]. rewrite length_rect. lia. }
  pose proof (wrun_refine n s _ _ _ HR (ainit_inv G (W + 1) H0)) as Hrun. rewrite Ha in Hrun.
  destruct Hrun as (s' & Hs' & Hh'). exists s, s'. done.
Qed.
End run.

(* ---------- the preparation ---------- *)
Lemma nodes_seq W w h : 0 < w -> rect_nodes W 1 1 w h = map (fun k => gid W 1 1 (k / w) (k mod w)) (seq 0 (w * h)).
Proof.
  intros Hw. induction h as [|h IH]; [by rewrite Nat.mul_0_r|]. unfold rect_nodes in *. rewrite seq_S, flat_map_app, IH. cbn [flat_map]. rewrite app_nil_r.
  replace (w * S h) with (w * h + w) by lia. rewrite seq_app, map_app. f_equal. rewrite !Nat.add_0_l.
  assert (seq (w * h) w = map (Nat.add (w * h)) (seq 0 w)) as -> by (rewrite (fmap_add_seq (w * h) 0 w : map _ _ = _); f_equal; lia). rewrite map_map. apply map_ext_in. intros c Hc. apply in_seq in Hc.
  rewrite (Nat.mul_comm w h), Nat.div_add_l, Nat.div_small by lia. rewrite (Nat.add_comm _ c), Nat.mod_add, Nat.mod_small by lia. f_equal. lia.
Qed.

Section prep.
Context (src : list N) (step w h : nat) (gm : N) (HF : limg_fits src step w h).
Notation W := (wide w).
Notation nodes := (rect_nodes W 1 1 w h).
(* the value of the pixel at a position of m_temp_image *)
Definition wgray (p : nat) : nat := N.to_nat (wvalue gm (nth ((p / W - 1) * step + (p mod W - 1)) src 0%N)).

Lemma wsrc r c : r < h -> c < w -> exists v, src !! (r * step + c) = Some v /\ (v < 256)%N /\ wgray (gid W 1 1 r c) = N.to_nat (wvalue gm v) /\ (wvalue gm v < 256)%N.
Proof using HF.
  intros Hr Hc. destruct HF as [F1 F2 F3 F4 F5]. destruct (wide_ok w) as [_ Hwide].
  destruct (lookup_lt_is_Some_2 src (r * step + c)) as [v Hv]; [nia|]. exists v. pose proof (F5 _ _ Hv) as Hb. split; [done|]. split; [done|].
  split; [|unfold wvalue; destruct (gm =? 0)%N; lia]. unfold wgray, gid.
  rewrite Nat.div_add_l, Nat.div_small by lia. rewrite (Nat.add_comm (_ * W)), Nat.mod_add, Nat.mod_small by lia.
  replace (1 + r + 0 - 1) with r by lia. replace (1 + c - 1) with c by lia. by rewrite (nth_lookup_Some _ _ _ _ Hv).
Qed.
Lemma wgray_lt p : p ∈ nodes -> wgray p < 256.
Proof using HF. intros Hp. apply elem_rect in Hp as (r & c & Hr & Hc & ->). destruct (wsrc r c Hr Hc) as (v & _ & _ & -> & Hb). lia. Qed.

Lemma wfill_ok old : length old = W * (h + 2) -> exists img, wfill src step w h gm old = Some img /\ length img = W * (h + 2) /\
  (forall p, p ∈ nodes -> img !! p = Some (N.of_nat (wgray p))) /\
  (forall x, x < W * (h + 2) -> x mod W < w + 2 -> x ∉ nodes -> img !! x = Some 0xffff%N).
Proof using HF.
  intros Ho. destruct (wide_ok w) as [_ Hwide]. unfold wfill.
  set (f := fun i : nat => let y := i / W in let x := i mod W in _).
  assert (forall i, i < W * (h + 2) -> is_Some (f i) /\ (i ∈ nodes -> f i = Some (N.of_nat (wgray i))) /\ (i mod W < w + 2 -> i ∉ nodes -> f i = Some 0xffff%N)) as Hf.
  { intros i Hi. assert (i mod W < W) as Hm by (apply Nat.mod_upper_bound; lia). assert (i / W < h + 2) as Hd by (apply Nat.div_lt_upper_bound; lia).
    pose proof (Nat.div_mod i W ltac:(lia)) as Hdm. unfold f. cbv zeta.
    destruct ((1 <=? i / W) && (i / W <=? h) && (1 <=? i mod W) && (i mod W <=? w)) eqn:E.
    - rewrite !andb_true_iff in E. destruct E as [[[E1 E2] E3] E4]. apply Nat.leb_le in E1, E2, E3, E4.
      assert (i = gid W 1 1 (i / W - 1) (i mod W - 1)) as Hg. { unfold gid. replace (1 + (i / W - 1)) with (i / W) by lia. lia. }
      destruct (wsrc (i / W - 1) (i mod W - 1)) as (v & Hv & _ & Hgr & _); [lia|lia|]. rewrite <-Hg in Hgr. rewrite Hv. cbn. split; [eauto|]. split.
      + intros _. by rewrite Hgr, N2Nat.id.
      + intros _ Hn. exfalso. apply Hn. apply elem_rect. eexists _, _. split; [|split; [|exact Hg]]; lia.
    - assert (i ∉ nodes) as Hn.
      { intros Hin. apply elem_rect in Hin as (r & c & Hr & Hc & He). unfold gid in He. rewrite He in E. rewrite Nat.div_add_l, (Nat.div_small (1 + c)) in E by lia.
        rewrite (Nat.add_comm (_ * W)), Nat.mod_add, Nat.mod_small in E by lia.
        rewrite !andb_false_iff, !Nat.leb_gt in E. lia. }
      destruct (Nat.ltb_spec (i mod W) (w + 2)) as [H|H].
      + split; [eauto|]. split; [done|]. done.
      + split; [apply lookup_lt_is_Some_2; lia|]. split; [done|]. lia. }
  assert (is_Some (mapM f (seq 0 (W * (h + 2))))) as [img Himg].
  { apply mapM_is_Some_2. apply Forall_forall. intros i Hi. apply elem_of_seq in Hi. apply Hf. lia. }
  exists img. split; [done|]. pose proof Himg as HF2. apply mapM_Some_1 in HF2. pose proof (Forall2_length _ _ _ HF2) as Hl. rewrite seq_length in Hl. split; [done|].
  assert (forall i, i < W * (h + 2) -> img !! i = f i) as Hlook.
  { intros i Hi. destruct (lookup_lt_is_Some_2 img i) as [v Hv]; [lia|]. destruct (Forall2_lookup_r _ _ _ _ _ HF2 Hv) as (j & Hj & Hfj).
    apply lookup_seq in Hj as [-> _]. rewrite Hv. cbn in Hfj. done. }
  split.
  - intros p Hp. pose proof (wnode_range W w h Hwide p Hp) as [_ Hlt]. rewrite Hlook by lia. apply Hf; [lia|done].
  - intros x Hx Hm Hn. rewrite Hlook by done. by apply Hf.
Qed.

Lemma wcounts_ok : exists lvl, wcounts src step w h gm = Some lvl /\ length lvl = 256 /\ forall v, v < 256 -> lvl !! v = Some (lcount wgray nodes v).
Proof using HF.
  pose proof HF as [F1 F2 F3 F4 F5]. unfold wcounts.
  set (f := fun k : nat => wvalue gm <$> src !! (k / w * step + k mod w)).
  assert (forall k, k < w * h -> exists v, f k = Some v /\ wgray (gid W 1 1 (k / w) (k mod w)) = N.to_nat v) as Hf.
  { intros k Hk. destruct (wsrc (k / w) (k mod w)) as (v & Hv & _ & Hg & _); [apply Nat.div_lt_upper_bound; lia|apply Nat.mod_upper_bound; lia|].
    exists (wvalue gm v). unfold f. rewrite Hv. done. }
  assert (is_Some (mapM f (seq 0 (w * h)))) as [l Hl].
  { apply mapM_is_Some_2. apply Forall_forall. intros i Hi. apply elem_of_seq in Hi. destruct (Hf i) as (v & Hv & _); [lia|]. exists v. exact Hv. }
  rewrite Hl. eexists. split; [done|]. rewrite map_length, seq_length. split; [done|]. intros v Hv.
  change (map ?g ?x) with (g <$> x). rewrite list_lookup_fmap, lookup_seq_lt by done. cbn. f_equal.
  apply mapM_Some_1 in Hl. unfold lcount. rewrite nodes_seq by done.
  assert (forall a, Forall (fun k => k < w * h) a -> forall l, Forall2 (fun x y => f x = Some y) a l ->
    length (filter (fun x => N.to_nat x = v) l) = length (filter (fun p => wgray p = v) (map (fun k => gid W 1 1 (k / w) (k mod w)) a))) as H.
  { clear l Hl. intros a Ha l H2. induction H2 as [|k y a l Hk _ IH]; [done|]. apply Forall_cons in Ha as [Hkl Ha]. cbn [map]. rewrite !filter_cons.
    destruct (Hf k Hkl) as (v' & Hv' & Hg). rewrite Hk in Hv'. injection Hv' as <-. specialize (IH Ha).
    rewrite Hg. destruct (decide (N.to_nat y = v)); cbn [length]; lia. }
  apply H; [|done]. apply Forall_forall. intros i Hi. apply elem_of_seq in Hi. lia.
Qed.

Lemma wheaps_ok lvl heap hs : length lvl = 256 -> (forall v, v < 256 -> lvl !! v = Some (lcount wgray nodes v)) ->
  length heap = w * h + 256 -> length hs = 256 -> hs !! 0 = Some 0 ->
  exists heap' hs', wheaps lvl heap hs = Some (heap', hs') /\ length heap' = w * h + 256 /\
    heapO (cap_of lvl) (base_of lvl) heap' hs' (fun _ => []).
Proof using HF.
  intros Hll Hlv Hhl Hhs H0. unfold wheaps. rewrite H0, store_ok by lia.
  assert (base_of lvl 256 = w * h + 256) as Hb.
  { unfold base_of. f_equal. rewrite <-(length_rect W 1 1), <-(lcount_sum wgray nodes 256) by (apply wgray_lt).
    f_equal. apply map_ext_in. intros v Hv. apply in_seq in Hv. unfold cap_of. by rewrite Hlv by lia. }
  destruct (for_from_inv (fun i (s : list (option nat) * list nat) => length (fst s) = w * h + 256 /\ length (snd s) = 256 /\
      forall g, g < i -> snd s !! g = Some (base_of lvl g) /\ fst s !! base_of lvl g = Some None)
    1 255 (oheap_start lvl) (<[0 := None]> heap, hs)) as ([heap' hs'] & -> & HI1 & HI2 & HI3).
  { cbn [fst snd]. rewrite !insert_length. split; [done|]. split; [done|]. intros g Hg. replace g with 0 by lia.
    change (base_of lvl 0) with 0. split; [done|]. apply list_lookup_insert; lia. }
  { intros i [heap1 hs1] Hi (I1 & I2 & I3). cbn [fst snd] in *. unfold oheap_start. cbn [fst snd].
    destruct (I3 (i - 1)) as [H1 H2]; [lia|]. rewrite H1. rewrite (Hlv (i - 1)) by lia.
    assert (base_of lvl i = base_of lvl (i - 1) + lcount wgray nodes (i - 1) + 1) as HbS.
    { replace i with (S (i - 1)) at 1 by lia. rewrite base_of_S. unfold cap_of. by rewrite Hlv by lia. }
    rewrite <-HbS. pose proof (base_of_S lvl 255). assert (base_of lvl i < base_of lvl 256) as Hlt2.
    { pose proof (base_of_le lvl i 255 ltac:(lia)). lia. }
    rewrite !store_ok by lia. eexists. split; [done|]. cbn [fst snd]. split; [by rewrite insert_length|]. split; [by rewrite insert_length|].
    intros g Hg. destruct (decide (g = i)) as [->|Hgi].
    - rewrite !list_lookup_insert by lia. done.
    - rewrite list_lookup_insert_ne by done. destruct (I3 g) as [G1 G2]; [lia|]. split; [done|].
      rewrite list_lookup_insert_ne; [done|]. intros He. apply base_of_inj in He. lia. }
  cbn [fst snd] in *. exists heap', hs'. split; [done|]. split; [done|]. split; [done|]. split.
  { rewrite HI1. pose proof (base_of_S lvl 255). lia. }
  intros g Hg. destruct (HI3 g) as [G1 G2]; [lia|]. cbn [length rev]. rewrite Nat.add_0_r. split; [done|]. split; [done|].
  intros i x Hx. rewrite lookup_nil in Hx. done.
Qed.

(* a pass *)
Lemma wpass_ok n P gap pt b : wbuf_ok w h b -> 6 * (w * h) < n -> (forall p, p ∈ nodes -> wpoint W gap p = Some (pt p)) ->
  exists out s' b', w_pass n src step w h P gap gm b = Some (out, s', b') /\ wbuf_ok w h b' /\ Forall (rec_sound W w h gm P wgray pt) out /\ recs_ok W w h P pt out.
Proof using HF.
  intros [B1 B2 B3 B4] Hn Hpt. pose proof HF as [F1 F2 _ _ _]. destruct (wide_ok w) as [_ Hwide]. unfold w_pass.
  destruct (wfill_ok _ B1) as (img & -> & I1 & I2 & I3). destruct wcounts_ok as (lvl & -> & L1 & L2).
  destruct (wheaps_ok lvl _ _ L1 L2 B2 B3 B4) as (heap & hs & -> & H1 & H2).
  destruct (wloop_ok W w h gap gm P wgray pt Hwide F1 F2 Hpt) with (cap := cap_of lvl) (base := base_of lvl) (img := img) (heap := heap) (hs := hs) (n := n)
    as (s & s' & -> & -> & HO & HO2 & HL1 & HL2 & HL3 & HL4); auto.
  { intros p Hp. cbn [g_gray wgraph]. cbn [g_nodes wgraph] in Hp. pose proof (wgray_lt p Hp). lia. }
  { intros g. apply base_of_S. }
  { intros g. unfold cap_of. destruct (decide (g < 256)) as [Hg|Hg]; [by rewrite L2|].
    destruct (filter (fun p => wgray p = g) nodes) as [|p l] eqn:E; [cbn; lia|]. exfalso.
    assert (p ∈ filter (fun p => wgray p = g) nodes) as Hp by (rewrite E; left).
    apply elem_of_list_filter in Hp as [Hp1 Hp2]. apply wgray_lt in Hp2. lia. }
  eexists _, _, _. split; [done|]. split; [|done]. constructor; auto.
Qed.
End prep.
