(* The loop of the OpenCV-style extraction refines the abstract flooding machine. *)
From stdpp Require Import sorting relations functions list_numbers list.
From Coq Require Import NArith ZArith SpecFloat.
From Verif Require Import Spec FloodAbs FloodAbsInv FloodAbsProof Grid FloodModel FloatModel RectModel RecogModel
  LinkedHeap OcvModel OcvHeap OcvRefine Oc2Model Oc2Hist Oc2Comp Oc2Join Oc2Seg.
Local Open Scope nat_scope.

(* ---------- words ---------- *)
Definition ww (d g : nat) : N := (0x8000 + 0x100 * N.of_nat d + N.of_nat g)%N.
Definition wwcheck (d g : nat) : bool :=
  negative16 (ww d g) && (gray_of (ww d g) =? g) && (dir_of (ww d g) =? d) && Bool.eqb (N.land (ww d g) 0x700 <? 0x400)%N (d <? 4) &&
  ((d =? 4) || (next_dir (ww d g) =? ww (S d) g)%N) &&
  negb (negative16 (N.of_nat g)) && (gray_of (N.of_nat g) =? g) && (N.lor (N.of_nat g) 0x8000 =? ww 0 g)%N.
Lemma wwcheck_all : forallb (fun d => forallb (wwcheck d) (seq 0 256)) (seq 0 5) = true.
Proof. vm_compute. reflexivity. Qed.
Lemma ww_ok d g : d <= 4 -> g <= 255 -> negative16 (ww d g) = true /\ gray_of (ww d g) = g /\ dir_of (ww d g) = d /\ (N.land (ww d g) 0x700 <? 0x400)%N = (d <? 4) /\
  (d < 4 -> next_dir (ww d g) = ww (S d) g).
Proof.
  intros Hd Hg. pose proof wwcheck_all as H. rewrite forallb_forall in H. specialize (H d). rewrite in_seq in H. specialize (H ltac:(lia)).
  rewrite forallb_forall in H. specialize (H g). rewrite in_seq in H. specialize (H ltac:(lia)). unfold wwcheck in H.
  rewrite !andb_true_iff in H. destruct H as (((((((H1 & H2) & H3) & H4) & H5) & _) & _) & _). apply Nat.eqb_eq in H2, H3. apply Bool.eqb_prop in H4.
  repeat split; auto. intros Hlt. apply orb_true_iff in H5 as [H5|H5]; [apply Nat.eqb_eq in H5; lia|]. by apply N.eqb_eq in H5.
Qed.
Lemma w0_ok g : g <= 255 -> negative16 (N.of_nat g) = false /\ gray_of (N.of_nat g) = g /\ N.lor (N.of_nat g) 0x8000 = ww 0 g.
Proof.
  intros Hg. pose proof wwcheck_all as H. rewrite forallb_forall in H. specialize (H 0). rewrite in_seq in H. specialize (H ltac:(lia)).
  rewrite forallb_forall in H. specialize (H g). rewrite in_seq in H. specialize (H ltac:(lia)). unfold wwcheck in H.
  rewrite !andb_true_iff in H. destruct H as (((((((_ & _) & _) & _) & _) & H1) & H2) & H3). apply negb_true_iff in H1. apply Nat.eqb_eq in H2. apply N.eqb_eq in H3. done.
Qed.

Lemma wfind_eq heap hs g n : wfind heap hs g g n = match ofind heap hs g n with None => None | Some None => Some None | Some (Some v) => Some (Some (v, v)) end.
Proof. revert g. induction n as [|n IH]; intros g; cbn [wfind ofind]; [done|]. destruct (heap_top heap hs g) as [[p|]|]; [done|apply IH|done]. Qed.

(* ---------- the image as a graph ---------- *)
Definition wgraph (W w h : nat) (gray : nat -> nat) : pgraph :=
  PGraph (rect_nodes W 1 1 w h) 4 (fun p d => rect_nbr W 1 1 w h p (operm d)) gray.
Lemma wgraph_adj W w h gray p q : adj (wgraph W w h gray) p q <-> adj (rect_graph W 1 1 w h gray) p q.
Proof.
  unfold adj. cbn [g_deg g_nbr wgraph rect_graph]. split; intros (d & Hd & Hq).
  - exists (operm d). split; [|done]. destruct d as [|[|[|[|d]]]]; cbn; lia.
  - exists (operm d). destruct d as [|[|[|[|d]]]]; (split; [cbn; lia|done]).
Qed.
Lemma wgraph_ok W w h gray : w + 2 <= W -> graph_ok (wgraph W w h gray).
Proof.
  intros Hc. destruct (rect_graph_ok W 1 1 w h gray) as [H1 H2 H3 H4]; [lia|]. constructor; [done| | |].
  - intros p q Hp Ha. rewrite wgraph_adj in Ha. by apply (H2 p q).
  - intros p q Hp Ha. rewrite wgraph_adj in Ha. apply wgraph_adj. by apply H3.
  - intros p Hp Ha. rewrite wgraph_adj in Ha. by apply (H4 p).
Qed.
Lemma wgraph_connected W w h gray : w + 2 <= W -> graph_connected (wgraph W w h gray).
Proof.
  intros Hc p q Hp Hq. pose proof (rect_connected W 1 1 w h gray ltac:(lia) p q Hp Hq) as H.
  clear -H. induction H as [x|x y z Hxy _ IH]; [apply rtc_refl|]. eapply rtc_l; [|exact IH]. by apply wgraph_adj.
Qed.

Definition wword (x : pst) (g : nat) : N := match x with PU => N.of_nat g | PW d => ww d g | PD _ => ww 4 g end.
Definition wsent : wcomp := WComp 256 0 None None None false fzero.

Section refine.
Context (W w h : nat) (gap : Z) (gm : N) (P : rparam) (gray : nat -> nat) (pt : nat -> Z * Z).
Context (HW : w + 2 <= W) (Hw : 0 < w) (Hh : 0 < h).
Notation G := (wgraph W w h gray).
Notation nodes := (rect_nodes W 1 1 w h).
Context (Hpt : forall p, p ∈ nodes -> wpoint W gap p = Some (pt p)) (Hgb : gray_bound G).
Context (cap base : nat -> nat).
Context (Hbase : forall g, base (S g) = base g + cap g + 1).
Context (Hcap : forall g, length (filter (fun p => gray p = g) nodes) <= cap g).

Lemma wnode_range p : p ∈ nodes -> W < p /\ p + W < W * (h + 2).
Proof using HW. clear -HW. intros Hp. apply elem_rect in Hp as (r & c & Hr & Hc & ->). unfold gid. nia. Qed.

(* positions next to the image *)
Lemma wout r c x : c < W -> x = (1 + r) * W + c -> c < 1 \/ w < c \/ h <= r -> x ∉ nodes.
Proof using HW.
  clear -HW. intros Hc -> H Hin. apply elem_rect in Hin as (r' & c' & Hr' & Hc' & He). unfold gid in He.
  assert (1 + r = 1 + r' /\ c = 1 + c') as [E1 E2].
  { pose proof (Nat.div_unique ((1 + r) * W + c) W (1 + r) c Hc ltac:(lia)) as Q1.
    pose proof (Nat.div_unique ((1 + r) * W + c) W (1 + r') (1 + c') ltac:(lia) ltac:(lia)) as Q2. nia. }
  lia.
Qed.
Lemma wnbr_ok p d : p ∈ nodes -> d < 4 -> exists x, onbr W p (S d) = Some x /\ x < W * (h + 2) /\ x mod W < w + 2 /\
  match g_nbr G p d with Some q => x = q | None => x ∉ nodes end.
Proof using HW Hw Hh.
  clear -HW Hw Hh. intros Hp Hd. pose proof (wnode_range p Hp) as Hrange. apply elem_rect in Hp as (r & c & Hr & Hc & ->).
  assert (forall a b, b < W -> (a * W + b) mod W = b) as Hmod.
  { intros a b Hb. rewrite Nat.add_comm, Nat.mod_add by lia. by apply Nat.mod_small. }
  cbn [g_nbr wgraph]. unfold rect_nbr. rewrite (gid_row W 1 1 w), (gid_col W 1 1 w) by lia.
  destruct d as [|[|[|[|d]]]]; cbn [operm onbr]; [| | | |lia].
  - exists (gid W 1 1 r c + 1). split; [done|]. split; [lia|].
    split. { replace (gid W 1 1 r c + 1) with ((1 + r) * W + (c + 2)) by (unfold gid; lia). rewrite Hmod; lia. }
    destruct (Nat.ltb_spec (S c) w); [unfold gid; lia|]. apply (wout r (c + 2)); [lia|unfold gid; lia|lia].
  - exists (gid W 1 1 r c + W). split; [done|]. split; [lia|].
    split. { replace (gid W 1 1 r c + W) with ((2 + r) * W + (1 + c)) by (unfold gid; lia). rewrite Hmod; lia. }
    destruct (Nat.ltb_spec (S r) h); [unfold gid; lia|]. apply (wout (S r) (1 + c)); [lia|unfold gid; lia|lia].
  - destruct (Nat.leb_spec 1 (gid W 1 1 r c)); [|lia]. exists (gid W 1 1 r c - 1). split; [done|]. split; [lia|].
    split. { replace (gid W 1 1 r c - 1) with ((1 + r) * W + c) by (unfold gid; lia). rewrite Hmod; lia. }
    destruct c as [|c]; [|unfold gid; lia]. apply (wout r 0); [lia|unfold gid; lia|lia].
  - destruct (Nat.leb_spec W (gid W 1 1 r c)); [|lia]. exists (gid W 1 1 r c - W). split; [done|]. split; [lia|].
    split. { replace (gid W 1 1 r c - W) with (r * W + (1 + c)) by (unfold gid; lia). rewrite Hmod; lia. }
    destruct r as [|r]; [|unfold gid; lia]. intros Hin. apply wnode_range in Hin. unfold gid in Hin. lia.
Qed.

(* SPEC of a record, in terms of the graph *)
Definition rec_sound (rc : wmser) : Prop := exists l g, l <> [] /\ NoDup l /\ (forall p, p ∈ l -> p ∈ nodes) /\ g <= 255 /\
  (forall p q, p ∈ l -> q ∈ l -> conn G g p q) /\ wm_pts rc = map pt l /\ wm_size rc = length l /\
  (p_min P <= Z.of_nat (length l) <= p_max P)%Z /\ wm_rect rc = wbound (map pt l) /\ wm_level rc = wlevel gm g.

(* the points of the records: of two records the later one contains the earlier one or is
   disjoint from it *)
Definition recs_ok (out : list wmser) : Prop := exists ls, Forall2 (fun l rc => wm_pts rc = map pt l /\ forall p, p ∈ l -> p ∈ nodes) ls out /\
  forall i j l l', ls !! i = Some l -> ls !! j = Some l' -> i < j -> pairok P l l'.
Lemma recs_of pn next hs comps ocs Ls RL out : CS pn next hs comps ocs Ls -> SG P hs ocs Ls RL -> Forall2 (recpts pt pn) RL out -> (forall p, p ∈ pn -> p ∈ nodes) -> recs_ok out.
Proof using.
  intros HC HS HF Hin. exists (map (map (nd pn)) RL).
  assert (forall R, R ∈ RL -> forall k, k ∈ R -> exists p, pn !! k = Some p) as Hlt.
  { intros R HR k Hk. destruct (sg_seg _ _ _ _ _ HS R HR) as (_ & i & oc & L & E1 & E2 & (_ & _ & o & _ & _ & E3 & _)). rewrite E3 in Hk. apply take_elem in Hk.
    assert (k ∈ L) as HkL. { rewrite <-(take_drop o L). apply elem_of_app. by right. }
    destruct (Forall3_lookup_m _ _ _ _ _ _ (cs_rel _ _ _ _ _ _ HC) E1) as (ci & Li & _ & E4 & Hci). rewrite E2 in E4. injection E4 as <-.
    destruct (cw_sub _ _ _ _ _ _ Hci k HkL) as (p & Hp & _). eauto. }
  split.
  - apply Forall2_fmap_l. assert (forall R, R ∈ RL -> forall p, p ∈ map (nd pn) R -> p ∈ nodes) as Hn.
    { intros R HR p Hp. apply elem_of_list_fmap in Hp as (k & -> & Hk). destruct (Hlt R HR k Hk) as (q & Hq). unfold nd. rewrite Hq. cbn. apply Hin. by eapply elem_of_list_lookup_2. }
    clear Hlt HS. induction HF as [|R rc RL out HR _ IH]; [constructor|]. constructor.
    + split; [exact HR|]. apply Hn. left.
    + apply IH. intros R' HR'. apply Hn. by right.
  - intros i j l l' Hi Hj Hij. change (map (map (nd pn)) RL) with (map (nd pn) <$> RL) in Hi, Hj. apply list_lookup_fmap_Some in Hi as (R & HR & ->), Hj as (R' & HR' & ->).
    pose proof (elem_of_list_lookup_2 _ _ _ HR) as InR. pose proof (elem_of_list_lookup_2 _ _ _ HR') as InR'.
    destruct (sg_pair _ _ _ _ _ HS i j R R' HR HR' Hij) as [Hd|[Hs Hst]].
    + left. intros p Hp Hp'. apply elem_of_list_fmap in Hp as (k & -> & Hk), Hp' as (k' & E & Hk'). destruct (Hlt R InR k Hk) as (q & Hq), (Hlt R' InR' k' Hk') as (q' & Hq').
      unfold nd in E. rewrite Hq, Hq' in E. cbn in E. subst q'. pose proof (NoDup_lookup _ _ _ _ (cs_pnd _ _ _ _ _ _ HC) Hq Hq') as ->. by apply (Hd k').
    + right. rewrite !map_length. split; [|done]. intros p Hp. apply elem_of_list_fmap in Hp as (k & -> & Hk). apply elem_of_list_fmap. exists k. auto.
Qed.
Lemma recpts_mono pn x RL out hs ocs Ls next comps : CS pn next hs comps ocs Ls -> SG P hs ocs Ls RL -> Forall2 (recpts pt pn) RL out -> Forall2 (recpts pt (pn ++ [x])) RL out.
Proof using.
  intros HC HS HF. assert (forall R, R ∈ RL -> forall k, k ∈ R -> k < length pn) as Hlt.
  { intros R HR k Hk. destruct (sg_seg _ _ _ _ _ HS R HR) as (_ & i & oc & L & E1 & E2 & (_ & _ & o & _ & _ & E3 & _)). rewrite E3 in Hk. apply take_elem in Hk.
    assert (k ∈ L) as HkL. { rewrite <-(take_drop o L). apply elem_of_app. by right. }
    destruct (Forall3_lookup_m _ _ _ _ _ _ (cs_rel _ _ _ _ _ _ HC) E1) as (ci & Li & _ & E4 & Hci). rewrite E2 in E4. injection E4 as <-. by eapply sub_lt. }
  clear HS. induction HF as [|R rc RL out HR _ IH]; [constructor|]. constructor.
  - unfold recpts in *. rewrite HR. f_equal. apply map_ext_in. intros k Hk. apply elem_of_list_In in Hk. assert (k < length pn) by (apply (Hlt R); [left|done]).
    unfold nd. by rewrite lookup_app_l.
  - apply IH. intros R' HR'. apply Hlt. by right.
Qed.

Record WR (s : wst) (a : ast) (pn : list nat) (Ls : list (list nat)) : Prop := MkWR {
  wr_cur : s_cur s = a_cur a;
  wr_lev : s_lev s = gray (a_cur a);
  wr_cw : s_img s !! a_cur a = Some (ww (a_d a) (gray (a_cur a)));
  wr_px : forall p, p ∈ nodes -> p <> a_cur a -> s_img s !! p = Some (wword (a_px a p) (gray p));
  wr_bd : forall x, x < W * (h + 2) -> x mod W < w + 2 -> x ∉ nodes -> s_img s !! x = Some 0xffff%N;
  wr_len : length (s_img s) = W * (h + 2);
  wr_heap : heapO cap base (s_heap s) (s_hs s) (a_heap a);
  wr_hl : length (s_heap s) = w * h + 256;
  wr_comps : exists ocs, s_comps s = ocs ++ [wsent] /\ CS pn (wm_next (s_mem s)) (wm_hist (s_mem s)) (a_comps a) ocs Ls /\
    exists RL, SG P (wm_hist (s_mem s)) ocs Ls RL /\ Forall2 (recpts pt pn) RL (wm_out (s_mem s));
  wr_pn : forall p, p ∈ pn -> exists r, a_px a p = PD r;
  wr_xy : wm_xy (s_mem s) = map pt pn;
  wr_cnt : length (wm_hist (s_mem s)) + length (a_comps a) = length (a_regs a);
  wr_out : Forall rec_sound (wm_out (s_mem s))
}.

Lemma wtake_ok img heap hs ah g comps aregs ocs m px px' cur d p l d1 pn Ls RL :
  InvA G px cur d ah -> (forall q, q <> cur -> px' q = px q) -> (exists r, px' cur = PD r) ->
  img !! cur = Some (ww 4 (gray cur)) ->
  (forall q, q ∈ nodes -> q <> cur -> img !! q = Some (wword (px q) (gray q))) ->
  (forall x, x < W * (h + 2) -> x mod W < w + 2 -> x ∉ nodes -> img !! x = Some 0xffff%N) -> length img = W * (h + 2) ->
  heapO cap base heap hs ah -> g <= 255 -> ah g = p :: l -> px p = PW d1 -> length heap = w * h + 256 ->
  CS pn (wm_next m) (wm_hist m) comps ocs Ls -> SG P (wm_hist m) ocs Ls RL -> Forall2 (recpts pt pn) RL (wm_out m) -> (forall p, p ∈ pn -> exists r, px' p = PD r) -> wm_xy m = map pt pn ->
  length (wm_hist m) + length comps = length aregs -> Forall rec_sound (wm_out m) ->
  exists s', wtake img heap hs g (ocs ++ [wsent]) m = WNext s' /\
    WR s' (ASt px' p d1 (<[g := l]> ah) comps aregs) pn Ls.
Proof using.
  intros HA Hpx (rc & Hrc) Hcw Hq Hbd Hlen HH Hg Hhp Hp Hhl HC HSG HRL Hpn Hxy Hcnt Hout. unfold wtake.
  rewrite (otop_spec cap base heap hs ah) by auto. rewrite Hhp.
  destruct (opop_spec cap base heap hs ah g p l HH Hg Hhp) as (hs' & -> & HH').
  destruct (i_heap _ _ _ _ _ HA g p) as (Hgp & Hpc & _). { rewrite Hhp. left. }
  assert (p ∈ nodes) as Hpn2. { apply (i_dom _ _ _ _ _ HA). congruence. }
  eexists. split; [done|]. constructor; cbn [s_img s_cur s_lev s_heap s_hs s_comps s_mem a_px a_cur a_d a_heap a_comps a_regs]; auto.
  - rewrite (Hq p Hpn2 Hpc), Hp. done.
  - intros q Hqn Hqp. destruct (decide (q = cur)) as [->|Hqc]; [by rewrite Hrc|]. rewrite Hpx by done. auto.
  - eauto 7.
Qed.

Theorem wstep_refine s a pn Ls : WR s a pn Ls -> Inv G a ->
  match astep G a with
  | ANext a' => exists s' pn' Ls', wstep W (w * h) gap gm P s = WNext s' /\ WR s' a' pn' Ls'
  | AHalt a' => exists s', wstep W (w * h) gap gm P s = WHalt s' /\ Forall rec_sound (wm_out (s_mem s')) /\ recs_ok (wm_out (s_mem s')) /\
      length (s_img s') = W * (h + 2) /\ length (s_heap s') = w * h + 256 /\ length (s_hs s') = 256 /\ s_hs s' !! 0 = Some (base 0)
  | AStuck => True
  end.
Proof using All.
  intros [R1 R2 R3 R4 R5 R6 R7 R8 (ocs & R9 & R10 & RL & R15 & R16) R11 R12 R13 R14] HI.
  pose proof (wgraph_ok W w h gray HW) as HG.
  pose proof (astep_inv G HG a Hgb HI) as HI'.
  pose proof HI as [HA HB HC].
  destruct a as [px cur d ah comps regs], s as [img scur slev heap hs scomps m].
  cbn [s_img s_cur s_lev s_heap s_hs s_comps s_mem a_px a_cur a_d a_heap a_comps a_regs] in *. subst scur slev scomps.
  destruct (i_cur _ _ _ _ _ HA) as (Hcn & (d0 & Hcur) & Hdd). cbn [g_deg g_nodes wgraph] in Hdd, Hcn.
  assert (gray cur <= 255) as Hcg255 by (by apply Hgb).
  assert (forall g, length (ah g) <= cap g) as Hcapg. { intros g. eapply (lheap_cap G cap); eauto. }
  pose proof (wnode_range cur Hcn) as Hcr.
  destruct (ww_ok d (gray cur) Hdd Hcg255) as (V1 & V2 & V3 & V4 & V5).
  unfold wstep. cbn [s_img s_cur]. rewrite R3, V4. unfold astep in *. cbn [a_px a_cur a_d a_heap a_comps a_regs g_deg g_gray g_nbr wgraph] in *.
  destruct (Nat.ltb_spec d 4) as [Hd|Hd].
  - unfold wtour. cbn [s_img s_cur s_lev s_heap s_hs s_comps s_mem]. rewrite V3. specialize (V5 Hd).
    destruct (wnbr_ok cur d Hcn Hd) as (x & -> & Hxa & Hxm & Hx). cbn [g_nbr wgraph] in Hx. rewrite V2, V5.
    assert (WR (WSt (<[cur := ww (S d) (gray cur)]> img) cur (gray cur) heap hs (ocs ++ [wsent]) m) (ASt px cur (S d) ah comps regs) pn Ls) as Hskip.
    { constructor; cbn [s_img s_cur s_lev s_heap s_hs s_comps s_mem a_px a_cur a_d a_heap a_comps a_regs]; eauto 7.
      - apply list_lookup_insert. lia.
      - intros p Hp Hne. rewrite list_lookup_insert_ne by done. auto.
      - intros y Hy Hym Hyn. rewrite list_lookup_insert_ne by (by intros ->). auto.
      - by rewrite insert_length. }
    destruct (rect_nbr W 1 1 w h cur (operm d)) as [q|] eqn:Hq.
    + subst x. assert (q ∈ nodes) as Hqn. { eapply (gok_closed _ HG cur); [done|]. exists d. done. }
      assert (q <> cur) as Hqc. { intros ->. apply (gok_irrefl _ HG cur); auto. exists d. done. }
      assert (gray q <= 255) as Hqg by (by apply Hgb). pose proof (wnode_range q Hqn) as Hqr.
      rewrite (R4 q Hqn Hqc). destruct (px q) as [|d1|r1] eqn:Hpq; cbn [wword].
      * destruct (w0_ok (gray q) Hqg) as (-> & -> & ->).
        destruct (Nat.ltb_spec (gray cur + gray q) (gray cur)) as [|_]; [lia|].
        replace (gray cur + gray q - gray cur) with (gray q) by lia.
        set (img1 := <[cur := ww (S d) (gray cur)]> (<[q := ww 0 (gray q)]> img)).
        assert (img1 !! cur = Some (ww (S d) (gray cur))) as I1. { apply list_lookup_insert. rewrite insert_length. lia. }
        assert (img1 !! q = Some (ww 0 (gray q))) as I2. { unfold img1. rewrite list_lookup_insert_ne by done. apply list_lookup_insert. lia. }
        assert (forall y, y <> cur -> y <> q -> img1 !! y = img !! y) as I3. { intros y H1 H2. unfold img1. by rewrite !list_lookup_insert_ne by done. }
        assert (length img1 = W * (h + 2)) as I4 by (unfold img1; by rewrite !insert_length).
        assert (forall x, x < W * (h + 2) -> x mod W < w + 2 -> x ∉ nodes -> img1 !! x = Some 0xffff%N) as I5.
        { intros y Hy Hym Hyn. rewrite I3; [auto|by intros ->|by intros ->]. }
        destruct (Nat.ltb_spec (gray q) (gray cur)) as [Hlt|Hge].
        -- pose proof (lcomps_bound G _ Hgb HI') as Hcb. cbn [a_comps length] in Hcb.
           pose proof HI' as [HA' _ _]. cbn [a_px a_cur a_d a_heap] in HA'.
           pose proof (lheap_cap G cap _ _ _ _ (gray cur) Hcap HA') as Hc'. rewrite fn_lookup_insert in Hc'. cbn [length] in Hc'.
           destruct (opush_spec cap base Hbase heap hs ah (gray cur) cur) as (heap' & hs' & -> & Hhl & HH'); auto.
           assert (length (ocs ++ [wsent]) <? 257 = true) as ->.
           { apply Nat.ltb_lt. rewrite app_length. cbn [length]. pose proof (cs_rel _ _ _ _ _ _ R10) as HF. apply Forall3_length_lm in HF. lia. }
           eexists _, pn, ([] :: Ls). split; [done|].
           constructor; cbn [s_img s_cur s_lev s_heap s_hs s_comps s_mem a_px a_cur a_d a_heap a_comps a_regs]; auto.
           ++ intros p Hp Hpq'. rewrite fn_lookup_insert_ne by auto. destruct (decide (p = cur)) as [->|Hpc].
              ** rewrite fn_lookup_insert. done.
              ** rewrite fn_lookup_insert_ne by auto. rewrite I3 by done. auto.
           ++ lia.
           ++ exists (wcomp0 (gray q) :: ocs). split; [done|]. split; [by apply CS_new|]. exists RL. split; [by apply SG_new|done].
           ++ intros p Hp. destruct (R11 p Hp) as (r & Hr). exists r.
              rewrite !fn_lookup_insert_ne; [done|congruence|congruence].
           ++ rewrite app_length. cbn [length]. lia.
        -- pose proof HI' as [HA' _ _]. cbn [a_px a_cur a_d a_heap] in HA'.
           pose proof (lheap_cap G cap _ _ _ _ (gray q) Hcap HA') as Hc'. rewrite fn_lookup_insert in Hc'. cbn [length] in Hc'.
           destruct (opush_spec cap base Hbase heap hs ah (gray q) q) as (heap' & hs' & -> & Hhl & HH'); auto.
           eexists _, pn, Ls. split; [done|].
           constructor; cbn [s_img s_cur s_lev s_heap s_hs s_comps s_mem a_px a_cur a_d a_heap a_comps a_regs]; auto.
           ++ intros p Hp Hpc. destruct (decide (p = q)) as [->|Hpq'].
              ** rewrite fn_lookup_insert. done.
              ** rewrite fn_lookup_insert_ne by auto. rewrite I3 by done. auto.
           ++ lia.
           ++ eauto 7.
           ++ intros p Hp. destruct (R11 p Hp) as (r & Hr). exists r. rewrite fn_lookup_insert_ne; [done|congruence].
      * assert (d1 <= 4) as Hd1. { destruct (i_wait _ _ _ _ _ HA q d1 Hpq) as [|Hin]; [done|]. destruct (i_heap _ _ _ _ _ HA _ _ Hin) as (_ & _ & d2 & E & Hle). cbn [g_deg wgraph] in Hle. rewrite Hpq in E. injection E as <-. done. }
        destruct (ww_ok d1 (gray q) Hd1 Hqg) as (-> & _). eauto.
      * destruct (ww_ok 4 (gray q) ltac:(lia) Hqg) as (-> & _). eauto.
    + rewrite (R5 x Hxa Hxm Hx). change (negative16 0xffff) with true. cbn match. eauto.
  - assert (d = 4) as -> by lia. clear Hdd Hd V5.
    destruct HC as (c & rest & -> & Hcg & Hbelow). cbn [g_gray wgraph] in Hcg.
    unfold wfinish. cbn [s_img s_cur s_lev s_heap s_hs s_comps s_mem]. rewrite (Hpt cur Hcn).
    destruct ocs as [|oc orest]; [pose proof (cs_rel _ _ _ _ _ _ R10) as HF; inversion HF|]. cbn [app].
    destruct Ls as [|L Ls]; [pose proof (cs_rel _ _ _ _ _ _ R10) as HF; inversion HF|].
    rewrite R12, map_length.
    assert (cur ∉ pn) as Hcpn. { intros Hin. destruct (R11 cur Hin) as (r & Hr). congruence. }
    assert (length pn < w * h) as Hpnl.
    { rewrite <-(length_rect W 1 1 w h). change (S (length pn) <= length nodes). change (S (length pn)) with (length (cur :: pn)).
      apply submseteq_length, NoDup_submseteq.
      - apply NoDup_cons. split; [done|]. apply (cs_pnd _ _ _ _ _ _ R10).
      - intros p Hp. apply elem_of_cons in Hp as [->|Hp]; [done|]. destruct (R11 p Hp) as (r & Hr). apply (i_dom _ _ _ _ _ HA). congruence. }
    destruct (Nat.leb_spec (w * h) (length pn)) as [|_]; [lia|].
    destruct (CS_add pn (wm_next m) (wm_hist m) c rest oc orest L Ls cur R10 Hcpn) as (oc1 & next1 & -> & HC1 & Hh1).
    pose proof (SG_add P _ _ oc1 _ _ _ _ (length pn) R15 Hh1) as HS1. pose proof (recpts_mono _ cur _ _ _ _ _ _ _ R10 R15 R16) as HRF.
    set (c' := AComp (cg c) (cr c) (cur :: cl c)) in *. set (px' := <[cur := PD (cr c)]> px) in *.
    assert (forall q, q <> cur -> px' q = px q) as Hpx'. { intros q Hq. unfold px'. by rewrite fn_lookup_insert_ne. }
    assert (px' cur = PD (cr c)) as Hpxc. { unfold px'. by rewrite fn_lookup_insert. }
    set (pn' := pn ++ [cur]) in *.
    assert (forall p, p ∈ pn' -> exists r, px' p = PD r) as Hpn'.
    { intros p Hp. apply elem_of_app in Hp as [Hp|Hp].
      - destruct (R11 p Hp) as (r & Hr). exists r. rewrite Hpx'; [done|]. by intros ->.
      - apply elem_of_list_singleton in Hp as ->. eauto. }
    assert (map pt pn ++ [pt cur] = map pt pn') as Exy by (unfold pn'; by rewrite map_app). rewrite Exy.
    assert (L ++ [length pn] <> []) as HLne by (by destruct L).
    pose proof (invB_finish G HG px cur 4 ah c rest regs HA ltac:(cbn; lia) HB Hcg) as HBf. fold c' px' in HBf.
    assert (forall p, p ∈ cl c' -> p ∈ nodes /\ conn G (cg c) p cur) as Hcl.
    { intros p Hp. destruct (i_list _ _ _ _ _ HBf c') as [_ Hl]; [left|]. apply Hl in Hp. split.
      - destruct Hp as (r & Hr & _). destruct (decide (p = cur)) as [->|Hne]; [done|]. rewrite Hpx' in Hr by done. apply (i_dom _ _ _ _ _ HA). congruence.
      - apply (i_conn _ _ _ _ _ HBf c'); [left|done]. }
    assert (forall rc, rec_of pt gm P c' rc -> rec_sound rc) as Hrec.
    { intros rc (l & L1 & L2 & L3 & L4 & L5 & L6 & L7 & L8). exists l, (cg c). split; [done|]. split; [done|]. split; [intros p Hp; by apply Hcl, L3|].
      split; [lia|]. split; [|done]. intros p q Hp Hq. eapply conn_trans; [apply Hcl; by apply L3|]. apply conn_sym; [done|]. apply Hcl. by apply L3. }
    pose proof (lregs_bound G _ HI) as Hrb. cbn [a_regs g_nodes wgraph] in Hrb. rewrite length_rect in Hrb. cbn [length] in R13.
    rewrite (otop_spec cap base heap hs ah) by (auto; lia).
    destruct (ah (gray cur)) as [|p l] eqn:Hah.
    + assert (ah 256 = []) as H256.
      { destruct (ah 256) as [|p l] eqn:E; [done|]. destruct (i_heap _ _ _ _ _ HA 256 p) as (Hgp & _ & (d2 & Hd2 & _)); [rewrite E; left|].
        cbn [g_gray wgraph] in Hgp. assert (gray p <= 255); [|lia]. apply Hgb. apply (i_dom _ _ _ _ _ HA). congruence. }
      rewrite V2, wfind_eq. rewrite (ofind_spec cap base heap hs ah) by (auto; lia).
      replace (256 - gray cur) with (S (255 - gray cur)) in * by lia.
      rewrite find_level_snoc in * by (replace (S (gray cur) + (255 - gray cur)) with 256 by lia; done).
      destruct (find_level ah (S (gray cur)) (255 - gray cur)) as [g'|] eqn:Hf.
      * apply find_level_some in Hf as (Hr & Hnn & Hfst).
        destruct (ah g') as [|p l] eqn:Hg'; [done|].
        destruct (i_heap _ _ _ _ _ HA g' p) as (Hgp & Hpc & (d2 & Hd2 & Hd2le)); [rewrite Hg'; left|].
        assert (g' <= 255) as Hg255. { rewrite <-Hgp. apply Hgb. apply (i_dom _ _ _ _ _ HA). congruence. }
        clear Hgp. rewrite Hd2 in *.
        (* raising *)
        assert (forall o2 r2, orest ++ [wsent] = o2 :: r2 -> g' < w_gray o2 -> length (wm_hist m) < w * h ->
          exists s' pn0 Ls', match (if g' <? w_gray o2
                 then match wraise P gm (w * h) g' oc1 (WMem (map pt pn') next1 (wm_hist m) (wm_out m)) with Some (c0, m') => Some (c0 :: orest ++ [wsent], m') | None => None end
                 else wjoin P gm (w * h) g' oc1 (orest ++ [wsent]) (WMem (map pt pn') next1 (wm_hist m) (wm_out m))) with
               | None => WStuck | Some (comps, m2) => wtake img heap hs g' comps m2 end = WNext s' /\
            WR s' (ASt px' p d2 (<[g' := l]> ah) (AComp g' (length regs) (cl c') :: rest) (set_par (set_rl regs (cr c) (cl c')) (cr c) (length regs) ++ [AReg g' None []])) pn0 Ls') as Hraise.
        { intros o2 r2 He Hlt2 Hcapl. destruct (Nat.ltb_spec g' (w_gray o2)) as [_|]; [|lia].
          destruct (CS_raise pt gm P (w * h) pn' next1 (wm_hist m) c' rest oc1 orest (L ++ [length pn]) Ls (wm_out m) g' (length regs) HC1 HLne Hcapl)
            as (oc2 & hs2 & out2 & Era & Hl2 & HC2 & Hout2).
          destruct (SG_raise P pt gm (w * h) g' pn' next1 (wm_hist m) hs2 c' rest oc1 oc2 orest _ Ls RL _ _ HC1 HS1 HRF Era) as (RL2 & HS2 & HFR2). rewrite Era.
          destruct (wtake_ok img heap hs ah g' (AComp g' (length regs) (cl c') :: rest)
            (set_par (set_rl regs (cr c) (cl c')) (cr c) (length regs) ++ [AReg g' None []]) (oc2 :: orest) (WMem (map pt pn') next1 hs2 out2) px px' cur 4 p l d2 pn' ((L ++ [length pn]) :: Ls) RL2)
            as (s' & Hs' & HWR); eauto.
          - cbn [wm_hist length]. rewrite app_length, length_set_par, length_set_rl. cbn [length]. lia.
          - cbn [wm_out]. destruct Hout2 as [->|(rc & -> & Hrc)]; [done|]. apply Forall_app. split; [done|]. apply Forall_singleton. auto. }
        destruct rest as [|c2 rest'].
        -- cbn [amerge] in *. destruct (Nat.ltb_spec g' 257) as [_|]; [|lia]. rewrite length_set_rl in *.
           pose proof (cs_rel _ _ _ _ _ _ R10) as HF. inversion HF as [|? ? ? ? ? ? HF1 HF2]; subst. inversion HF2; subst.
           pose proof (lregs_bound G _ HI') as Hrb'. cbn [a_regs g_nodes wgraph] in Hrb'. rewrite length_rect, app_length, length_set_par, length_set_rl in Hrb'. cbn [length] in Hrb', R13.
           cbn [app]. eapply (Hraise wsent []); [done|cbn; lia|lia].
        -- cbn [amerge] in *. pose proof (cs_rel _ _ _ _ _ _ HC1) as HF. inversion HF as [|? ? ? ? ? ? HF1 HF2]; subst. inversion HF2 as [|? oc2 L2 ? orest' Ls' HF3 HF4]; subst.
           cbn [app] in *. pose proof (cw_gray _ _ _ _ _ _ HF3) as Hg2.
           assert (g' <= cg c2) as Hgle.
           { destruct (le_lt_dec g' (cg c2)) as [|Hgt]; [done|]. exfalso. apply (Hbelow c2); [left|]. apply Hfst. split; [|done].
             pose proof (i_sorted _ _ _ _ _ HB) as Hs. cbn [map] in Hs. apply StronglySorted_inv in Hs as (_ & Hall). rewrite Forall_forall in Hall. specialize (Hall (cg c2)).
             rewrite Hcg in Hall. apply Hall. left. }
           destruct (Nat.ltb_spec g' (cg c2)) as [Hlt2|Hge2].
           ++ rewrite length_set_rl in *. cbn [length] in R13. eapply (Hraise oc2 (orest' ++ [wsent])); [done|lia|lia].
           ++ assert (g' = cg c2) as Hgeq by lia. destruct (Nat.leb_spec g' (cg c2)) as [_|]; [|lia].
              destruct (Nat.ltb_spec g' (w_gray oc2)) as [|_]; [lia|]. cbn [wjoin wm_next wm_hist wm_xy wm_out]. cbn [length] in R13.
              destruct (CS_merge pt (w * h) pn' next1 (wm_hist m) c' c2 rest' oc1 oc2 orest' (L ++ [length pn]) L2 Ls' (cr c2) HC1 HLne ltac:(lia)) as (oc' & next' & hs' & L' & Eme & Hl2 & Hgo & HC2 & EL').
              pose proof (SG_merge P _ _ _ _ _ _ _ _ _ _ _ _ _ _ _ _ _ HC1 HS1 Eme) as HS2. rewrite <-EL' in HS2. rewrite Eme.
              rewrite Hgo. destruct (Nat.leb_spec g' (cg c2)) as [_|]; [|lia].
              destruct (wtake_ok img heap hs ah g' (AComp (cg c2) (cr c2) (cl c2 ++ cl c') :: rest')
                (set_par (set_rl regs (cr c) (cl c')) (cr c) (cr c2)) (oc' :: orest') (WMem (map pt pn') next' hs' (wm_out m)) px px' cur 4 p l d2 pn' (L' :: Ls') RL)
                as (s' & Hs' & HWR); eauto.
              cbn [wm_hist length]. rewrite length_set_par, length_set_rl. lia.
      * eexists. split; [done|]. cbn [s_img s_cur s_lev s_heap s_hs s_comps s_mem wm_out]. split; [done|].
        split; [eapply recs_of; [exact HC1|exact HS1|exact HRF|]; intros p Hp; destruct (decide (p = cur)) as [->|Hne]; [done|];
          destruct (Hpn' p Hp) as (r & Hr); rewrite Hpx' in Hr by done; apply (i_dom _ _ _ _ _ HA); congruence|].
        split; [done|]. split; [done|]. split; [apply R7|].
        destruct R7 as (_ & _ & R7). destruct (R7 0 ltac:(lia)) as (-> & _). f_equal.
        destruct (decide (gray cur = 0)) as [E|E]; [rewrite E in Hah; rewrite Hah; cbn; lia|].
        rewrite (i_low _ _ _ _ _ HA 0) by (cbn; lia). cbn. lia.
    + destruct (i_heap _ _ _ _ _ HA (gray cur) p) as (Hgp & Hpc & (d2 & Hd2 & Hd2le)); [rewrite Hah; left|].
      rewrite Hd2. destruct (wtake_ok img heap hs ah (gray cur) (c' :: rest) regs (oc1 :: orest) (WMem (map pt pn') next1 (wm_hist m) (wm_out m)) px px' cur 4 p l d2 pn' ((L ++ [length pn]) :: Ls) RL)
        as (s' & Hs' & HWR); eauto.
Qed.
End refine.
