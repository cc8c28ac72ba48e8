(* The flooding loop of CV-MSER+ refines the abstract flooding machine, and its
   linked lists hold the pixel lists of that machine. *)
From stdpp Require Import sorting relations functions list.
From Coq Require Import NArith ZArith.
From Verif Require Import Spec FloodAbs FloodAbsInv FloodAbsProof Grid FloodModel FloodRefine
  LinkedModel LinkedHeap LinkedLists.
Local Open Scope nat_scope.

(* word of a visited pixel whose next direction is d *)
Definition wenc (d g : nat) : N := (0x8000 + N.of_nat d * 512 + N.of_nat g)%N.

Definition word_checks (d g : nat) : bool :=
  (lgray (wenc d g) =? g) && (lgray (N.of_nat g) =? g) &&
  (N.lor (N.of_nat g) 0x8000 =? wenc 0 g)%N &&
  ((wenc d g + 0x200) mod 2 ^ 16 =? wenc (S d) g)%N &&
  (N.to_nat (N.shiftr (N.of_nat d * 512) 9) =? d) &&
  (N.land (wenc d g) 0x1e00 =? N.of_nat d * 512)%N &&
  ((4 <? d) || (N.land (wenc d g) 0x0e00 =? N.of_nat d * 512)%N).

Lemma word_checks_ok d g : d <= 8 -> g < 256 -> word_checks d g = true.
Proof.
  intros Hd Hg.
  assert (Forall (fun d => Forall (fun g => word_checks d g = true) (seq 0 256)) (seq 0 9)) as H.
  { apply (bool_decide_unpack _). vm_compute. done. }
  rewrite Forall_forall in H. specialize (H d ltac:(apply elem_of_seq; lia)).
  rewrite Forall_forall in H. apply H. apply elem_of_seq. lia.
Qed.

Lemma word_facts d g : d <= 8 -> g < 256 ->
  lgray (wenc d g) = g /\ lgray (N.of_nat g) = g /\ N.lor (N.of_nat g) 0x8000 = wenc 0 g /\
  ((wenc d g + 0x200) mod 2 ^ 16)%N = wenc (S d) g /\
  N.to_nat (N.shiftr (N.of_nat d * 512) 9) = d /\
  N.land (wenc d g) 0x1e00 = (N.of_nat d * 512)%N /\
  (d <= 4 -> N.land (wenc d g) 0x0e00 = (N.of_nat d * 512)%N).
Proof.
  intros Hd Hg. pose proof (word_checks_ok d g Hd Hg) as H. unfold word_checks in H.
  rewrite !andb_true_iff, !Nat.eqb_eq, !N.eqb_eq, orb_true_iff, N.eqb_eq in H.
  destruct H as [[[[[[H1 H2] H3] H4] H5] H6] H7]. repeat split; auto.
  intros Hd4. destruct H7 as [H7|]; auto. apply Nat.ltb_lt in H7. lia.
Qed.

Section lr.
Context (step w h deg : nat) (k : lcfg) (nbr : nat -> nat -> option nat) (gray : nat -> nat).
Context (Hw : 0 < w) (Hh : 0 < h) (Hfit : w <= step).
Notation gid := (gid step 0 0).
Notation pid := (pid w).
Notation plen := (plen w h).
Notation border := (border w h).
Definition lgraph : pgraph := PGraph (rect_nodes step 0 0 w h) deg nbr gray.
Notation G := lgraph.
Context (HG : graph_ok G) (Hconn : graph_connected G) (Hgb : gray_bound G).
Context (Hkw : l_w k = w) (Hkh : l_h k = h) (Hdeg : deg <= 8).
Context (Hmask : forall d g, d <= deg -> g < 256 -> N.land (wenc d g) (l_mask k) = (N.of_nat d * 512)%N).
Context (Hmax : l_max k = (N.of_nat deg * 512)%N).
Context (cap base : nat -> nat).
Context (Hbase : forall g, base (S g) = base g + cap g + 1).
Context (Hcap : forall g, length (filter (fun p => gray p = g) (rect_nodes step 0 0 w h)) <= cap g).

Definition lphi (p : nat) : nat := pid (p / step) (p mod step).
Definition lxy (p : nat) : Z * Z := (Z.of_nat (p mod step), Z.of_nat (p / step)).

Context (Hnbr : forall (img : list N) p d, length img = plen -> p ∈ rect_nodes step 0 0 w h -> d < deg ->
  exists x, lnbr k img (lphi p) d = Some x /\
    match nbr p d with Some q => x = lphi q | None => border x end).

Lemma gid_dm r c : c < w -> gid r c / step = r /\ gid r c mod step = c.
Proof using Hfit.
  clear - Hfit. intros Hc. unfold Grid.gid. rewrite !Nat.add_0_l. split.
  - rewrite Nat.div_add_l by lia. rewrite Nat.div_small by lia. lia.
  - rewrite Nat.add_comm, Nat.mod_add by lia. by rewrite Nat.mod_small by lia.
Qed.
Lemma lphi_gid r c : c < w -> lphi (gid r c) = pid r c.
Proof using Hfit. intros Hc. unfold lphi. by destruct (gid_dm r c Hc) as [-> ->]. Qed.

Lemma lphi_inj p q : p ∈ g_nodes G -> q ∈ g_nodes G -> lphi p = lphi q -> p = q.
Proof using Hfit.
  clear - Hfit.
  intros Hp Hq He. apply elem_rect in Hp as (r & c & ? & ? & ->), Hq as (r' & c' & ? & ? & ->).
  rewrite !lphi_gid in He by auto. apply pid_inj in He as [-> ->]; auto.
Qed.
Lemma lphi_lt p : p ∈ g_nodes G -> lphi p < plen.
Proof using Hfit.
  clear - Hfit.
  intros Hp. apply elem_rect in Hp as (r & c & ? & ? & ->). rewrite lphi_gid by auto.
  unfold FloodRefine.pid, FloodRefine.plen. nia.
Qed.
Lemma lphi_nb p x : p ∈ g_nodes G -> border x -> lphi p <> x.
Proof using Hfit.
  clear - Hfit. intros Hp [_ Hx] <-. apply elem_rect in Hp as (r & c & ? & ? & ->).
  rewrite lphi_gid in Hx by auto. by eapply Hx.
Qed.

Definition encp (x : pst) (g : nat) : N :=
  match x with PU => N.of_nat g | PW d => wenc d g | PD _ => wenc deg g end.

Definition lsent : lcomp := LComp 257 None 0 None None.

Record LR (s : lst) (a : ast) (Ls : list (list nat)) (dn : list nat) : Prop := MkLR {
  lr_cur : s_cur s = lphi (a_cur a);
  lr_hc : s_hc s = gray (a_cur a);
  lr_len : length (s_img s) = plen;
  lr_cw : s_img s !! lphi (a_cur a) = Some (wenc (a_d a) (gray (a_cur a)));
  lr_px : forall p, p ∈ g_nodes G -> p <> a_cur a -> s_img s !! lphi p = Some (encp (a_px a p) (gray p));
  lr_bd : forall x, border x -> s_img s !! x = Some 0xffff%N;
  lr_heap : heapL lphi base (s_heap s) (s_hs s) (a_heap a);
  lr_plen : length (s_pts s) = w * h;
  lr_comps : exists lcs, s_comps s = lcs ++ [lsent] /\ Forall3 (crel lxy (nv (s_pts s))) (a_comps a) lcs Ls;
  lr_nd : NoDup (concat Ls);
  lr_lt : Forall (fun i => i < s_np s) (concat Ls);
  lr_regs : Forall2 (rrel lxy (s_np s) (nv (s_pts s))) (a_regs a) (s_regs s);
  lr_dn : NoDup dn /\ length dn = s_np s /\ forall p, p ∈ dn -> p ∈ g_nodes G /\ exists r, a_px a p = PD r
}.

Lemma bump_ok img p d : length img = plen -> p ∈ g_nodes G -> d < deg -> gray p < 256 ->
  img !! lphi p = Some (wenc d (gray p)) ->
  bump img (lphi p) = Some (<[lphi p := wenc (S d) (gray p)]> img).
Proof.
  intros Hl Hp Hd Hg He. unfold bump. rewrite He.
  destruct (word_facts d (gray p)) as (_ & _ & _ & -> & _); auto. lia.
Qed.

(* taking the next pixel *)
Lemma ltake_ok img heap hs ah g pts np lcs acomps aregs regs Ls dn px' cur d p l d1 :
  InvA G px' cur d ah -> (* state before finishing the current pixel *)
  forall px'', (forall q, q <> cur -> px'' q = px' q) -> (exists r, px'' cur = PD r) ->
  length img = plen -> img !! lphi cur = Some (wenc deg (gray cur)) ->
  (forall q, q ∈ g_nodes G -> q <> cur -> img !! lphi q = Some (encp (px' q) (gray q))) ->
  (forall x, border x -> img !! x = Some 0xffff%N) ->
  heapL lphi base heap hs ah -> g <= 255 -> ah g = p :: l -> px' p = PW d1 ->
  length pts = w * h -> Forall3 (crel lxy (nv pts)) acomps lcs Ls -> NoDup (concat Ls) ->
  Forall (fun i => i < np) (concat Ls) -> Forall2 (rrel lxy np (nv pts)) aregs regs ->
  NoDup dn -> length dn = np -> (forall q, q ∈ dn -> q ∈ g_nodes G /\ exists r, px'' q = PD r) ->
  exists s', ltake img heap hs g pts np (lcs ++ [lsent]) regs = LNext s' /\
    LR s' (ASt px'' p d1 (<[g := l]> ah) acomps aregs) Ls dn.
Proof.
  intros HA px'' Hpx (rc & Hrc) Hlen Hcw Hw' Hbd HH Hg Hhp Hp Hpl HC Hnd Hlt HR D1 D2 D3.
  unfold ltake. rewrite (ltop_spec lphi base heap hs ah) by (auto; lia). rewrite Hhp.
  destruct (lpop_spec lphi base heap hs ah g p l HH ltac:(lia) Hhp) as (hs' & -> & HH').
  destruct (i_heap _ _ _ _ _ HA g p) as (Hgp & Hpc & _). { rewrite Hhp. apply elem_of_cons; auto. }
  cbn [g_gray lgraph] in Hgp.
  assert (p ∈ g_nodes G) as Hpn. { apply (i_dom _ _ _ _ _ HA). congruence. }
  eexists. split; [done|].
  constructor; cbn [s_cur s_hc s_img s_heap s_hs s_pts s_np s_comps s_regs a_px a_cur a_d a_heap a_comps a_regs]; auto.
  - rewrite (Hw' p Hpn Hpc), Hp. done.
  - intros q Hq Hqp. destruct (decide (q = cur)) as [->|Hqc].
    + rewrite Hcw, Hrc. done.
    + rewrite Hw', Hpx by auto. done.
  - eauto.
Qed.

Theorem lstep_refine s a Ls dn : LR s a Ls dn -> Inv G a ->
  match astep G a with
  | ANext a' => exists s' Ls' dn', lkstep k s = LNext s' /\ LR s' a' Ls' dn'
  | AHalt a' => exists s' Ls' dn', lkstep k s = LHalt s' /\ LR s' a' Ls' dn'
  | AStuck => True
  end.
Proof.
  intros [R1 R2 R3 R4 R5 R6 R7 R8 (lcs & R9 & R10) R11 R12 R13 R14] HI.
  pose proof (astep_inv G HG a Hgb HI) as HI'.
  pose proof HI as [HA HB HC].
  destruct a as [px cur d ah comps regs], s as [img scur hc heap hs pts np scomps sregs].
  cbn [s_cur s_hc s_img s_heap s_hs s_pts s_np s_comps s_regs a_px a_cur a_d a_heap a_comps a_regs] in *. subst scur hc scomps.
  destruct (i_cur _ _ _ _ _ HA) as (Hcn & (d0 & Hcur) & Hdd). cbn [g_deg lgraph] in Hdd.
  assert (gray cur <= 255) as Hcg255 by (by apply Hgb).
  assert (forall g, length (ah g) <= cap g) as Hcapg. { intros g. eapply (lheap_cap G cap); eauto. }
  assert (length (g_nodes G) = w * h) as Hcount by apply length_rect.
  unfold lkstep. cbn [s_img s_cur]. rewrite R4.
  rewrite (Hmask d (gray cur)) by (auto; lia). rewrite Hmax.
  unfold astep in *. cbn [a_px a_cur a_d a_heap a_comps a_regs g_deg g_gray g_nbr lgraph] in *.
  destruct (word_facts d (gray cur)) as (F1 & _ & _ & _ & F5 & _ & _); [lia|lia|].
  destruct (Nat.ltb_spec d deg) as [Hd|Hd].
  - destruct (N.ltb_spec (N.of_nat d * 512) (N.of_nat deg * 512)) as [_|]; [|lia].
    unfold ltour. cbn [s_cur s_hc s_img s_heap s_hs s_pts s_np s_comps s_regs].
    rewrite (Hmask d (gray cur)), F5 by (auto; lia).
    destruct (Hnbr img cur d R3 Hcn Hd) as (x & -> & Hx).
    pose proof (bump_ok img cur d R3 Hcn Hd ltac:(lia) R4) as Hbump.
    assert (forall q v, q ∈ g_nodes G -> length (<[lphi q := v]> img) = plen) as Hlen.
    { intros q v Hq. by rewrite insert_length. }
    (* only the direction of the current pixel changes *)
    assert (LR (LSt (<[lphi cur:=wenc (S d) (gray cur)]> img) (lphi cur) (gray cur) heap hs pts np
        (lcs ++ [lsent]) sregs) (ASt px cur (S d) ah comps regs) Ls dn) as Hskip.
    { constructor; cbn [s_cur s_hc s_img s_heap s_hs s_pts s_np s_comps s_regs a_px a_cur a_d a_heap a_comps a_regs]; auto.
      - rewrite list_lookup_insert; auto. rewrite R3. by apply lphi_lt.
      - intros p Hp Hpc. rewrite list_lookup_insert_ne; auto. intros He. apply Hpc. by apply lphi_inj.
      - intros y Hy. rewrite list_lookup_insert_ne; auto. by apply lphi_nb.
      - eauto. }
    destruct (nbr cur d) as [q|] eqn:Hq.
    + subst x. assert (q ∈ g_nodes G) as Hqn. { eapply (gok_closed _ HG cur); auto. exists d. auto. }
      assert (q <> cur) as Hqc. { intros ->. apply (gok_irrefl _ HG cur); auto. exists d. auto. }
      assert (gray q <= 255) as Hqg by (by apply Hgb).
      rewrite (R5 q Hqn Hqc). destruct (px q) as [|d1|r1] eqn:Hpq; cbn [encp].
      * destruct (N.ltb_spec (N.of_nat (gray q)) 0x8000) as [_|]; [|lia].
        destruct (word_facts 0 (gray q)) as (Q1 & Q2 & Q3 & _); [lia|lia|]. rewrite Q3.
        assert (lphi q <> lphi cur) as Hne. { intros He. apply Hqc. by apply lphi_inj. }
        rewrite list_lookup_insert_ne by auto. rewrite R4.
        assert (<[lphi q:=wenc 0 (gray q)]> img !! lphi cur = Some (wenc d (gray cur))) as Hcw'.
        { rewrite list_lookup_insert_ne; auto. }
        rewrite (bump_ok _ cur d (Hlen q _ Hqn) Hcn Hd ltac:(lia) Hcw').
        rewrite Q1, F1. unfold hmove.
        replace (Z.of_nat (gray cur) + (Z.of_nat (gray q) - Z.of_nat (gray cur)))%Z with (Z.of_nat (gray q)) by lia.
        destruct (Z.leb_spec 0 (Z.of_nat (gray q))) as [_|]; [|lia].
        destruct (Z.ltb_spec (Z.of_nat (gray q)) 257) as [_|]; [|lia]. cbn [andb]. rewrite Nat2Z.id.
        set (img2 := <[lphi cur:=wenc (S d) (gray cur)]> (<[lphi q:=wenc 0 (gray q)]> img)).
        assert (length img2 = plen) as Hlen2. { unfold img2. by rewrite !insert_length. }
        assert (img2 !! lphi q = Some (wenc 0 (gray q))) as Hi2q.
        { unfold img2. rewrite list_lookup_insert_ne by auto. rewrite list_lookup_insert; auto.
          rewrite R3. by apply lphi_lt. }
        assert (img2 !! lphi cur = Some (wenc (S d) (gray cur))) as Hi2c.
        { unfold img2. rewrite list_lookup_insert; auto. rewrite insert_length, R3. by apply lphi_lt. }
        assert (forall p, p ∈ g_nodes G -> p <> q -> p <> cur -> img2 !! lphi p = img !! lphi p) as Hi2.
        { intros p Hp H1 H2. unfold img2.
          rewrite !list_lookup_insert_ne; auto; intros He; [apply H1|apply H2]; by apply lphi_inj. }
        assert (forall y, border y -> img2 !! y = Some 0xffff%N) as Hi2b.
        { intros y Hy. unfold img2. rewrite !list_lookup_insert_ne by (by apply lphi_nb). auto. }
        destruct (Nat.ltb_spec (gray q) (gray cur)) as [Hlt|Hge].
        -- destruct (Z.ltb_spec (Z.of_nat (gray q) - Z.of_nat (gray cur)) 0) as [_|]; [|lia].
           pose proof (lcomps_bound G _ Hgb HI') as Hcb. pose proof (lregs_bound G _ HI') as Hrb.
           cbn [a_comps a_regs length] in Hcb, Hrb. rewrite app_length in Hrb. cbn [length] in Hrb.
           pose proof HI' as [HA' _ _]. cbn [a_px a_cur a_d a_heap] in HA'.
           pose proof (lheap_cap G cap _ _ _ _ (gray cur) Hcap HA') as Hc'. rewrite fn_lookup_insert in Hc'. cbn [length] in Hc'.
           destruct (lpush_spec lphi cap base Hbase heap hs ah (gray cur) cur) as (heap' & hs' & -> & HH'); auto.
           rewrite Hi2q. unfold lalloc. rewrite Hkw, Hkh.
           rewrite <-(Forall2_length _ _ _ R13).
           destruct (Nat.ltb_spec (length regs) (w * h)) as [_|]; [|lia].
           rewrite app_length, <-(Forall3_length_lm _ _ _ _ R10). cbn [length].
           destruct (Nat.ltb_spec (length comps + 1) 258) as [_|]; [|lia].
           rewrite Q1. eexists _, ([] :: Ls), dn. split; [done|].
           constructor; cbn [s_cur s_hc s_img s_heap s_hs s_pts s_np s_comps s_regs a_px a_cur a_d a_heap a_comps a_regs]; auto.
           ++ intros p Hp Hpq'. rewrite fn_lookup_insert_ne by auto. destruct (decide (p = cur)) as [->|Hpc].
              ** rewrite fn_lookup_insert. done.
              ** rewrite fn_lookup_insert_ne by auto. rewrite Hi2; auto.
           ++ exists (LComp (gray q) (Some (length regs)) 0 None None :: lcs). split; [done|].
              constructor; [|done]. constructor; try done; cbn; auto.
           ++ apply Forall2_app; auto. constructor; [|constructor]. unfold fresh_lreg.
              rewrite Nat.mod_small by lia. repeat split; auto.
           ++ destruct R14 as (D1 & D2 & D3). split; auto. split; auto. intros p Hp.
              destruct (D3 p Hp) as [Hpn (r & Hr)]. split; auto. exists r.
              rewrite !fn_lookup_insert_ne; auto; congruence.
        -- destruct (Z.ltb_spec (Z.of_nat (gray q) - Z.of_nat (gray cur)) 0) as [|_]; [lia|].
           pose proof HI' as [HA' _ _]. cbn [a_px a_cur a_d a_heap] in HA'.
           pose proof (lheap_cap G cap _ _ _ _ (gray q) Hcap HA') as Hc'. rewrite fn_lookup_insert in Hc'. cbn [length] in Hc'.
           destruct (lpush_spec lphi cap base Hbase heap hs ah (gray q) q) as (heap' & hs' & -> & HH'); auto.
           eexists _, Ls, dn. split; [done|].
           constructor; cbn [s_cur s_hc s_img s_heap s_hs s_pts s_np s_comps s_regs a_px a_cur a_d a_heap a_comps a_regs]; auto.
           ++ intros p Hp Hpc. destruct (decide (p = q)) as [->|Hpq'].
              ** rewrite fn_lookup_insert. done.
              ** rewrite fn_lookup_insert_ne by auto. rewrite Hi2; auto.
           ++ eauto.
           ++ destruct R14 as (D1 & D2 & D3). split; auto. split; auto. intros p Hp.
              destruct (D3 p Hp) as [Hpn (r & Hr)]. split; auto. exists r.
              rewrite !fn_lookup_insert_ne; auto; congruence.
      * destruct (N.ltb_spec (wenc d1 (gray q)) 0x8000) as [Hx|_]; [unfold wenc in Hx; lia|].
        rewrite Hbump. eauto.
      * destruct (N.ltb_spec (wenc deg (gray q)) 0x8000) as [Hx|_]; [unfold wenc in Hx; lia|].
        rewrite Hbump. eauto.
    + rewrite (R6 x Hx). change (0xffff <? 0x8000)%N with false. cbn match. rewrite Hbump. eauto.
  - assert (d = deg) as -> by lia.
    destruct (N.ltb_spec (N.of_nat deg * 512) (N.of_nat deg * 512)) as [|_]; [lia|].
    destruct HC as (c & rest & -> & Hcg & Hbelow). cbn [g_gray lgraph] in Hcg.
    inversion R10 as [|? lc L ? lrest Ls' HC1 HR1]; subst. cbn [app].
    unfold lfinish. cbn [s_cur s_hc s_img s_heap s_hs s_pts s_np s_comps s_regs].
    destruct R14 as (D1 & D2 & D3).
    assert (cur ∉ dn) as Hcdn. { intros Hin. destruct (D3 _ Hin) as [_ (r & Hr)]. congruence. }
    assert (np < length pts) as Hnp.
    { rewrite R8, <-Hcount, <-D2. assert (length (cur :: dn) <= length (g_nodes G)) as Hle; [|cbn [length] in Hle; unfold lt; exact Hle].
      apply submseteq_length, NoDup_submseteq; [by constructor|].
      intros p Hp. apply elem_of_cons in Hp as [->|Hp]; auto. by destruct (D3 p Hp). }
    rewrite !Hkw.
    assert (Z.quot (Z.of_nat (lphi cur) - (Z.of_nat (w + 2) + 1)) (Z.of_nat (w + 2)) = snd (lxy cur)) as Hy.
    { apply elem_rect in Hcn as (r & c0 & Hr & Hc0 & ->). rewrite lphi_gid by auto. unfold lxy.
      destruct (gid_dm r c0 Hc0) as [-> ->]. cbn [snd]. symmetry. unfold FloodRefine.pid.
      apply Z.quot_unique with (r := Z.of_nat c0); lia. }
    rewrite Hy.
    assert (Z.of_nat (lphi cur) - (Z.of_nat (w + 2) + 1) - snd (lxy cur) * Z.of_nat (w + 2) = fst (lxy cur))%Z as Hx.
    { apply elem_rect in Hcn as (r & c0 & Hr & Hc0 & ->). rewrite lphi_gid by auto. unfold lxy.
      destruct (gid_dm r c0 Hc0) as [-> ->]. cbn [fst snd]. unfold FloodRefine.pid. lia. }
    rewrite Hx.
    destruct (accumulate_ok lxy np pts c lc L rest lrest Ls' regs sregs cur HC1 HR1 R11 R12 R13 Hnp)
      as (pts1 & lc' & pts2 & -> & -> & Hl2 & HC2 & HR2 & Hnd2 & Hlt2 & Hrg2).
    rewrite (cr_reg _ _ _ _ _ HC1).
    set (c' := AComp (cg c) (cr c) (cur :: cl c)) in *. set (px' := <[cur := PD (cr c)]> px) in *.
    assert (forall q, q <> cur -> px' q = px q) as Hpx'. { intros q Hq. unfold px'. by rewrite fn_lookup_insert_ne. }
    assert (px' cur = PD (cr c)) as Hpxc. { unfold px'. by rewrite fn_lookup_insert. }
    assert (NoDup (cur :: dn) /\ length (cur :: dn) = S np /\
      forall p, p ∈ cur :: dn -> p ∈ g_nodes G /\ exists r, px' p = PD r) as (E1 & E2 & E3).
    { split; [by constructor|]. split; [cbn; lia|]. intros p Hp. apply elem_of_cons in Hp as [->|Hp]; eauto.
      destruct (D3 p Hp) as [Hpn (r & Hr)]. split; auto. exists r. rewrite Hpx'; auto. congruence. }
    destruct (i_creg _ _ _ _ _ HB c) as (a0 & Ha0 & Hp0 & Hg0). { apply elem_of_cons; auto. }
    pose proof (lookup_lt_Some _ _ _ Ha0) as Hcr.
    assert (cl c' <> []) as Hcne by (by unfold c').
    rewrite (ltop_spec lphi base heap hs ah) by (auto; lia).
    destruct (ah (gray cur)) as [|p l] eqn:Hah.
    + destruct (lclose_ok lxy (S np) (nv pts2) regs sregs (cr c) c' lc' (np :: L)) as (regs1 & -> & Hrg3); auto.
      { cbn [concat] in Hlt2. apply Forall_app in Hlt2. tauto. }
      rewrite F1. rewrite (lfind_spec lphi base heap hs ah) by (auto; lia).
      destruct (find_level ah (S (gray cur)) (256 - gray cur)) as [g'|] eqn:Hf; cbn [fmap option_fmap option_map].
      * apply find_level_some in Hf as (Hr & Hnn & _).
        destruct (ah g') as [|p l] eqn:Hg'; [done|].
        destruct (i_heap _ _ _ _ _ HA g' p) as (Hgp & Hpc & (d2 & Hd2 & Hd2le)).
        { rewrite Hg'. apply elem_of_cons; auto. }
        assert (g' <= 255). { rewrite <-Hgp. apply Hgb. apply (i_dom _ _ _ _ _ HA). congruence. }
        destruct (amerge g' c' rest (set_rl regs (cr c) (cl c'))) as [[comps' regs']|] eqn:Hm; [|done].
        rewrite Hd2 in *.
        pose proof (lregs_bound G _ HI') as Hrb. cbn [a_regs] in Hrb.
        destruct (lup_ok lxy k (S np) g' ltac:(lia) rest c' lc' (np :: L) lrest Ls' pts2
          (set_rl regs (cr c) (cl c')) regs1 comps' regs') as
          (lcomps' & pts3 & regs2 & Ls3 & Hup & Hl3 & Hext3 & HC3 & Hnd3 & Hlt3 & Hrg4); auto.
        { intros c0 H0. rewrite length_set_rl.
          assert (cr c0 ∈ map cr (c :: rest)) as Hin.
          { apply elem_of_cons in H0 as [->|H0]; simpl; apply elem_of_cons; [by left|right].
            apply elem_of_list_fmap; eauto. }
          apply elem_of_list_fmap in Hin as (c1 & -> & H1).
          destruct (i_creg _ _ _ _ _ HB c1 H1) as (a1 & Ha1 & _). by eapply lookup_lt_Some. }
        { rewrite Hkw, Hkh. lia. }
        fold lsent in Hup. rewrite Hup.
        destruct (ltake_ok img heap hs ah g' pts3 (S np) lcomps' comps' regs' regs2 Ls3 (cur :: dn) px cur deg p l d2 HA px')
          as (s' & Hs' & HLR); eauto.
        congruence.
      * eexists _, _, _. split; [done|].
        apply (MkLR _ _ ((np :: L) :: Ls') (cur :: dn));
          cbn [s_cur s_hc s_img s_heap s_hs s_pts s_np s_comps s_regs a_px a_cur a_d a_heap a_comps a_regs]; auto.
        -- intros p Hp Hpc. rewrite Hpx'; auto.
        -- congruence.
        -- exists (lc' :: lrest). split; [done|]. by constructor.
    + destruct (i_heap _ _ _ _ _ HA (gray cur) p) as (Hgp & Hpc & (d2 & Hd2 & Hd2le)).
      { rewrite Hah. apply elem_of_cons; auto. }
      rewrite Hd2.
      destruct (ltake_ok img heap hs ah (gray cur) pts2 (S np) (lc' :: lrest) (c' :: rest) regs sregs
        ((np :: L) :: Ls') (cur :: dn) px cur deg p l d2 HA px') as (s' & Hs' & HLR); eauto.
      * congruence.
      * by constructor.
Qed.

Lemma lrun_refine n s a Ls dn : LR s a Ls dn -> Inv G a ->
  match arun G n a with
  | ANext a' => exists s' Ls' dn', lkrun k n s = LNext s' /\ LR s' a' Ls' dn'
  | AHalt a' => exists s' Ls' dn', lkrun k n s = LHalt s' /\ LR s' a' Ls' dn'
  | AStuck => True
  end.
Proof.
  revert s a Ls dn. induction n as [|n IH]; intros s a Ls dn HR HI; cbn [arun lkrun]; [eauto 6|].
  pose proof (lstep_refine s a Ls dn HR HI) as Hs.
  pose proof (astep_inv G HG a Hgb HI) as HI'.
  destruct (astep G a) as [a'|a'|]; auto.
  - destruct Hs as (s' & Ls' & dn' & -> & HR'). by eapply IH.
  - destruct Hs as (s' & Ls' & dn' & -> & HR'). eauto 6.
Qed.

(* the buffers with which the loop is entered *)
Definition lready (b : lbuf) : Prop :=
  length (lb_img b) = plen /\
  (forall p, p ∈ g_nodes G -> lb_img b !! lphi p = Some (N.of_nat (gray p))) /\
  (forall x, border x -> lb_img b !! x = Some 0xffff%N) /\
  heapL lphi base (lb_heap b) (lb_hs b) (fun _ => []) /\
  length (lb_pts b) = w * h.

Lemma linit_refine b : lready b -> exists s, lkinit k b = LNext s /\ LR s (ainit G 0) [[]] [].
Proof.
  intros (Hl & Hz & Hb & HH & Hp). unfold lkinit. rewrite Hkw.
  assert (0 ∈ g_nodes G) as H0. { apply elem_rect. exists 0, 0. split; auto. }
  assert (lphi 0 = w + 2 + 1) as Hphi.
  { change (lphi (gid 0 0) = w + 2 + 1). rewrite lphi_gid by auto. unfold FloodRefine.pid. lia. }
  assert (gray 0 <= 255) as Hg0 by (by apply Hgb).
  rewrite <-Hphi, (Hz 0 H0). destruct (word_facts 0 (gray 0)) as (_ & W2 & W3 & _); [lia|lia|].
  rewrite W2. unfold lalloc. cbn [length app]. rewrite Hkw, Hkh.
  destruct (Nat.ltb_spec 0 (w * h)) as [_|]; [|nia].
  eexists. split; [done|].
  apply (MkLR _ _ [[]] []); cbn [s_cur s_hc s_img s_heap s_hs s_pts s_np s_comps s_regs a_px a_cur a_d a_heap a_comps a_regs ainit g_gray lgraph]; auto.
  - by rewrite insert_length.
  - rewrite list_lookup_insert; [by rewrite W3|]. rewrite Hl. by apply lphi_lt.
  - intros p Hp' Hp0. rewrite list_lookup_insert_ne.
    + rewrite fn_lookup_insert_ne by auto. cbn. auto.
    + intros He. apply Hp0. symmetry. by apply lphi_inj.
  - intros x Hx. rewrite list_lookup_insert_ne; auto. by apply lphi_nb.
  - exists [LComp (gray 0) (Some 0) 0 None None]. split; [done|]. constructor; [|constructor].
    constructor; try done; cbn; auto.
  - constructor.
  - constructor.
  - constructor; [|constructor]. unfold fresh_lreg. rewrite Nat.mod_small by lia. repeat split; auto.
  - split; [constructor|]. split; auto. intros p Hp'. inversion Hp'.
Qed.

(* flooding ends in the component tree; every region has its list *)
Theorem lflood_refined b n : lready b -> (deg + 2) * (w * h) < n ->
  exists s s' aregs lab,
    lkinit k b = LNext s /\ lkrun k n s = LHalt s' /\
    (exists a, arun G n (ainit G 0) = AHalt a /\ aregs = a_regs a /\ lab = labof (a_px a)) /\
    tree_of G lab aregs /\
    Forall2 (fun a x => n_gray x = rg a /\ n_parent x = rpar a /\ n_flag x = 0 /\
      n_size x = Some (length (rl a)) /\
      lwalk (s_pts s') (n_head x) (length (rl a)) = Some (map lxy (rl a))) aregs (s_regs s') /\
    length aregs <= w * h /\
    length (s_img s') = plen /\
    heapL lphi base (s_heap s') (s_hs s') (fun _ => []) /\
    length (s_pts s') = w * h.
Proof.
  intros Hb Hn. destruct (linit_refine b Hb) as (s & Hs & HR).
  assert (0 ∈ g_nodes G) as H0. { apply elem_rect. exists 0, 0. split; auto. }
  destruct (flood_abs_correct G HG 0 n) as (a & Ha & Hf); auto.
  { cbn [g_deg g_nodes lgraph]. rewrite length_rect. lia. }
  pose proof (lrun_refine n s _ _ _ HR (ainit_inv G 0 H0)) as Hrun. rewrite Ha in Hrun.
  destruct Hrun as (s' & Ls' & dn' & Hs' & HR').
  destruct HR' as [R1 R2 R3 R4 R5 R6 R7 R8 _ R11 R12 R13 R14].
  destruct Hf as [F1 F2 F3 F4 F5].
  exists s, s', (a_regs a), (labof (a_px a)). split; auto. split; auto. split; eauto. split; auto.
  assert (forall r x, a_regs a !! r = Some x -> rl x <> []) as Hne.
  { intros r x Hx. destruct (to_own _ _ _ F5 r x Hx) as (p & Hp & Hlab).
    destruct (to_mem _ _ _ F5 r x Hx) as [_ Hm].
    assert (p ∈ rl x) as Hin. { apply Hm. split; auto. rewrite Hlab. apply rtc_refl. }
    intros He. rewrite He in Hin. inversion Hin. }
  split.
  { apply Forall2_same_length_lookup. split; [by eapply Forall2_length|].
    intros i x y Hx Hy. pose proof (Forall2_lookup_lr _ _ _ _ _ _ R13 Hx Hy) as (K1 & K2 & K3 & K4).
    split; auto. split; auto. split; auto.
    destruct K4 as [[_ K4]|(L & K4 & K5 & _ & _ & K6 & K7 & _)]; [exfalso; by eapply Hne|].
    split; auto. rewrite K5, <-(Forall2_length _ _ _ K7). by apply lwalk_oseg. }
  split.
  { rewrite <-(length_rect step 0 0 w h).
    assert (forall n, n <= length (a_regs a) -> exists l, length l = n /\
      forall i p, l !! i = Some p -> p ∈ g_nodes G /\ labof (a_px a) p = i) as Hl.
    { induction n0 as [|m IH]; intros Hm.
      - exists []. split; auto. intros i p H. done.
      - destruct IH as (l & Hlen & Hown); [lia|].
        destruct (lookup_lt_is_Some_2 (a_regs a) m) as [x Hx]; [lia|].
        destruct (to_own _ _ _ F5 m x Hx) as (p & Hp & Ho).
        exists (l ++ [p]). rewrite app_length. split; [simpl; lia|].
        intros i q Hq. apply lookup_app_Some in Hq as [Hq|[Hi Hq]]; auto.
        apply list_lookup_singleton_Some in Hq as [Hi' <-]. split; auto. lia. }
    destruct (Hl _ (le_n _)) as (l & Hlen & Hown). rewrite <-Hlen.
    apply submseteq_length, NoDup_submseteq.
    - apply NoDup_alt. intros i j p Hi Hj. apply Hown in Hi as [_ Hi], Hj as [_ Hj]. congruence.
    - intros p Hp. apply elem_of_list_lookup in Hp as [i Hi]. apply Hown in Hi as [? _]. auto. }
  split; auto. split; auto.
  destruct R7 as (K1 & K2 & K3). split; auto. split; auto.
  intros g Hg. destruct (K3 g Hg) as (K4 & K5 & K6). rewrite F3 in *. auto.
Qed.
End lr.
