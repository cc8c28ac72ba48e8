(* The flooding loop of the OpenCV3-style extraction refines the abstract flooding machine on
   the image without its border. *)
From stdpp Require Import sorting relations functions list_numbers list.
From Coq Require Import NArith ZArith SpecFloat.
From Verif Require Import Spec FloodAbs FloodAbsInv FloodAbsProof Grid FloodModel FloatModel RectModel RecogModel CvExtract
  LinkedHeap OcvModel OcvWords OcvHeap OcvTree OcvComp OcvStack.
Local Open Scope nat_scope.

(* the order of the directions, img_opencv3_mser.cpp:272: right, down, left, up *)
Definition operm (d : nat) : nat := match d with 1 => 3 | 3 => 1 | d => d end.
(* SPEC: the image without its border *)
Definition ograph (rows cols : nat) (gray : nat -> nat) : pgraph :=
  PGraph (rect_nodes cols 1 1 (cols - 2) (rows - 2)) 4
    (fun p d => rect_nbr cols 1 1 (cols - 2) (rows - 2) p (operm d)) gray.

Lemma ograph_adj rows cols gray p q : adj (ograph rows cols gray) p q <-> adj (rect_graph cols 1 1 (cols - 2) (rows - 2) gray) p q.
Proof.
  unfold adj. cbn [g_deg g_nbr ograph rect_graph]. split; intros (d & Hd & Hq).
  - exists (operm d). split; [|done]. destruct d as [|[|[|[|d]]]]; cbn; lia.
  - exists (operm d). destruct d as [|[|[|[|d]]]]; (split; [cbn; lia|done]).
Qed.
Lemma ograph_ok rows cols gray : 2 <= cols -> graph_ok (ograph rows cols gray).
Proof.
  intros Hc. destruct (rect_graph_ok cols 1 1 (cols - 2) (rows - 2) gray) as [H1 H2 H3 H4]; [lia|]. constructor; [done| | |].
  - intros p q Hp Ha. rewrite ograph_adj in Ha. by apply (H2 p q).
  - intros p q Hp Ha. rewrite ograph_adj in Ha. apply ograph_adj. by apply H3.
  - intros p Hp Ha. rewrite ograph_adj in Ha. by apply (H4 p).
Qed.
Lemma ograph_connected rows cols gray : 2 <= cols -> graph_connected (ograph rows cols gray).
Proof.
  intros Hc p q Hp Hq. pose proof (rect_connected cols 1 1 (cols - 2) (rows - 2) gray ltac:(lia) p q Hp Hq) as H.
  clear -H. induction H as [x|x y z Hxy _ IH]; [apply rtc_refl|]. eapply rtc_l; [|exact IH]. by apply ograph_adj.
Qed.

Section refine.
Context (src : list N) (rows cols : nat) (gm : N) (P : rparam) (gray : nat -> nat).
Context (Hrows : 3 <= rows) (Hcols : 3 <= cols) (Harea : (N.of_nat (rows * cols) <= 2 ^ 29)%N).
Notation area := (rows * cols).
Notation G := (ograph rows cols gray).
Notation nodes := (rect_nodes cols 1 1 (cols - 2) (rows - 2)).
Context (Hgray : forall p, p ∈ nodes -> get_gray src gm p = Some (gray p)) (Hgb : gray_bound G).
Context (cap base : nat -> nat).
Context (Hbase : forall g, base (S g) = base g + cap g + 1).
Context (Hcap : forall g, length (filter (fun p => gray p = g) nodes) <= cap g).

Lemma node_range p : p ∈ nodes -> p < area /\ p <> 0 /\ p + cols < area /\ cols < p.
Proof using Hrows Hcols.
  clear -Hrows Hcols. intros Hp. apply elem_rect in Hp as (r & c & Hr & Hc & ->). unfold gid. nia.
Qed.

(* 283: the neighbours of an inner pixel are in the image *)
Lemma onbr_ok p d : p ∈ nodes -> d < 4 -> exists x, onbr cols p (S d) = Some x /\ x < area /\
  match g_nbr G p d with Some q => x = q | None => x ∉ nodes end.
Proof using Hrows Hcols.
  clear -Hrows Hcols. intros Hp Hd. pose proof (node_range p Hp) as Hrange. apply elem_rect in Hp as (r & c & Hr & Hc & ->).
  assert (forall r c x, c < cols -> x = (1 + r) * cols + c -> c < 1 \/ c > cols - 2 \/ r >= rows - 2 -> x ∉ nodes) as Hout.
  { clear -Hcols. intros r c x Hc -> H Hin. apply elem_rect in Hin as (r' & c' & Hr' & Hc' & He). unfold gid in He.
    assert (1 + r = 1 + r' /\ c = 1 + c') as [E1 E2].
    { pose proof (Nat.div_unique ((1 + r) * cols + c) cols (1 + r) c Hc ltac:(lia)) as Q1.
      pose proof (Nat.div_unique ((1 + r) * cols + c) cols (1 + r') (1 + c') ltac:(lia) ltac:(lia)) as Q2. nia. }
    lia. }
  cbn [g_nbr ograph]. unfold rect_nbr. rewrite (gid_row cols 1 1 (cols - 2)), (gid_col cols 1 1 (cols - 2)) by lia.
  destruct d as [|[|[|[|d]]]]; cbn [operm onbr]; [| | | |lia].
  - exists (gid cols 1 1 r c + 1). split; [done|]. split; [lia|]. destruct (Nat.ltb_spec (S c) (cols - 2)); [unfold gid; lia|].
    apply (Hout r (c + 2)); [lia|unfold gid; lia|lia].
  - exists (gid cols 1 1 r c + cols). split; [done|]. split; [lia|]. destruct (Nat.ltb_spec (S r) (rows - 2)); [unfold gid; lia|].
    apply (Hout (S r) (1 + c)); [lia|unfold gid; lia|lia].
  - destruct (Nat.leb_spec 1 (gid cols 1 1 r c)); [|lia]. exists (gid cols 1 1 r c - 1). split; [done|]. split; [lia|].
    destruct c as [|c]; [|unfold gid; lia]. apply (Hout r 0); [lia|unfold gid; lia|lia].
  - destruct (Nat.leb_spec cols (gid cols 1 1 r c)); [|lia]. exists (gid cols 1 1 r c - cols). split; [done|]. split; [lia|].
    destruct r as [|r]; [|unfold gid; lia]. intros Hin. apply node_range in Hin. unfold gid in Hin. nia.
Qed.

(* the word of a pixel *)
Definition wrel (x : pst) (v : N) : Prop :=
  match x with
  | PU => v = oword 0 0
  | PW d => v = oword (S d) 0
  | PD _ => exists n, v = oword 5 n /\ fits29 n
  end.

Definition osent : ocomp := OComp 256 0 0 0 None.

Record OR (s : ost) (a : ast) (Ls : list (list nat)) (rids : list nat) : Prop := MkOR {
  or_cur : t_cur s = a_cur a;
  or_d : t_d s = S (a_d a);
  or_gray : t_gray s = gray (a_cur a);
  or_cw : exists d, t_pix s !! a_cur a = Some (oword (S d) 0);
  or_px : forall p, p ∈ nodes -> p <> a_cur a -> exists v, t_pix s !! p = Some v /\ wrel (a_px a p) v;
  or_bd : forall x, x < area -> x ∉ nodes -> t_pix s !! x = Some border_word;
  or_heap : heapO cap base (t_heap s) (t_hs s) (a_heap a);
  or_comps : exists ocs, t_comps s = ocs ++ [osent] /\ CR area cols P (t_pix s) (t_tree s) (a_comps a) (a_regs a) ocs Ls rids;
  or_hl : length (t_heap s) = area + 256
}.

Lemma fits0 : fits29 0.
Proof. done. Qed.

(* pixels in the lists are finished *)
Lemma lists_done s a Ls rids ocs : CR area cols P (t_pix s) (t_tree s) (a_comps a) (a_regs a) ocs Ls rids -> InvB G (a_px a) (a_cur a) (a_comps a) (a_regs a) ->
  forall x, x ∈ concat Ls -> exists r, a_px a x = PD r.
Proof using.
  intros [_ C2 _ _ _ _ _] HB x Hx. apply elem_of_list_In, in_concat in Hx as (L & HL & Hx). apply elem_of_list_In in HL, Hx.
  apply elem_of_list_lookup in HL as (i & Hi). destruct (Forall3_lookup_r _ _ _ _ _ _ C2 Hi) as (c & oc & Hc & _ & Hrel).
  assert (c ∈ a_comps a) as Hcin by (by eapply elem_of_list_lookup_2). destruct (i_list _ _ _ _ _ HB c Hcin) as (_ & Hl).
  rewrite (oc_list _ _ _ _ _ _ _ _ Hrel) in Hx. apply Hl in Hx as (r & Hr & _). eauto.
Qed.

Lemma otake_ok pix heap hs ah g comps aregs ocs t Ls rids px px' cur d p l d1 :
  InvA G px cur d ah -> (forall q, q <> cur -> px' q = px q) -> (exists r, px' cur = PD r) ->
  (exists v, pix !! cur = Some v /\ wrel (px' cur) v) ->
  (forall q, q ∈ nodes -> q <> cur -> exists v, pix !! q = Some v /\ wrel (px q) v) ->
  (forall x, x < area -> x ∉ nodes -> pix !! x = Some border_word) ->
  heapO cap base heap hs ah -> g <= 255 -> ah g = p :: l -> px p = PW d1 ->
  CR area cols P pix t comps aregs ocs Ls rids -> length heap = area + 256 ->
  exists s', otake src gm pix heap hs g (ocs ++ [osent]) t = ONext s' /\
    OR s' (ASt px' p d1 (<[g := l]> ah) comps aregs) Ls rids.
Proof using Hgray.
  intros HA Hpx (rc & Hrc) Hcw Hw Hbd HH Hg Hhp Hp HC Hhl. unfold otake.
  rewrite (otop_spec cap base heap hs ah) by auto. rewrite Hhp.
  destruct (opop_spec cap base heap hs ah g p l HH Hg Hhp) as (hs' & -> & HH').
  destruct (i_heap _ _ _ _ _ HA g p) as (Hgp & Hpc & _). { rewrite Hhp. left. }
  assert (p ∈ nodes) as Hpn. { apply (i_dom _ _ _ _ _ HA). congruence. }
  destruct (Hw p Hpn Hpc) as (v & Hv & Hrel). rewrite Hp in Hrel. cbn in Hrel. subst v. rewrite Hv, (Hgray p Hpn).
  eexists. split; [done|]. constructor; cbn [t_pix t_cur t_d t_gray t_heap t_hs t_comps t_tree a_px a_cur a_d a_heap a_comps a_regs]; auto.
  - rewrite oword_dir by done. by rewrite Nat2N.id.
  - eauto.
  - intros q Hq Hqp. destruct (decide (q = cur)) as [->|Hqc]; [done|]. rewrite Hpx by done. auto.
  - eauto.
Qed.

Theorem ostep_refine s a Ls rids : OR s a Ls rids -> Inv G a ->
  match astep G a with
  | ANext a' => exists s' Ls' rids', ostep src rows cols gm P s = ONext s' /\ OR s' a' Ls' rids'
  | AHalt a' => exists s', ostep src rows cols gm P s = OHalt s' /\
      (exists c0 rest, a_comps a = c0 :: rest /\ a_regs a' = set_rl (a_regs a) (cr c0) (a_cur a :: cl c0) /\
         a_comps a' = AComp (cg c0) (cr c0) (a_cur a :: cl c0) :: rest /\
      exists Ls' rids' ocs, t_comps s' = ocs ++ [osent] /\
         CR area cols P (t_pix s') (t_tree s') (a_comps a') (a_regs a) ocs Ls' rids') /\
      (forall x, x < area -> x ∉ nodes -> t_pix s' !! x = Some border_word) /\ length (t_pix s') = area /\
      length (t_heap s') = area + 256 /\ length (t_hs s') = 256
  | AStuck => True
  end.
Proof using Hgray Hgb Hcap Hbase Hrows Hcols Harea.
  intros [R1 R2 R3 (dw & R4) R5 R6 R7 (ocs & R8 & R9) R10] HI.
  pose proof (ograph_ok rows cols gray ltac:(lia)) as HG.
  pose proof (astep_inv G HG a Hgb HI) as HI'.
  pose proof HI as [HA HB HC]. pose proof (lists_done _ _ _ _ _ R9 HB) as Hdone.
  destruct a as [px cur d ah comps regs], s as [pix scur sd sg heap hs scomps t].
  cbn [t_pix t_cur t_d t_gray t_heap t_hs t_comps t_tree a_px a_cur a_d a_heap a_comps a_regs] in *. subst scur sd sg scomps.
  destruct (i_cur _ _ _ _ _ HA) as (Hcn & (d0 & Hcur) & Hdd). cbn [g_deg g_nodes ograph] in Hdd, Hcn.
  assert (gray cur <= 255) as Hcg255 by (by apply Hgb).
  assert (forall g, length (ah g) <= cap g) as Hcapg. { intros g. eapply (lheap_cap G cap); eauto. }
  assert (length (g_nodes G) <= area) as Hcount. { cbn [g_nodes ograph]. rewrite length_rect. nia. }
  assert (length pix = area) as Hplen by exact (cr_len _ _ _ _ _ _ _ _ _ _ R9).
  destruct (node_range cur Hcn) as (Hca & Hc0 & _).
  assert (cur ∉ concat Ls) as HcL. { intros Hin. destruct (Hdone cur Hin) as (r & Hr). congruence. }
  unfold ostep. cbn [t_d]. unfold astep in *. cbn [a_px a_cur a_d a_heap a_comps a_regs g_deg g_gray g_nbr ograph] in *.
  destruct (Nat.ltb_spec d 4) as [Hd|Hd].
  - destruct (Nat.leb_spec (S d) 4) as [_|]; [|lia]. unfold otour. cbn [t_pix t_cur t_d t_gray t_heap t_hs t_comps t_tree].
    destruct (onbr_ok cur d Hcn Hd) as (x & -> & Hxa & Hx). cbn [g_nbr ograph] in Hx.
    assert (OR (OSt pix cur (S (S d)) (gray cur) heap hs (ocs ++ [osent]) t) (ASt px cur (S d) ah comps regs) Ls rids) as Hskip.
    { constructor; cbn [t_pix t_cur t_d t_gray t_heap t_hs t_comps t_tree a_px a_cur a_d a_heap a_comps a_regs]; eauto. }
    destruct (rect_nbr cols 1 1 (cols - 2) (rows - 2) cur (operm d)) as [q|] eqn:Hq.
    + subst x. assert (q ∈ nodes) as Hqn. { eapply (gok_closed _ HG cur); [done|]. exists d. done. }
      assert (q <> cur) as Hqc. { intros ->. apply (gok_irrefl _ HG cur); auto. exists d. done. }
      assert (gray q <= 255) as Hqg by (by apply Hgb).
      destruct (R5 q Hqn Hqc) as (v & -> & Hrel). destruct (px q) as [|d1|r1] eqn:Hpq; cbn [wrel] in Hrel.
      * subst v. rewrite visited_ok by done. cbn [Nat.eqb negb]. rewrite (Hgray q Hqn). rewrite !dir_word_ok.
        assert (q ∉ concat Ls) as HqL. { intros Hin. destruct (Hdone q Hin) as (r & Hr). congruence. }
        destruct (R5 q Hqn Hqc) as (v & Hqv & Hrel). rewrite Hpq in Hrel. cbn in Hrel. subst v.
        set (pix1 := <[q := oword 1 0]> pix).
        assert (CR area cols P pix1 t comps regs ocs Ls rids) as HC1.
        { eapply CR_pix; [exact R9|by unfold pix1; rewrite insert_length| |].
          - intros x. unfold pix1. rewrite onext_insert by lia. destruct (decide (x = q)) as [->|]; [|done].
            rewrite oword_next by done. by rewrite (onext_word pix q 0 0).
          - intros x Hxin. unfold pix1. rewrite list_lookup_insert_ne; [done|]. by intros ->. }
        destruct (Nat.ltb_spec (gray q) (gray cur)) as [Hlt|Hge].
        -- pose proof (lcomps_bound G _ Hgb HI') as Hcb. cbn [a_comps length] in Hcb.
           pose proof HI' as [HA' _ _]. cbn [a_px a_cur a_d a_heap] in HA'.
           pose proof (lheap_cap G cap _ _ _ _ (gray cur) Hcap HA') as Hc'. rewrite fn_lookup_insert in Hc'. cbn [length] in Hc'.
           destruct (opush_spec cap base Hbase heap hs ah (gray cur) cur) as (heap' & hs' & -> & Hhl & HH'); auto.
           assert (length (ocs ++ [osent]) <? 257 = true) as ->.
           { apply Nat.ltb_lt. rewrite app_length. cbn [length]. pose proof (cr_rel _ _ _ _ _ _ _ _ _ _ HC1) as HF. apply Forall3_length_lm in HF. lia. }
           assert (CR area cols P (<[cur := oword (S (S d)) 0]> pix1) t comps regs ocs Ls rids) as HC2.
           { eapply CR_pix; [exact HC1|by rewrite insert_length| |].
             - intros x. rewrite onext_insert by (unfold pix1; rewrite insert_length; lia). destruct (decide (x = cur)) as [->|]; [|done].
               rewrite oword_next by done. symmetry. apply (onext_word _ _ (S dw)); [|done]. unfold pix1. by rewrite list_lookup_insert_ne.
             - intros x Hxin. rewrite list_lookup_insert_ne; [done|]. by intros ->. }
           eexists _, ([] :: Ls), rids. split; [done|].
           constructor; cbn [t_pix t_cur t_d t_gray t_heap t_hs t_comps t_tree a_px a_cur a_d a_heap a_comps a_regs]; auto.
           ++ exists 0. rewrite list_lookup_insert_ne by done. unfold pix1. rewrite list_lookup_insert by lia. done.
           ++ intros p Hp Hpq'. rewrite fn_lookup_insert_ne by auto. destruct (decide (p = cur)) as [->|Hpc].
              ** rewrite fn_lookup_insert. eexists. split; [apply list_lookup_insert; unfold pix1; rewrite insert_length; lia|]. done.
              ** rewrite fn_lookup_insert_ne by auto. rewrite list_lookup_insert_ne by done. unfold pix1. rewrite list_lookup_insert_ne by done. auto.
           ++ intros x Hx1 Hx2. rewrite list_lookup_insert_ne by (by intros ->). unfold pix1. rewrite list_lookup_insert_ne by (by intros ->). auto.
           ++ exists (OComp (gray q) 0 0 0 None :: ocs). split; [done|]. by apply CR_new.
           ++ lia.
        -- pose proof HI' as [HA' _ _]. cbn [a_px a_cur a_d a_heap] in HA'.
           pose proof (lheap_cap G cap _ _ _ _ (gray q) Hcap HA') as Hc'. rewrite fn_lookup_insert in Hc'. cbn [length] in Hc'.
           destruct (opush_spec cap base Hbase heap hs ah (gray q) q) as (heap' & hs' & -> & Hhl & HH'); auto.
           eexists _, Ls, rids. split; [done|].
           constructor; cbn [t_pix t_cur t_d t_gray t_heap t_hs t_comps t_tree a_px a_cur a_d a_heap a_comps a_regs]; auto.
           ++ exists dw. unfold pix1. by rewrite list_lookup_insert_ne.
           ++ intros p Hp Hpc. unfold pix1. destruct (decide (p = q)) as [->|Hpq'].
              ** rewrite fn_lookup_insert. eexists. split; [apply list_lookup_insert; lia|]. done.
              ** rewrite fn_lookup_insert_ne by auto. rewrite list_lookup_insert_ne by done. auto.
           ++ intros x Hx1 Hx2. unfold pix1. rewrite list_lookup_insert_ne by (by intros ->). auto.
           ++ eauto.
           ++ lia.
      * subst v. rewrite visited_ok by done. cbn [Nat.eqb negb]. eauto.
      * destruct Hrel as (n & -> & Hn). rewrite visited_ok by done. cbn [Nat.eqb negb]. eauto.
    + rewrite (R6 x Hxa Hx). change (visited border_word) with true. cbn match. eauto.
  - assert (d = 4) as -> by lia. change (5 <=? 4) with false. cbn match.
    destruct HC as (c & rest & -> & Hcg & Hbelow). cbn [g_gray ograph] in Hcg.
    unfold ofinish. cbn [t_pix t_cur t_d t_gray t_heap t_hs t_comps t_tree]. rewrite dir_word_ok.
    destruct ocs as [|oc orest]; [pose proof (cr_rel _ _ _ _ _ _ _ _ _ _ R9) as HF; inversion HF|]. cbn [app].
    destruct Ls as [|L Ls]; [pose proof (cr_rel _ _ _ _ _ _ _ _ _ _ R9) as HF; inversion HF|].
    set (pix0 := <[cur := oword 5 0]> pix).
    assert (length pix0 = area) as Hl0 by (unfold pix0; by rewrite insert_length).
    assert (CR area cols P pix0 t (c :: rest) regs (oc :: orest) (L :: Ls) rids) as HC0.
    { eapply CR_pix; [exact R9|unfold pix0; by rewrite insert_length| |].
      - intros x. unfold pix0. rewrite onext_insert by lia. destruct (decide (x = cur)) as [->|]; [|done].
        rewrite oword_next by done. by rewrite (onext_word pix cur (S dw) 0).
      - intros x Hxin. unfold pix0. rewrite list_lookup_insert_ne; [done|]. by intros ->. }
    assert (pix0 !! cur = Some (oword 5 0)) as Hp0 by (unfold pix0; apply list_lookup_insert; lia).
    destruct (CR_add area cols P Harea pix0 t c rest regs oc orest L Ls rids cur HC0 HcL Hc0 Hca Hp0)
      as (pix1 & oc1 & -> & HC1 & Hl1 & Hpx1).
    set (c' := AComp (cg c) (cr c) (cur :: cl c)) in *. set (px' := <[cur := PD (cr c)]> px) in *.
    assert (forall q, q <> cur -> px' q = px q) as Hpx'. { intros q Hq. unfold px'. by rewrite fn_lookup_insert_ne. }
    assert (px' cur = PD (cr c)) as Hpxc. { unfold px'. by rewrite fn_lookup_insert. }
    assert (forall q, q ∈ concat ((L ++ [cur]) :: Ls) -> exists r, px' q = PD r) as Hdone'.
    { intros q Hqi. destruct (decide (q = cur)) as [->|Hqc]; [eauto|]. rewrite Hpx' by done. apply Hdone. cbn [concat] in *.
      rewrite !elem_of_app, elem_of_list_singleton in *. tauto. }
    (* words in the buffer after linking further pixels of the lists *)
    assert (forall t' comps' regs' ocs' Ls' rids' pix2, CR area cols P pix2 t' comps' regs' ocs' Ls' rids' ->
       (forall x, x ∉ concat ((L ++ [cur]) :: Ls) -> pix2 !! x = pix1 !! x) -> (forall x, x ∈ concat ((L ++ [cur]) :: Ls) -> x ∈ concat Ls') ->
       (exists v, pix2 !! cur = Some v /\ wrel (px' cur) v) /\
       (forall q, q ∈ nodes -> q <> cur -> exists v, pix2 !! q = Some v /\ wrel (px q) v) /\
       (forall x, x < area -> x ∉ nodes -> pix2 !! x = Some border_word)) as Hwords.
    { intros t' comps' regs' ocs' Ls' rids' pix2 HC2 Hout Hin.
      assert (forall q, q ∈ concat ((L ++ [cur]) :: Ls) -> exists v, pix2 !! q = Some v /\ wrel (px' q) v) as Hl.
      { intros q Hqi. destruct (cr_word _ _ _ _ _ _ _ _ _ _ HC2 q (Hin q Hqi)) as (_ & n & Hn & Hfn). destruct (Hdone' q Hqi) as (r & ->). eexists. split; [done|]. by exists n. }
      assert (forall x, x ∉ concat ((L ++ [cur]) :: Ls) -> pix2 !! x = pix !! x) as Hout'.
      { intros x Hxo. rewrite Hout by done. cbn [concat] in Hxo. rewrite !not_elem_of_app, elem_of_list_singleton in Hxo. rewrite Hpx1.
        - unfold pix0. rewrite list_lookup_insert_ne; [done|]. intros ->. tauto.
        - cbn [concat]. rewrite not_elem_of_app. tauto. }
      split; [apply Hl; cbn [concat]; rewrite !elem_of_app, elem_of_list_singleton; tauto|]. split.
      - intros q Hqn Hqc. destruct (decide (q ∈ concat ((L ++ [cur]) :: Ls))) as [Hqi|Hqi].
        + destruct (Hl q Hqi) as (v & Hv & Hr). rewrite Hpx' in Hr by done. eauto.
        + rewrite Hout' by done. auto.
      - intros x Hxa Hxn. rewrite Hout'; [auto|]. intros Hxi. destruct (Hdone' x Hxi) as (r & Hr). apply Hxn.
        destruct (decide (x = cur)) as [->|Hxc]; [done|]. rewrite Hpx' in Hr by done. apply (i_dom _ _ _ _ _ HA). congruence. }
    destruct (i_creg _ _ _ _ _ HB c) as (a0 & Ha0 & Hpar0 & Hg0). { left. }
    pose proof (i_nodup _ _ _ _ _ HB) as Hcnd. pose proof (lregs_bound G _ HI) as Hrb. cbn [a_regs] in Hrb.
    assert (forall c2, c2 ∈ rest -> cr c2 < length regs) as Hcrl.
    { intros c2 Hc2. destruct (i_creg _ _ _ _ _ HB c2) as (a2 & Ha2 & _); [by right|]. by eapply lookup_lt_Some. }
    rewrite (otop_spec cap base heap hs ah) by (auto; lia).
    destruct (ah (gray cur)) as [|p l] eqn:Hah.
    + assert (ah 256 = []) as H256.
      { destruct (ah 256) as [|p l] eqn:E; [done|]. destruct (i_heap _ _ _ _ _ HA 256 p) as (Hgp & _ & (d2 & Hd2 & _)); [rewrite E; left|].
        cbn [g_gray ograph] in Hgp. assert (gray p <= 255); [|lia]. apply Hgb. apply (i_dom _ _ _ _ _ HA). congruence. }
      rewrite (ofind_spec cap base heap hs ah) by (auto; lia).
      replace (256 - gray cur) with (S (255 - gray cur)) in * by lia.
      rewrite find_level_snoc in * by (replace (S (gray cur) + (255 - gray cur)) with 256 by lia; done).
      destruct (find_level ah (S (gray cur)) (255 - gray cur)) as [g'|] eqn:Hf.
      * apply find_level_some in Hf as (Hr & Hnn & Hfst).
        destruct (ah g') as [|p l] eqn:Hg'; [done|].
        destruct (i_heap _ _ _ _ _ HA g' p) as (Hgp & Hpc & (d2 & Hd2 & Hd2le)); [rewrite Hg'; left|].
        assert (g' <= 255) as Hg255. { rewrite <-Hgp. apply Hgb. apply (i_dom _ _ _ _ _ HA). congruence. }
        clear Hgp. rewrite Hd2 in *.
        (* raising *)
        assert (forall tl, (exists c2 r2, orest ++ [osent] = c2 :: r2 /\ g' < o_gray c2) -> tl = rest ->
          amerge g' c' rest (set_rl regs (cr c) (cl c')) = Some (AComp g' (length regs) (cl c') :: rest, set_par (set_rl regs (cr c) (cl c')) (cr c) (length regs) ++ [AReg g' None []]) ->
          exists s' Ls' rids', match orest ++ [osent] with [] => OStuck | c2 :: rest' => if g' <? o_gray c2 then
              match ogrow P pix1 cols area g' false oc1 t with Some (c1', t') => otake src gm pix1 heap hs g' (c1' :: orest ++ [osent]) t' | None => OStuck end
              else match omerge P pix1 cols area c2 oc1 t with Some (c2', pix2, t') => otake src gm pix2 heap hs g' (c2' :: rest') t' | None => OStuck end end = ONext s' /\
            OR s' (ASt px' p d2 (<[g' := l]> ah) (AComp g' (length regs) (cl c') :: rest) (set_par (set_rl regs (cr c) (cl c')) (cr c) (length regs) ++ [AReg g' None []])) Ls' rids') as Hraise.
        { intros tl (c2 & r2 & He & Hlt2) _ Hm. rewrite He. destruct (Nat.ltb_spec g' (o_gray c2)) as [_|]; [|lia]. rewrite <-He.
          destruct (CR_raise area cols P Harea pix1 t c' rest regs oc1 orest (L ++ [cur]) Ls rids a0 g' HC1) as (t' & oc' & rids' & -> & HC2); auto.
          { lia. } { cbn [cg c']. lia. } { by destruct L. }
          destruct (Hwords _ _ _ _ _ _ pix1 HC2) as (W1 & W2 & W3); auto.
          destruct (otake_ok pix1 heap hs ah g' (AComp g' (length regs) (cl c') :: rest)
            (set_par (set_rl regs (cr c) (cl c')) (cr c) (length regs) ++ [AReg g' None []]) (oc' :: orest) t' ((L ++ [cur]) :: Ls) rids' px px' cur 4 p l d2)
            as (s' & Hs' & HOR); eauto. }
        destruct rest as [|c2 rest'].
        -- cbn [amerge] in *. destruct (Nat.ltb_spec g' 257) as [_|]; [|lia]. rewrite length_set_rl in *. apply (Hraise []); [|done|done].
           pose proof (cr_rel _ _ _ _ _ _ _ _ _ _ R9) as HF. inversion HF as [|? ? ? ? ? ? HF1 HF2]; subst. inversion HF2; subst. exists osent, []. split; [done|]. cbn [o_gray osent]. lia.
        -- cbn [amerge] in *. pose proof (cr_rel _ _ _ _ _ _ _ _ _ _ HC1) as HF. inversion HF as [|? ? ? ? ? ? HF1 HF2]; subst. inversion HF2 as [|? oc2 L2 ? orest' Ls' HF3 HF4]; subst.
           cbn [app] in *. pose proof (oc_gray _ _ _ _ _ _ _ _ HF3) as Hg2.
           assert (g' <= cg c2) as Hgle.
           { destruct (le_lt_dec g' (cg c2)) as [|Hgt]; [done|]. exfalso. apply (Hbelow c2); [left|]. apply Hfst. split; [|done].
             pose proof (i_sorted _ _ _ _ _ HB) as Hs. cbn [map] in Hs. apply StronglySorted_inv in Hs as (_ & Hall). rewrite Forall_forall in Hall. specialize (Hall (cg c2)).
             rewrite Hcg in Hall. apply Hall. left. }
           destruct (Nat.ltb_spec g' (cg c2)) as [Hlt2|Hge2].
           ++ rewrite length_set_rl in *. apply (Hraise (c2 :: rest')); [|done|done]. exists oc2, (orest' ++ [osent]). split; [done|]. lia.
           ++ assert (g' = cg c2) as Hgeq by lia. destruct (Nat.leb_spec g' (cg c2)) as [_|]; [|lia].
              destruct (Nat.ltb_spec g' (o_gray oc2)) as [|_]; [lia|].
              destruct (CR_merge area cols P Harea pix1 t c' c2 rest' regs oc1 oc2 orest' (L ++ [cur]) L2 Ls' rids a0 HC1) as (t' & oc' & pix2 & rids' & -> & HC2 & Hl2 & Hpx2); auto.
              { apply Hcrl. left. } { lia. } { cbn [cg c']. lia. } { lia. } { by destruct L. }
              destruct (Hwords _ _ _ _ _ _ pix2 HC2) as (W1 & W2 & W3).
              { intros x Hxo. apply Hpx2. intros Hin. apply Hxo. cbn [concat]. rewrite !elem_of_app. tauto. }
              { intros x. cbn [concat]. rewrite !elem_of_app. tauto. }
              destruct (otake_ok pix2 heap hs ah g' (AComp (cg c2) (cr c2) (cl c2 ++ cl c') :: rest')
                (set_par (set_rl regs (cr c) (cl c')) (cr c) (cr c2)) (oc' :: orest') t' ((L2 ++ L ++ [cur]) :: Ls') rids' px px' cur 4 p l d2)
                as (s' & Hs' & HOR); eauto.
      * eexists. split; [done|]. cbn [t_pix t_cur t_d t_gray t_heap t_hs t_comps t_tree a_px a_cur a_d a_heap a_comps a_regs].
        destruct (Hwords _ _ _ _ _ _ pix1 HC1) as (W1 & W2 & W3); auto.
        split; [|split; [done|]].
        -- exists c, rest. split; [done|]. split; [done|]. split; [done|]. exists ((L ++ [cur]) :: Ls), rids, (oc1 :: orest). done.
        -- split; [congruence|]. split; [done|]. apply R7.
    + destruct (i_heap _ _ _ _ _ HA (gray cur) p) as (Hgp & Hpc & (d2 & Hd2 & Hd2le)); [rewrite Hah; left|].
      rewrite Hd2. destruct (Hwords _ _ _ _ _ _ pix1 HC1) as (W1 & W2 & W3); auto.
      destruct (otake_ok pix1 heap hs ah (gray cur) (c' :: rest) regs (oc1 :: orest) t ((L ++ [cur]) :: Ls) rids px px' cur 4 p l d2)
        as (s' & Hs' & HOR); eauto.
Qed.
End refine.
