(* The trees and pixel lists of freshly flooded partitions, taken together. *)
From stdpp Require Import sorting relations functions list.
From Coq Require Import NArith ZArith.
From Verif Require Import Spec TreeSpec TreeFacts JoinMath Grid FloodAbs FloodModel FloodRefine FloodInit FloodTree FloodCorrect
  ConnectModel ConnectProof PartModel PartProof MergeProof WholeModel WholeProof LinkedHeap LinkedInit
  V1JoinModel V1Heap V1Lists V1Cut V1Connect V1Loop V1Conn V1Model V1FloodLists V1FloodRefine V1FloodInit V1FloodCorrect V1BuildModel.
Local Open Scope nat_scope.

(* tables that agree, but for the sizes of merged regions *)
Lemma vunder_same {I} (T T' : I -> option (vreg I)) : (forall r, (v_par <$> T r) = (v_par <$> T' r)) ->
  forall x y, vunder T x y <-> vunder T' x y.
Proof.
  intros H x y. split; apply rtc_subrel; intros a b (v & Hv & Hp); specialize (H a); rewrite Hv in H; cbn in H.
  - destruct (T' a) as [u|] eqn:E; [|done]. injection H as H. exists u. split; [done|]. congruence.
  - destruct (T a) as [u|] eqn:E; [|done]. injection H as H. exists u. split; [done|]. congruence.
Qed.
Definition vsame {I} (a b : vreg I) : Prop :=
  v_gray a = v_gray b /\ v_live a = v_live b /\ v_par a = v_par b /\ (v_live a = true -> v_size a = v_size b).
Lemma ctree_same {I} V (lab : nat -> I) T T' : ctree V lab T ->
  (forall r, match T r, T' r with Some a, Some b => vsame a b | None, None => True | _, _ => False end) ->
  ctree V lab T'.
Proof.
  intros [H1 H2 H3 H4 H5 H6 H7] HS.
  assert (forall r a, T r = Some a -> exists b, T' r = Some b /\ vsame a b) as HF.
  { intros r a Ha. specialize (HS r). rewrite Ha in HS. destruct (T' r); [eauto|done]. }
  assert (forall r b, T' r = Some b -> exists a, T r = Some a /\ vsame a b) as HB.
  { intros r a Ha. specialize (HS r). rewrite Ha in HS. destruct (T r); [eauto|done]. }
  assert (forall x y, vunder T x y <-> vunder T' x y) as HU.
  { apply vunder_same. intros r. specialize (HS r). destruct (T r), (T' r); try done. cbn. f_equal. apply HS. }
  constructor.
  - intros p Hp. destruct (H1 p Hp) as (a & Ha & Hg). destruct (HF _ _ Ha) as (b & Hb & S1 & _). exists b. split; [done|congruence].
  - intros r b t Hb Ht. destruct (HB _ _ Hb) as (a & Ha & S1 & S2 & S3 & _).
    destruct (H2 r a t Ha) as (c & Hc & Hor); [congruence|]. destruct (HF _ _ Hc) as (d & Hd & D1 & D2 & D3 & _).
    exists d. split; [done|]. rewrite <-S1, <-S2, <-D1. done.
  - intros r b Hb Hl. destruct (HB _ _ Hb) as (a & Ha & S1 & S2 & S3 & _).
    destruct (H3 r a Ha) as (t & c & Ht & Hc & Hg); [congruence|]. destruct (HF _ _ Hc) as (d & Hd & D1 & _).
    exists t, d. split; [congruence|]. split; [done|]. congruence.
  - intros r b Hb Hl. destruct (HB _ _ Hb) as (a & Ha & S1 & S2 & S3 & _).
    destruct (H4 r a Ha) as (p & Hp & Hg & Hu); [congruence|]. exists p. rewrite <-HU. split_and!; auto. congruence.
  - intros r b p q Hb Hl Hp Hq. destruct (HB _ _ Hb) as (a & Ha & S1 & S2 & S3 & _). rewrite <-!HU, <-S1.
    apply H5; auto. congruence.
  - intros r b Hb Hl. destruct (HB _ _ Hb) as (a & Ha & S1 & S2 & S3 & S4). rewrite <-S4 by congruence.
    eapply card_ext; [|apply (H6 r a Ha); congruence]. intros p. cbn. by rewrite HU.
  - intros r b Hb. destruct (HB _ _ Hb) as (a & Ha & _). destruct (H7 r a Ha) as (t & c & Hu & Hc & Hn).
    destruct (HF _ _ Hc) as (d & Hd & _ & _ & D3 & _). exists t, d. rewrite <-HU. split_and!; auto. congruence.
Qed.

(* what is known of a flooded partition *)
Record vdata := VData { d_regs : list areg; d_lab : nat -> nat; d_dn : list nat; d_seg : nat -> list nat }.

Lemma vflood_all_ok n gm fresh img cols (Q : nat -> prect -> list wreg -> vbuf -> vdata -> Prop) rs bs k :
  length rs = length bs ->
  (forall i r b, rs !! i = Some r -> bs !! i = Some b -> exists regs b' d,
     vmake_tree n (vcfg4 (k + i) (r_left r) (r_top r) (r_w r) (r_h r)) fresh gm img cols b = VTree regs b' /\
     Q (k + i) r regs b' d) ->
  exists ts os ds, vflood_all n gm fresh img cols k rs bs = Some (ts, os) /\
    length ts = length rs /\ length os = length rs /\ length ds = length rs /\
    forall i r, rs !! i = Some r -> exists regs b' d, ts !! i = Some regs /\ os !! i = Some b' /\
      ds !! i = Some d /\ Q (k + i) r regs b' d.
Proof.
  revert bs k. induction rs as [|r rs IH]; intros [|b bs] k Hlen H; try done.
  - exists [], [], []. split_and!; auto. by intros i r [=].
  - cbn [vflood_all]. destruct (H 0 r b) as (regs & b' & d & E & HQ); auto.
    rewrite Nat.add_0_r in E, HQ. rewrite E.
    destruct (IH bs (S k)) as (ts & os & ds & E' & L1 & L2 & L3 & HQ').
    { simpl in Hlen. lia. }
    { intros i r' b2 Hr Hb. destruct (H (S i) r' b2 Hr Hb) as (regs' & b3 & d' & E3 & HQ3).
      rewrite Nat.add_succ_r in E3, HQ3. eauto. }
    rewrite E'. exists (regs :: ts), (b' :: os), (d :: ds). split; auto.
    split; [simpl; lia|]. split; [simpl; lia|]. split; [simpl; lia|].
    intros [|i] r' Hr; cbn in Hr.
    + injection Hr as <-. rewrite Nat.add_0_r. exists regs, b', d. auto.
    + destruct (HQ' i r' Hr) as (regs' & b3 & d' & ? & ? & ? & ?). rewrite Nat.add_succ_r.
      exists regs', b3, d'. auto.
Qed.

Section union.
Context (hpn vpn cols rows : nat) (Hh : 0 < hpn) (Hv : 0 < vpn) (Hc : hpn <= cols) (Hr : vpn <= rows)
  (gray : nat -> nat) (Hgray : forall p, gray p <= 255).
Notation R := (rects hpn vpn cols rows).
Notation pf := (partf hpn vpn cols rows).
Context (ts : list (list wreg)) (os : list vbuf) (D : list vdata).
Context (Hts : length ts = length R) (Hos : length os = length R) (HD : length D = length R).
Definition vpart_ok (k : nat) (r : prect) (regs : list wreg) (b : vbuf) (d : vdata) : Prop :=
  vtree_ok cols (r_top r) (r_left r) (r_w r) (r_h r) k gray
    (has_left hpn k) (has_right hpn k) (has_top hpn k) (has_bot hpn (vpn * hpn) k)
    regs (vb_pts b) (vb_tab b) (d_regs d) (d_lab d) (d_dn d) (d_seg d).
Context (Hall : forall k r, R !! k = Some r -> exists regs b d, ts !! k = Some regs /\ os !! k = Some b /\
  D !! k = Some d /\ vpart_ok k r regs b d).

Definition ulab : nat -> rref := whole_lab hpn vpn cols rows (d_lab <$> D).
Definition upin (q : rref) : Prop := exists d p, D !! fst q = Some d /\ d_dn d !! snd q = Some p.
Definition upix (q : rref) : nat :=
  match D !! fst q with Some d => match d_dn d !! snd q with Some p => p | None => 0 end | None => 0 end.
Definition uxy (q : rref) : nat * nat := vxy cols (upix q).
Definition usz (r : rref) : nat :=
  match D !! fst r with Some d => match d_regs d !! snd r with Some a => length (rl a) | None => 0 end | None => 0 end.
Definition useg (r : rref) : list rref :=
  match D !! fst r with Some d => pair (fst r) <$> d_seg d (snd r) | None => [] end.
Definition ucs : list (list creg) := imap (fun k d => convr k (d_regs d)) D.
Notation V := (cut_view hpn vpn cols rows gray).
Notation T := (tz ts usz).

Lemma u_part k : k < length R -> exists r regs b d, R !! k = Some r /\ ts !! k = Some regs /\ os !! k = Some b /\
  D !! k = Some d /\ vpart_ok k r regs b d.
Proof using All.
  intros Hk. apply lookup_lt_is_Some in Hk as [r Hk]. destruct (Hall k r Hk) as (regs & b & d & H1 & H2 & H3 & H4).
  exists r, regs, b, d. auto.
Qed.
Lemma u_data k d : D !! k = Some d -> exists r regs b, R !! k = Some r /\ ts !! k = Some regs /\ os !! k = Some b /\
  vpart_ok k r regs b d.
Proof using All.
  intros Hd. destruct (u_part k) as (r & regs & b & d' & H1 & H2 & H3 & H4 & H5).
  { rewrite <-HD. by eapply lookup_lt_Some. }
  assert (d' = d) as -> by congruence. eauto 8.
Qed.
Lemma u_reg k i a : get2 ts (k, i) = Some a -> exists r regs b d x, R !! k = Some r /\ ts !! k = Some regs /\
  os !! k = Some b /\ D !! k = Some d /\ vpart_ok k r regs b d /\ regs !! i = Some a /\ d_regs d !! i = Some x.
Proof using All.
  unfold get2. cbn [fst snd]. intros Ha. destruct (ts !! k) as [l|] eqn:Hl; [|done].
  destruct (u_part k) as (r & regs & b & d & H1 & H2 & H3 & H4 & H5).
  { rewrite <-Hts. by eapply lookup_lt_Some. }
  assert (regs = l) as -> by congruence.
  assert (i < length (d_regs d)) as Hi. { rewrite <-(vt_len _ _ _ _ _ _ _ _ _ _ _ _ _ _ _ _ _ _ H5). by eapply lookup_lt_Some. }
  apply lookup_lt_is_Some in Hi as [x Hx]. exists r, l, b, d, x. auto 8.
Qed.
Lemma ucs_lookup k d : D !! k = Some d -> ucs !! k = Some (convr k (d_regs d)).
Proof. intros H. unfold ucs. by rewrite list_lookup_imap, H. Qed.

Lemma u_tab r : tab (lift_forest ucs) r = T r.
Proof using All.
  destruct r as [k i]. rewrite tab_lift. unfold tz, get2. cbn [fst snd].
  destruct (decide (k < length R)) as [Hk|Hk].
  - destruct (u_part k Hk) as (r & regs & b & d & H1 & H2 & H3 & H4 & H5).
    rewrite (ucs_lookup k d H4), H2, table_convr.
    pose proof (vt_len _ _ _ _ _ _ _ _ _ _ _ _ _ _ _ _ _ _ H5) as Hl.
    destruct (regs !! i) as [a|] eqn:Ha.
    + assert (i < length (d_regs d)) as Hi. { rewrite <-Hl. by eapply lookup_lt_Some. }
      apply lookup_lt_is_Some in Hi as [x Hx]. rewrite Hx. cbn [fmap option_fmap option_map].
      destruct (vt_reg _ _ _ _ _ _ _ _ _ _ _ _ _ _ _ _ _ _ H5 i a x Ha Hx) as (Q1 & Q2 & Q3 & _).
      unfold lift_vreg, wv, usz. cbn [v_gray v_live v_size v_par fst snd]. rewrite Q1, Q2, Q3, H4, Hx. done.
    + assert (d_regs d !! i = None) as ->; [|done]. apply lookup_ge_None. rewrite <-Hl. by apply lookup_ge_None.
  - assert (ucs !! k = None) as ->. { apply lookup_ge_None. unfold ucs. rewrite imap_length. lia. }
    assert (ts !! k = None) as ->. { apply lookup_ge_None. lia. } done.
Qed.
Lemma u_vunder x y : vunder T x y <-> vunder (tab (lift_forest ucs)) x y.
Proof using All. apply vunder_same. intros r. by rewrite u_tab. Qed.
Lemma u_under k d i j k' : D !! k = Some d ->
  vunder T (k, i) (k', j) <-> k' = k /\ vunder (table_of (convr k (d_regs d))) i j.
Proof using All. intros Hd. rewrite u_vunder. apply lift_vunder. by apply ucs_lookup. Qed.

Lemma u_ctree : ctree V ulab T.
Proof using All.
  eapply ctree_same.
  - apply (union_ctree hpn vpn cols rows Hh Hv gray ucs (d_lab <$> D)).
    + unfold ucs. by rewrite imap_length.
    + intros k r Hk. destruct (Hall k r Hk) as (regs & b & d & H1 & H2 & H3 & H4).
      exists (convr k (d_regs d)), (d_lab d). split; [by apply ucs_lookup|]. split; [by rewrite list_lookup_fmap, H3|].
      apply H4.
  - intros r. rewrite u_tab. by destruct (T r).
Qed.

Lemma u_pin k d i p : D !! k = Some d -> d_dn d !! i = Some p -> upin (k, i) /\ upix (k, i) = p /\
  p < rows * cols /\ pf p = k /\ ulab p = (k, d_lab d p).
Proof using All.
  intros Hd Hp. split; [by exists d, p|]. split. { unfold upix. cbn [fst snd]. by rewrite Hd, Hp. }
  destruct (u_data k d Hd) as (r & regs & b & H1 & H2 & H3 & H5).
  assert (in_rect cols (r_top r) (r_left r) (r_w r) (r_h r) p) as Hin.
  { apply (vt_dn _ _ _ _ _ _ _ _ _ _ _ _ _ _ _ _ _ _ H5). by eapply elem_of_list_lookup_2. }
  apply (part_rect hpn vpn cols rows Hh Hv k r p H1) in Hin as [Hlt Hk]. split; [done|]. split; [done|].
  unfold ulab, whole_lab. rewrite Hk, list_lookup_fmap, Hd. done.
Qed.
Lemma u_pin_in q : upin q -> vw_in V (upix q).
Proof using All. destruct q as [k i]. intros (d & p & Hd & Hp). cbn [fst snd] in *.
  destruct (u_pin k d i p Hd Hp) as (_ & -> & ? & _). done. Qed.
(* points and pixels correspond *)
Lemma u_pix_inj q q' : upin q -> upin q' -> upix q = upix q' -> q = q'.
Proof using All.
  destruct q as [k i], q' as [k' i']. intros (d & p & Hd & Hp) (d' & p' & Hd' & Hp') E. cbn [fst snd] in *.
  destruct (u_pin k d i p Hd Hp) as (_ & E1 & _ & K1 & _). destruct (u_pin k' d' i' p' Hd' Hp') as (_ & E2 & _ & K2 & _).
  rewrite E1, E2 in E. subst p'. assert (k' = k) as -> by congruence. assert (d' = d) as -> by congruence. f_equal.
  destruct (u_data k d Hd) as (r & regs & b & _ & _ & _ & H5).
  exact (NoDup_lookup _ _ _ _ (vt_dup _ _ _ _ _ _ _ _ _ _ _ _ _ _ _ _ _ _ H5) Hp Hp').
Qed.
Lemma u_pix_sur p : p < rows * cols -> exists q, upin q /\ upix q = p.
Proof using All.
  intros Hp. destruct (partf_ok hpn vpn cols rows Hh Hv p Hp) as [Hk (r & Hr' & Hin)].
  destruct (Hall _ r Hr') as (regs & b & d & H1 & H2 & H3 & H4).
  apply (vt_dn _ _ _ _ _ _ _ _ _ _ _ _ _ _ _ _ _ _ H4) in Hin. apply elem_of_list_lookup in Hin as [i Hi].
  exists (pf p, i). destruct (u_pin _ d i p H3 Hi) as (? & ? & _). auto.
Qed.

Lemma u_live r : livez T r <-> exists d a, D !! fst r = Some d /\ d_regs d !! snd r = Some a.
Proof using All.
  destruct r as [k i]. unfold livez. rewrite <-u_tab, tab_lift. cbn [fst snd]. split.
  - intros (v & Hv' & _). destruct (D !! k) as [d|] eqn:Hd.
    + rewrite (ucs_lookup k d Hd), table_convr in Hv'. destruct (d_regs d !! i) as [a|] eqn:Ha; [|done]. exists d, a. done.
    + unfold ucs in Hv'. rewrite list_lookup_imap, Hd in Hv'. done.
  - intros (d & a & Hd & Ha). rewrite (ucs_lookup k d Hd), table_convr, Ha. eexists. split; done.
Qed.

Lemma ldl_dseg k pts P : P !! k = Some pts -> forall L a, ldl k (wvw pts) a L ->
  dseg P (pair k <$> a) (pair k <$> L) None.
Proof.
  clear. intros HP. induction L as [|i L IH]; intros a; [done|]. cbn [ldl fmap list_fmap dseg]. intros [Hi HL].
  unfold wvw in Hi. destruct (pts !! i) as [q|] eqn:Hq; [|done]. injection Hi as Hn Hp.
  assert (get2 P (k, i) = Some q) as Hg. { unfold get2. cbn [fst snd]. by rewrite HP. }
  split; [by exists q|]. split; [unfold pv; by rewrite Hg|]. split.
  - unfold nx. rewrite Hg, Hn. by destruct L.
  - exact (IH (Some i) HL).
Qed.

Lemma u_good : good V ulab uxy upin upix (JSt ts (vb_pts <$> os) []).
Proof using All.
  split; [done|]. exists usz, useg. cbn [e_regs e_pts e_mp]. cbn zeta. split; [exact u_ctree|]. split.
  { intros [k i] a _ Ha. destruct (u_reg k i a Ha) as (r & regs & b & d & x & H1 & H2 & H3 & H4 & H5 & H6 & H7).
    destruct (vt_reg _ _ _ _ _ _ _ _ _ _ _ _ _ _ _ _ _ _ H5 i a x H6 H7) as (_ & _ & _ & _ & Q5 & Q6 & _).
    unfold usz. cbn [fst snd]. rewrite H4, H7. auto. }
  assert (forall x r, reach (vunder T) [] x r <-> vunder T x r) as Hre.
  { intros x r. unfold reach. split; [tauto|]. intros H. split; [done|]. intros k Hk. by apply elem_of_nil in Hk. }
  assert (forall k i, livez T (k, i) -> exists r regs b d x y, R !! k = Some r /\ ts !! k = Some regs /\
    os !! k = Some b /\ D !! k = Some d /\ vpart_ok k r regs b d /\ regs !! i = Some y /\ d_regs d !! i = Some x) as Hlv.
  { intros k i Hl. destruct Hl as (v & Hv' & _). apply get_tz in Hv' as (y & Hy & _).
    destruct (u_reg k i y Hy) as (r & regs & b & d & x & H). exists r, regs, b, d, x, y. exact H. }
  constructor.
  - intros k Hk. by apply elem_of_nil in Hk.
  - intros [k i] Hl. destruct (Hlv k i Hl) as (r & regs & b & d & x & y & _ & _ & _ & H4 & H5 & _).
    unfold useg. cbn [fst snd]. rewrite H4. apply NoDup_fmap_2; [intros ? ? [=]; done|]. apply H5.
  - intros [k i] [k' j] Hl. destruct (Hlv k i Hl) as (r & regs & b & d & x & y & H1 & _ & _ & H4 & H5 & H6 & H7).
    rewrite Hre. unfold useg. cbn [fst snd]. rewrite H4, elem_of_list_fmap. split.
    + intros (j' & [= -> ->] & Hj). apply (vt_mem _ _ _ _ _ _ _ _ _ _ _ _ _ _ _ _ _ _ H5 i x j' H7) in Hj as (p & Hp & Hu).
      destruct (u_pin k d j' p H4 Hp) as (P1 & -> & _ & _ & ->). split; [done|]. by apply (u_under k d).
    + intros ((d' & p & Hd' & Hp) & Hu). cbn [fst snd] in *.
      destruct (u_pin k' d' j p Hd' Hp) as (P1 & E & _ & _ & E2). rewrite E, E2 in Hu.
      apply (u_under k' d') in Hu as [-> Hu]; [|done]. assert (d' = d) as -> by congruence.
      exists j. split; [done|]. apply (vt_mem _ _ _ _ _ _ _ _ _ _ _ _ _ _ _ _ _ _ H5 i x j H7). eauto.
  - intros [k i] Hl. destruct (Hlv k i Hl) as (r & regs & b & d & x & y & H1 & H2 & H3 & H4 & H5 & H6 & H7).
    destruct (vt_reg _ _ _ _ _ _ _ _ _ _ _ _ _ _ _ _ _ _ H5 i y x H6 H7)
      as (Q1 & Q2 & Q3 & Q4 & Q5 & Q6 & (j & p & J1 & J2 & J3 & J4) & (z & Z1 & Z2) & HF & HB).
    assert (get2 ts (k, i) = Some y) as Hg. { unfold get2. cbn [fst snd]. by rewrite H2. }
    assert (grayz T (k, i) = w_gray y) as Hgz. { unfold grayz. by rewrite (tz_get _ _ _ _ Hg). }
    exists y, (k, j), (k, z), (k, z). rewrite Hgz. unfold useg. cbn [fst snd]. rewrite H4.
    destruct (u_pin k d j p H4 J3) as (P1 & P2 & _).
    split_and!; auto.
    + destruct (d_seg d i); [done|]. cbn in *. congruence.
    + cbn [cut_view vw_gray]. rewrite P2. congruence.
    + rewrite fmap_last, Z1. done.
    + exists []. split; [intros q Hq; by apply elem_of_nil in Hq|]. split; [auto|]. rewrite app_nil_r.
      destruct HB as (B1 & (p1 & B2 & C2) & (p2 & B3 & C3) & (p3 & B4 & C4) & (p4 & B5 & C5)).
      assert (forall q, q ∈ rl x -> exists e, (k, e) ∈ pair k <$> d_seg d i /\ uxy (k, e) = vxy cols q) as Hsur.
      { intros q Hq. apply elem_of_list_lookup in Hq as [e He]. destruct (Forall2_lookup_r _ _ _ _ _ HF He) as (f & Hf & Hh').
        exists f. split; [apply elem_of_list_fmap; exists f; split; [done|by eapply elem_of_list_lookup_2]|].
        unfold uxy. destruct (u_pin k d f q H4 Hh') as (_ & -> & _). done. }
      split.
      * intros q Hq. apply elem_of_list_fmap in Hq as (e & -> & He). apply elem_of_list_lookup in He as [m Hm].
        destruct (Forall2_lookup_l _ _ _ _ _ HF Hm) as (q & Hq & Hh').
        unfold uxy. destruct (u_pin k d e q H4 Hh') as (_ & -> & _). apply B1. by eapply elem_of_list_lookup_2.
      * destruct (Hsur _ B2) as (e1 & ? & E1), (Hsur _ B3) as (e2 & ? & E2), (Hsur _ B4) as (e3 & ? & E3), (Hsur _ B5) as (e4 & ? & E4).
        split_and!; [exists (k, e1)|exists (k, e2)|exists (k, e3)|exists (k, e4)]; rewrite ?E1, ?E2, ?E3, ?E4; auto.
  - intros [k i] [k' j] Hl Hl'. rewrite Hre. intros Hu.
    destruct (Hlv k i Hl) as (r & regs & b & d & x & y & H1 & _ & _ & H4 & H5 & H6 & H7).
    destruct (Hlv k' j Hl') as (r' & regs' & b' & d' & x' & y' & _ & _ & _ & G4 & G5 & G6 & G7).
    apply (u_under k' d') in Hu as [-> Hu]; [|done]. assert (d' = d) as -> by congruence.
    destruct (vt_nest _ _ _ _ _ _ _ _ _ _ _ _ _ _ _ _ _ _ H5 i j x x' H7 G7 Hu) as (A & B & E).
    unfold useg. cbn [fst snd]. rewrite H4, E, !fmap_app. eauto.
  - intros [k i] Hl [Hk|Htop]; [by apply elem_of_nil in Hk|].
    destruct (Hlv k i Hl) as (r & regs & b & d & x & y & H1 & H2 & H3 & H4 & H5 & H6 & H7).
    assert (rpar x = None) as Hpar.
    { destruct (rpar x) as [t|] eqn:Ht; [|done]. exfalso.
      assert (table_of (convr k (d_regs d)) i = Some (VReg (rg x) true (length (rl x)) (rpar x))) as E1.
      { by rewrite table_convr, H7. }
      destruct (ct_par _ _ _ (vt_tree _ _ _ _ _ _ _ _ _ _ _ _ _ _ _ _ _ _ H5) i _ t E1 Ht) as (c & Hc' & Hor).
      rewrite table_convr in Hc'. destruct (d_regs d !! t) as [xt|] eqn:Hxt; [|done].
      assert ((k, t) = (k, i)) as [= ->].
      { apply Htop.
        - apply u_live. cbn [fst snd]. eauto.
        - apply (u_under k d); [done|]. split; [done|]. apply rtc_once. eexists. split; [exact E1|]. done. }
      assert (xt = x) as -> by congruence. injection Hc' as <-. cbn in Hor. destruct Hor as [?|[_ ?]]; [lia|done]. }
    unfold useg. cbn [fst snd]. rewrite H4. change None with (pair k <$> @None nat) at 1.
    eapply ldl_dseg; [by rewrite list_lookup_fmap, H3|]. eapply (vt_chain _ _ _ _ _ _ _ _ _ _ _ _ _ _ _ _ _ _ H5); eauto.
  - intros [k i] (d & p & Hd & Hp) Hn. cbn [fst snd] in *. destruct Hn.
    destruct (u_data k d Hd) as (r & regs & b & H1 & H2 & H3 & H5).
    destruct (vt_pt _ _ _ _ _ _ _ _ _ _ _ _ _ _ _ _ _ _ H5 i p Hp) as (q & Hq & _ & _ & Hr').
    unfold rf, get2. cbn [fst snd]. by rewrite list_lookup_fmap, H3; cbn [fmap option_fmap option_map]; rewrite Hq.
  - intros q Hq. by apply elem_of_nil in Hq.
Qed.

Lemma u_bounded : wbounded ts.
Proof using All.
  intros [k i] a Ha. destruct (u_reg k i a Ha) as (r & regs & b & d & x & H1 & H2 & H3 & H4 & H5 & H6 & H7).
  destruct (vt_reg _ _ _ _ _ _ _ _ _ _ _ _ _ _ _ _ _ _ H5 i a x H6 H7) as (-> & _ & _ & _ & _ & _ & (j & p & _ & _ & _ & <-) & _).
  apply Hgray.
Qed.
Lemma u_num : num2 ts <= rows * cols.
Proof using All.
  assert (sum_list (map (fun r => r_w r * r_h r) R) = rows * cols) as <-.
  { rewrite (sum_grid hpn vpn cols rows (fun w => w) (fun h => h)).
    change (map (fun lw : nat * nat => snd lw)) with (map (@snd nat nat)). rewrite !sum_cut by auto. lia. }
  unfold num2. assert (Forall2 (fun (l : list wreg) r => length l <= r_w r * r_h r) ts R) as H2.
  { apply Forall2_same_length_lookup. split; auto. intros k l r Hl Hk.
    destruct (Hall k r Hk) as (l' & b & d & E1 & _ & _ & H5). assert (l' = l) as -> by congruence.
    rewrite (vt_len _ _ _ _ _ _ _ _ _ _ _ _ _ _ _ _ _ _ H5). apply (vt_few _ _ _ _ _ _ _ _ _ _ _ _ _ _ _ _ _ _ H5). }
  clear -H2. induction H2 as [|l r ts' rs' Hle _ IH]; [done|].
  change (length l + sum_list (length <$> ts') <= r_w r * r_h r + sum_list (map (fun r => r_w r * r_h r) rs')).
  lia.
Qed.

(* the tables of boundary regions *)
Lemma side_entry k (lab : nat -> nat) has n f t i : sideok k (fun p => PD (lab p)) has n f t -> has = true -> i < n ->
  seam_entry t i = Some (k, lab (f i)).
Proof.
  clear. intros H Hs Hi. destruct t as [l|]; cbn in *; [|congruence]. destruct H as (_ & _ & H).
  by rewrite (H i _ Hi eq_refl).
Qed.
Lemma u_entry k r t : R !! k = Some r -> (vb_tab <$> os) !! k = Some t ->
  (forall i, has_left hpn k = true -> i < r_h r -> seam_entry (tb_l t) i = Some (ulab ((r_top r + i) * cols + (r_left r + 0)))) /\
  (forall i, has_right hpn k = true -> i < r_h r -> seam_entry (tb_r t) i = Some (ulab ((r_top r + i) * cols + (r_left r + (r_w r - 1))))) /\
  (forall i, has_top hpn k = true -> i < r_w r -> seam_entry (tb_t t) i = Some (ulab ((r_top r + 0) * cols + (r_left r + i)))) /\
  (forall i, has_bot hpn (vpn * hpn) k = true -> i < r_w r -> seam_entry (tb_b t) i = Some (ulab ((r_top r + (r_h r - 1)) * cols + (r_left r + i)))).
Proof using All.
  intros Hk Ht. destruct (Hall k r Hk) as (regs & b & d & H1 & H2 & H3 & H4).
  rewrite list_lookup_fmap, H2 in Ht. injection Ht as <-.
  destruct (rects_inside hpn vpn cols rows Hh Hv k r Hk) as [I1 I2].
  assert (0 < r_w r /\ 0 < r_h r) as [Hw Hh'].
  { destruct (rects_inv hpn vpn cols rows Hh Hv k r Hk) as (v & h & Hv' & Hh' & _ & ->). cbn [rect_at r_w r_h]. auto using cut_pos. }
  assert (forall y x, y < r_h r -> x < r_w r -> ulab ((r_top r + y) * cols + (r_left r + x)) =
    (k, d_lab d ((r_top r + y) * cols + (r_left r + x)))) as Hu.
  { intros y x Hy Hx. assert (in_rect cols (r_top r) (r_left r) (r_w r) (r_h r) ((r_top r + y) * cols + (r_left r + x))) as Hin.
    { unfold in_rect. destruct (coord cols (r_top r + y) (r_left r + x)) as [-> ->]; lia. }
    apply (vt_dn _ _ _ _ _ _ _ _ _ _ _ _ _ _ _ _ _ _ H4) in Hin. apply elem_of_list_lookup in Hin as [i Hi].
    by destruct (u_pin k d i _ H3 Hi) as (_ & _ & _ & _ & ?). }
  destruct (vt_tab _ _ _ _ _ _ _ _ _ _ _ _ _ _ _ _ _ _ H4) as [T1 T2 T3 T4].
  split_and!; intros i Hi Hlt; rewrite Hu by lia.
  - exact (side_entry _ _ _ _ _ _ _ T1 Hi Hlt).
  - exact (side_entry _ _ _ _ _ _ _ T2 Hi Hlt).
  - exact (side_entry _ _ _ _ _ _ _ T3 Hi Hlt).
  - exact (side_entry _ _ _ _ _ _ _ T4 Hi Hlt).
Qed.
End union.
