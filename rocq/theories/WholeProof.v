(* Flooding the partitions and joining gives the component tree of the whole image. *)
From stdpp Require Import sorting relations functions list.
From Coq Require Import NArith.
From Verif Require Import Spec TreeSpec TreeFacts JoinMath Grid FloodModel FloodInit FloodTree FloodCorrect
  ConnectModel ConnectProof PartModel PartProof MergeProof WholeModel.

(* ---------- the forest of freshly built trees ---------- *)
Lemma lift_get ts k i : fget (lift_forest ts) (k, i) =
  match ts !! k with Some l => lift_reg k <$> l !! i | None => None end.
Proof.
  unfold fget, lift_forest. cbn [fst snd]. rewrite list_lookup_imap.
  destruct (ts !! k) as [l|]; [|done]. cbn. by rewrite list_lookup_fmap.
Qed.

Definition lift_vreg (k : nat) (v : vreg nat) : vreg rref :=
  VReg (v_gray v) (v_live v) (v_size v) (pair k <$> v_par v).

Lemma tab_lift ts k i : tab (lift_forest ts) (k, i) =
  match ts !! k with Some l => lift_vreg k <$> table_of l i | None => None end.
Proof.
  unfold tab. rewrite lift_get. destruct (ts !! k) as [l|]; [|done]. unfold table_of.
  by destruct (l !! i).
Qed.

Lemma lift_vup ts k l i j k' : ts !! k = Some l ->
  vup (tab (lift_forest ts)) (k, i) (k', j) <-> k' = k /\ vup (table_of l) i j.
Proof.
  intros Hk. unfold vup. rewrite tab_lift, Hk. split.
  - intros (a & Ha & Hp). destruct (table_of l i) as [v|] eqn:Hv; [|done]. injection Ha as <-.
    cbn in Hp. destruct (v_par v) as [t|] eqn:Ht; [|done]. injection Hp as <- <-. eauto.
  - intros (-> & v & Hv & Hp). rewrite Hv. exists (lift_vreg k v). split; auto. cbn. by rewrite Hp.
Qed.
Lemma lift_vunder ts k l i j k' : ts !! k = Some l ->
  vunder (tab (lift_forest ts)) (k, i) (k', j) <-> k' = k /\ vunder (table_of l) i j.
Proof.
  intros Hk. split.
  - assert (forall x y, vunder (tab (lift_forest ts)) x y -> fst x = k ->
      fst y = k /\ vunder (table_of l) (snd x) (snd y)) as H.
    { intros x y H. induction H as [x|[k1 i1] [k2 i2] y Hu _ IH]; intros Hx.
      - split; auto. apply rtc_refl.
      - cbn [fst snd] in Hx. subst k1. apply (lift_vup _ _ _ _ _ _ Hk) in Hu as [-> Hu].
        destruct IH as [E1 E2]; auto. split; auto. by eapply rtc_l. }
    intros H'. apply (H (k, i) (k', j)) in H'; auto.
  - intros [-> H]. induction H as [i|i m j Hu _ IH]; [apply rtc_refl|].
    eapply rtc_l; [|exact IH]. by apply (lift_vup _ _ _ _ _ _ Hk).
Qed.
Lemma lift_vunder_dom ts x y : fst x < length ts -> vunder (tab (lift_forest ts)) x y -> fst y = fst x.
Proof.
  intros Hx H. apply lookup_lt_is_Some in Hx as [l Hl]. destruct x as [k i], y as [k' j]. cbn [fst] in *.
  by apply (lift_vunder _ _ _ _ _ _ Hl) in H as [-> _].
Qed.

Section whole.
Context (hpn vpn cols rows : nat) (Hh : 0 < hpn) (Hv : 0 < vpn) (Hc : hpn <= cols) (Hr : vpn <= rows)
  (gray : nat -> nat).
Notation R := (rects hpn vpn cols rows).
Notation pf := (partf hpn vpn cols rows).

(* the image with the adjacencies across partitions removed *)
Definition cut_view : view := View (fun p => p < rows * cols) (fun p q => adj4 cols p q /\ pf p = pf q) gray.
Definition whole_view : view := rect_view cols 0 0 cols rows gray.

Lemma whole_in p : vw_in whole_view p <-> p < rows * cols.
Proof.
  simpl. unfold in_rect. split.
  - intros [H1 H2]. pose proof (Nat.div_mod p cols ltac:(lia)). nia.
  - intros H. pose proof (Nat.mod_upper_bound p cols ltac:(lia)).
    assert (p / cols < rows) by (apply Nat.div_lt_upper_bound; lia).
    generalize dependent (p / cols). generalize dependent (p mod cols). clear. intros; lia.
Qed.

Lemma part_rect k r p : R !! k = Some r ->
  in_rect cols (r_top r) (r_left r) (r_w r) (r_h r) p <-> p < rows * cols /\ pf p = k.
Proof.
  intros Hk. split.
  - intros Hin. assert (in_part R cols k p) as Hp by (exists r; auto).
    assert (p < rows * cols) by (eapply (part_inside hpn vpn); eauto). split; auto.
    by apply partf_iff.
  - intros [Hp <-]. destruct (partf_ok hpn vpn cols rows Hh Hv p Hp) as [_ (r' & Hr' & Hin)].
    congruence.
Qed.

Context (ts : list (list creg)) (labs : list (nat -> nat)).
Definition whole_lab (p : nat) : rref := (pf p, match labs !! pf p with Some f => f p | None => 0 end).

Lemma union_ctree : length ts = length R ->
  (forall k r, R !! k = Some r -> exists l f, ts !! k = Some l /\ labs !! k = Some f /\
    ctree (rect_view cols (r_top r) (r_left r) (r_w r) (r_h r) gray) f (table_of l)) ->
  ctree cut_view whole_lab (tab (lift_forest ts)).
Proof.
  intros Hlen Hall.
  assert (forall k l, ts !! k = Some l -> exists r f, R !! k = Some r /\ labs !! k = Some f /\
    ctree (rect_view cols (r_top r) (r_left r) (r_w r) (r_h r) gray) f (table_of l)) as Hts.
  { intros k l Hl. assert (k < length R) as Hk by (rewrite <-Hlen; by eapply lookup_lt_Some).
    apply lookup_lt_is_Some in Hk as [r Hk]. destruct (Hall k r Hk) as (l' & f & Hl' & Hf & HT).
    exists r, f. split; auto. split; auto. congruence. }
  assert (forall p, p < rows * cols -> exists r l f, R !! pf p = Some r /\ ts !! pf p = Some l /\
    labs !! pf p = Some f /\ whole_lab p = (pf p, f p) /\
    ctree (rect_view cols (r_top r) (r_left r) (r_w r) (r_h r) gray) f (table_of l) /\
    in_rect cols (r_top r) (r_left r) (r_w r) (r_h r) p) as Hpx.
  { intros p Hp. destruct (partf_ok hpn vpn cols rows Hh Hv p Hp) as [_ (r & Hk & Hin)].
    destruct (Hall _ _ Hk) as (l & f & Hl & Hf & HT). exists r, l, f.
    unfold whole_lab. rewrite Hf. auto 10. }
  assert (forall k i v, tab (lift_forest ts) (k, i) = Some v -> exists l r f u, ts !! k = Some l /\
    R !! k = Some r /\ labs !! k = Some f /\ table_of l i = Some u /\ v = lift_vreg k u /\
    ctree (rect_view cols (r_top r) (r_left r) (r_w r) (r_h r) gray) f (table_of l)) as Htab.
  { intros k i v Hv'. rewrite tab_lift in Hv'. destruct (ts !! k) as [l|] eqn:Hl; [|done].
    destruct (table_of l i) as [u|] eqn:Hu; [|done]. injection Hv' as <-.
    destruct (Hts k l Hl) as (r & f & H1 & H2 & H3). exists l, r, f, u. auto 10. }
  assert (forall p k l f j, p < rows * cols -> ts !! k = Some l -> labs !! k = Some f ->
    vunder (tab (lift_forest ts)) (whole_lab p) (k, j) <-> pf p = k /\ vunder (table_of l) (f p) j) as Hund.
  { intros p k l f j Hp Hl Hf. destruct (Hpx p Hp) as (r & l' & f' & H1 & H2 & H3 & -> & _).
    rewrite (lift_vunder _ _ _ _ _ _ H2). split.
    - intros [-> H]. split; auto. congruence.
    - intros [<- H]. split; auto. congruence. }
  constructor.
  - intros p Hp. destruct (Hpx p Hp) as (r & l & f & H1 & H2 & H3 & -> & H5 & H6).
    destruct (ct_lab _ _ _ H5 p H6) as (a & Ha & Hg). exists (lift_vreg (pf p) a).
    rewrite tab_lift, H2, Ha. auto.
  - intros [k i] a t Ha Ht. destruct (Htab _ _ _ Ha) as (l & r & f & u & H1 & H2 & H3 & H4 & -> & H6).
    cbn in Ht. destruct (v_par u) as [j|] eqn:Hj; [|done]. injection Ht as <-.
    destruct (ct_par _ _ _ H6 i u j H4 Hj) as (b & Hb & Hor). exists (lift_vreg k b).
    rewrite tab_lift, H1, Hb. auto.
  - intros [k i] a Ha Hl. destruct (Htab _ _ _ Ha) as (l & r & f & u & H1 & H2 & H3 & H4 & -> & H6).
    destruct (ct_dead _ _ _ H6 i u H4 Hl) as (j & b & Hj & Hb & Hg). exists (k, j), (lift_vreg k b).
    rewrite tab_lift, H1, Hb. cbn. by rewrite Hj.
  - intros [k i] a Ha Hl. destruct (Htab _ _ _ Ha) as (l & r & f & u & H1 & H2 & H3 & H4 & -> & H6).
    destruct (ct_own _ _ _ H6 i u H4 Hl) as (p & Hp & Hg & Hu).
    apply (part_rect k r p H2) in Hp as [Hp Hk]. exists p. split; auto. split; auto.
    apply (Hund p k l f i); auto.
  - intros [k i] a p q Ha Hl Hp Hq. destruct (Htab _ _ _ Ha) as (l & r & f & u & H1 & H2 & H3 & H4 & -> & H6).
    simpl in Hp, Hq. rewrite (Hund p k l f i), (Hund q k l f i) by auto. intros [Hpk Hpu].
    assert (in_rect cols (r_top r) (r_left r) (r_w r) (r_h r) p) as Hip by (apply (part_rect k r p H2); auto).
    cbn [lift_vreg v_gray]. split.
    + intros [Hqk Hqu].
      assert (in_rect cols (r_top r) (r_left r) (r_w r) (r_h r) q) as Hiq by (apply (part_rect k r q H2); auto).
      apply (ct_comp _ _ _ H6 i u p q) in Hqu; auto. destruct Hqu as (_ & _ & Q1 & Q2 & Q3).
      split; auto. split; auto. split; auto. split; auto. revert Q3. apply rtc_subrel.
      intros x y (X1 & X2 & X3 & X4 & X5). apply (part_rect k r) in X1 as [X1 X1'], X2 as [X2 X2']; auto.
      split; auto. split; auto. split; auto. split; auto. congruence.
    + intros (_ & _ & Q1 & Q2 & Q3).
      assert (pf q = k /\ rtc (vstep (rect_view cols (r_top r) (r_left r) (r_w r) (r_h r) gray) (v_gray u)) p q) as [Hqk Q4].
      { clear Hq Q1 Q2 Hpu Hip. revert Hp Hpk. induction Q3 as [x|x y z (X1 & X2 & [X3 X3'] & X4 & X5) _ IH]; intros Hp Hpk.
        - split; auto. apply rtc_refl.
        - destruct IH as [I1 I2]; auto. { congruence. } split; auto. eapply rtc_l; [|exact I2].
          split; [apply (part_rect k r); auto|]. split; [apply (part_rect k r); auto; split; auto; congruence|]. auto. }
      split; auto. apply (ct_comp _ _ _ H6 i u p q); auto. { apply (part_rect k r); auto. }
      split; auto. split; [apply (part_rect k r); auto|]. auto.
  - intros [k i] a Ha Hl. destruct (Htab _ _ _ Ha) as (l & r & f & u & H1 & H2 & H3 & H4 & -> & H6).
    eapply card_ext; [|exact (ct_size _ _ _ H6 i u H4 Hl)]. intros p. simpl. split.
    + intros [Hp Hu]. apply (part_rect k r) in Hp as [Hp Hk]; auto. split; auto. apply (Hund p k l f i); auto.
    + intros [Hp Hu]. apply (Hund p k l f i) in Hu as [Hk Hu]; auto. split; auto. apply (part_rect k r); auto.
  - intros [k i] a Ha. destruct (Htab _ _ _ Ha) as (l & r & f & u & H1 & H2 & H3 & H4 & -> & H6).
    destruct (ct_acyc _ _ _ H6 i u H4) as (t & b & Hu & Hb & Hn). exists (k, t), (lift_vreg k b).
    split; [by apply (lift_vunder _ _ _ _ _ _ H1)|]. rewrite tab_lift, H1, Hb. cbn. by rewrite Hn.
Qed.

(* the removed adjacencies are those joined *)
Lemma joined_adj sched x y : good_sched hpn vpn sched -> x < rows * cols -> y < rows * cols ->
  vw_adj (add_edges cut_view (sched_px R cols sched)) x y <-> adj4 cols x y.
Proof.
  intros Hg Hx Hy. rewrite add_edges_adj, !sched_px_iff by auto. cbn [cut_view vw_adj].
  unfold next_px, adj4. split.
  - intros [[H _]|[(_ & _ & H & _)|(_ & _ & H & _)]]; [done|lia..].
  - intros H. destruct (decide (pf x = pf y)) as [He|Hne]; [auto|]. right.
    assert (pf y <> pf x) by auto. destruct H as [[H1 [H2|H2]]|[H1 [H2|H2]]];
      [left|right|left|right]; repeat split; auto; lia.
Qed.

Lemma cut_vsym : vsym cut_view.
Proof. clear. intros p q [H He]. split; [|by rewrite He]. unfold adj4 in *. lia. Qed.

Lemma adj4_vsym : vsym whole_view.
Proof. clear. intros p q H. simpl in *. unfold adj4 in *. lia. Qed.

Lemma whole_card : card_is (vw_in cut_view) (rows * cols).
Proof.
  clear. exists (seq 0 (rows * cols)). split; [apply NoDup_seq|]. split; [|apply seq_length].
  intros p. rewrite elem_of_seq. simpl. lia.
Qed.

Lemma whole_connected : vconnected whole_view.
Proof.
  intros p q Hp Hq. pose proof (rect_connected cols 0 0 cols rows gray) as HC.
  assert (0 + cols <= cols) as Hfit by lia. assert (0 < cols) by lia.
  apply (in_rect_nodes cols 0 0 cols rows gray Hfit) in Hp, Hq.
  assert (rtc (adj (rect_graph cols 0 0 cols rows gray)) p q) as Hpath by (apply HC; auto).
  clear Hq. induction Hpath as [x|x y z Hxy _ IH]; [apply rtc_refl|].
  assert (adj (rect_graph cols 0 0 cols rows gray) x y) as Hxy' by done.
  apply (adj_rect cols 0 0 cols rows gray Hfit) in Hxy' as [Hy Ha]; auto.
  eapply rtc_l; [|by apply IH]. split; [by apply (in_rect_nodes cols 0 0 cols rows gray Hfit)|].
  split; auto. by apply (in_rect_nodes cols 0 0 cols rows gray Hfit).
Qed.
End whole.

(* the tree of a connected view has one root *)
Lemma root_of_connected {I} `{EqDecision I} V (lab : nat -> I) T : vsym V -> ctree V lab T -> vconnected V ->
  (exists p, vw_in V p) -> one_root T.
Proof.
  intros HS HT HC [p Hp]. pose proof (ctree_wf _ _ _ HT) as HW.
  assert (forall x a, T x = Some a -> v_par a = None -> v_live a = true) as Hlive.
  { intros x a Ha Hn. destruct (v_live a) eqn:E; auto. destruct (ct_dead _ _ _ HT x a Ha E) as (? & ? & ? & _). congruence. }
  assert (forall r a, vunder T r r -> T r = Some a -> v_par a = None -> forall z, vunder T r z -> z = r) as Htop.
  { intros r a _ Ha Hn z Hz. inversion Hz as [|? y ? (a' & Ha' & Hp') _]; subst; auto. congruence. }
  destruct (ct_lab _ _ _ HT p Hp) as (a & Ha & _).
  destruct (ct_acyc _ _ _ HT (lab p) a Ha) as (t & b & Hut & Hb & Hn).
  exists t. split; [eauto|]. intros t' b' Hb' Hn'.
  destruct (ct_own _ _ _ HT t' b' Hb' (Hlive _ _ Hb' Hn')) as (q & Hq & Hg & Hqt').
  specialize (HC p q Hp Hq).
  assert (forall x y, rtc (fun x y => vw_in V x /\ vw_in V y /\ vw_adj V x y) x y -> vw_in V x ->
    exists l, vconn V l x y) as Hpath.
  { intros x y H. induction H as [x|x y z (X1 & X2 & X3) _ IH]; intros Hx.
    - exists (vw_gray V x). by apply vconn_refl.
    - destruct (IH X2) as [l Hl]. exists (l + vw_gray V x + vw_gray V y).
      eapply (vconn_trans _ _ _ y); [|eapply vconn_mono; [|exact Hl]; lia].
      apply vconn_step. split; auto. split; auto. split; auto. lia. }
  destruct (Hpath p q HC Hp) as [g Hconn]. pose proof Hconn as (_ & _ & G1 & G2 & _).
  pose proof (proj1 (ctree_rep V lab T g p q HS HT Hp Hq G1 G2) Hconn) as HE.
  assert (exists z, vunder T (lab p) z /\ vunder T (lab q) z) as (z & Z1 & Z2).
  { destruct (E_common T g (lab p) (lab q) HW HE) as [->|(z & ? & Z1 & Z2 & _)].
    - exists (lab q). split; apply rtc_refl.
    - eauto. }
  assert (vunder T z t) as Hzt.
  { destruct (vunder_linear T _ _ _ Z1 Hut) as [?|Hu]; auto.
    rewrite (Htop t b (rtc_refl _ _) Hb Hn z Hu). apply rtc_refl. }
  assert (vunder T z t') as Hzt'.
  { destruct (vunder_linear T _ _ _ Z2 Hqt') as [?|Hu]; auto.
    rewrite (Htop t' b' (rtc_refl _ _) Hb' Hn' z Hu). apply rtc_refl. }
  destruct (vunder_linear T _ _ _ Hzt Hzt') as [Hu|Hu].
  - by apply (Htop t b (rtc_refl _ _) Hb Hn).
  - symmetry. by apply (Htop t' b' (rtc_refl _ _) Hb' Hn').
Qed.
