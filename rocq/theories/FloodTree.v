(* From the tree of the abstract machine to the pointer-level specification. *)
From stdpp Require Import sorting relations functions list.
From Coq Require Import NArith ZArith.
From Verif Require Import Spec TreeSpec Grid FloodModel FloodRefine.

(* a region record of the code, read as a stored region *)
Definition vreg_of (a : creg) : vreg nat :=
  VReg (m_gray a) (negb (m_flag a =? 3)) (m_size a) (m_parent a).
Definition table_of (regs : list creg) (i : nat) : option (vreg nat) := vreg_of <$> regs !! i.

Section rv.
Context (cols top left w h : nat) (gray : nat -> nat) (Hfit : left + w <= cols).
Notation G := (rect_graph cols top left w h gray).
Notation V := (rect_view cols top left w h gray).

Lemma in_rect_nodes p : in_rect cols top left w h p <-> p ∈ g_nodes G.
Proof.
  simpl. rewrite elem_rect. unfold in_rect. split.
  - intros [H1 H2]. assert (cols <> 0) by lia.
    exists (p / cols - top), (p mod cols - left). split; [lia|]. split; [lia|].
    unfold gid. pose proof (Nat.div_mod p cols ltac:(lia)).
    replace (top + (p / cols - top)) with (p / cols) by lia. lia.
  - intros (r & c & Hr & Hc & ->). unfold gid.
    rewrite Nat.div_add_l, (Nat.div_small (left + c)) by lia.
    rewrite (Nat.add_comm _ (left + c)), Nat.mod_add, Nat.mod_small by lia. lia.
Qed.

Lemma gid_dm r c : c < w -> gid cols top left r c / cols = top + r /\
  gid cols top left r c mod cols = left + c.
Proof.
  intros Hc. unfold gid. split.
  - rewrite Nat.div_add_l, (Nat.div_small (left + c)) by lia. lia.
  - rewrite (Nat.add_comm _ (left + c)), Nat.mod_add, Nat.mod_small by lia. lia.
Qed.

Lemma adj_rect p q : p ∈ g_nodes G -> (adj G p q <-> q ∈ g_nodes G /\ adj4 cols p q).
Proof.
  intros Hp. apply elem_rect in Hp as (r & c & Hr & Hc & ->). rewrite adj_gid by auto. split.
  - intros (r' & c' & Hr' & Hc' & -> & Ha). split. { apply elem_rect. eauto 6. }
    unfold adj4. destruct (gid_dm r c Hc) as [-> ->], (gid_dm r' c' Hc') as [-> ->]. lia.
  - intros [Hq Ha]. apply elem_rect in Hq as (r' & c' & Hr' & Hc' & ->). exists r', c'.
    split; auto. split; auto. split; auto. unfold adj4 in Ha.
    destruct (gid_dm r c Hc) as [H1 H2], (gid_dm r' c' Hc') as [H3 H4]. rewrite H1, H2, H3, H4 in Ha. lia.
Qed.

Lemma lstep_vstep l p q : lstep G l p q <-> vstep V l p q.
Proof.
  unfold lstep, vstep. cbn [vw_in vw_adj vw_gray rect_view]. rewrite !in_rect_nodes. split.
  - intros (Hp & Ha & H1 & H2). apply adj_rect in Ha as [? ?]; auto.
  - intros (Hp & Hq & Ha & H1 & H2). split; auto. split; auto. by apply adj_rect.
Qed.

Lemma conn_vconn l p q : conn G l p q <-> vconn V l p q.
Proof.
  unfold conn, vconn. cbn [vw_in vw_adj vw_gray rect_view]. rewrite !in_rect_nodes.
  assert (forall x y, rtc (lstep G l) x y <-> rtc (vstep V l) x y) as Hr.
  { intros x y. split; apply rtc_subrel; intros ? ?; by rewrite lstep_vstep. }
  by rewrite Hr.
Qed.

Lemma table_convr pt regs r : table_of (convr pt regs) r =
  (fun a => VReg (rg a) true (length (rl a)) (rpar a)) <$> regs !! r.
Proof. unfold table_of. rewrite convr_lookup. by destruct (regs !! r). Qed.

Lemma vup_convr pt regs r t : vup (table_of (convr pt regs)) r t <-> rparent regs r t.
Proof.
  unfold vup, rparent. rewrite table_convr. split.
  - intros (a & Ha & Hp). destruct (regs !! r) as [b|]; [|done]. simpl in Ha. injection Ha as <-. eauto.
  - intros (b & -> & Hp). simpl. eauto.
Qed.
Lemma vunder_convr pt regs r t : vunder (table_of (convr pt regs)) r t <-> under regs r t.
Proof. split; apply rtc_subrel; intros ? ?; by rewrite vup_convr. Qed.

Lemma tree_ctree pt lab regs : (forall p, p ∈ g_nodes G -> gray p <= 255) -> tree_of G lab regs ->
  ctree V lab (table_of (convr pt regs)) /\ one_root (table_of (convr pt regs)).
Proof.
  intros Hgb [H1 H2 H3 H4 H5 H6]. split; [constructor|].
  - intros p Hp. apply in_rect_nodes in Hp. destruct (H1 p Hp) as (a & Ha & Hg).
    eexists. rewrite table_convr, Ha. simpl. eauto.
  - intros r a t Ha Ht. rewrite table_convr in Ha. destruct (regs !! r) as [a0|] eqn:Hr; [|done].
    simpl in Ha. injection Ha as <-. destruct (H3 r a0 t Hr Ht) as (b & Hb & Hlt).
    eexists. rewrite table_convr, Hb. simpl. eauto.
  - intros r a Ha Hl. rewrite table_convr in Ha. destruct (regs !! r); [|done]. simpl in Ha.
    injection Ha as <-. done.
  - intros r a Ha Hl. rewrite table_convr in Ha. destruct (regs !! r) as [a0|] eqn:Hr; [|done].
    simpl in Ha. injection Ha as <-. destruct (H2 r a0 Hr) as (p & Hp & Hlab). exists p.
    destruct (H1 p Hp) as (a & Ha & Hg). rewrite Hlab, Hr in Ha. injection Ha as <-.
    split; [by apply in_rect_nodes|]. split; auto. rewrite Hlab. apply rtc_refl.
  - intros r a p q Ha Hl Hp Hq Hu. apply in_rect_nodes in Hp, Hq. rewrite table_convr in Ha.
    destruct (regs !! r) as [a0|] eqn:Hr; [|done]. simpl in Ha. injection Ha as <-.
    rewrite vunder_convr in *. rewrite <-conn_vconn. simpl. eauto.
  - intros r a Ha Hl. rewrite table_convr in Ha. destruct (regs !! r) as [a0|] eqn:Hr; [|done].
    simpl in Ha. injection Ha as <-. destruct (H5 r a0 Hr) as [Hn Hm]. exists (rl a0).
    split; auto. split; auto. intros p. rewrite Hm, vunder_convr. cbn [vw_in rect_view].
    by rewrite in_rect_nodes.
  - intros r a Ha. rewrite table_convr in Ha. destruct (regs !! r) as [a0|] eqn:Hr; [|done]. clear a Ha.
    remember (255 - rg a0) as m eqn:Hm. revert r a0 Hr Hm.
    induction m as [m IH] using lt_wf_ind. intros r a0 Hr Hm.
    destruct (rpar a0) as [t|] eqn:Ht.
    + destruct (H3 r a0 t Hr Ht) as (b & Hb & Hlt).
      destruct (H2 t b Hb) as (p & Hp & Hlab). destruct (H1 p Hp) as (b' & Hb' & Hg).
      rewrite Hlab, Hb in Hb'. injection Hb' as <-. specialize (Hgb p Hp). simpl in Hg.
      destruct (IH (255 - rg b)) with (r := t) (a0 := b) as (u & c & Hu & Hc & Hn); auto; [lia|].
      exists u, c. split; auto. eapply rtc_l; [|exact Hu]. apply vup_convr. exists a0. auto.
    + exists r. eexists. split; [apply rtc_refl|]. rewrite table_convr, Hr. simpl. eauto.
  - destruct H6 as (r & (a & Ha & Hp) & Hu). exists r. split.
    + eexists. rewrite table_convr, Ha. simpl. eauto.
    + intros r' a' Ha' Hp'. rewrite table_convr in Ha'. destruct (regs !! r') as [b|] eqn:Hr'; [|done].
      simpl in Ha'. injection Ha' as <-. eauto.
Qed.
End rv.

Lemma dgraph_conn ms cols top left w h gray l p q :
  conn (dgraph ms cols top left w h gray) l p q <-> conn (rect_graph cols top left w h gray) l p q.
Proof.
  unfold conn. cbn [g_nodes g_gray dgraph rect_graph].
  assert (forall x y, lstep (dgraph ms cols top left w h gray) l x y <-> lstep (rect_graph cols top left w h gray) l x y) as Hs.
  { intros x y. unfold lstep. by rewrite dgraph_adj. }
  assert (forall x y, rtc (lstep (dgraph ms cols top left w h gray) l) x y <-> rtc (lstep (rect_graph cols top left w h gray) l) x y) as ->.
  { intros x y. split; apply rtc_subrel; intros ? ?; by rewrite Hs. }
  done.
Qed.
Lemma dgraph_tree ms cols top left w h gray lab regs :
  tree_of (dgraph ms cols top left w h gray) lab regs -> tree_of (rect_graph cols top left w h gray) lab regs.
Proof.
  intros [H1 H2 H3 H4 H5 H6]. constructor; auto. intros r a p q Hr Hp Hq Hu. rewrite <-dgraph_conn. by apply H4.
Qed.
