(* The table the pass of the original implementation leaves is the component tree of the
   picture. *)
From stdpp Require Import sorting relations functions list_numbers list.
From Coq Require Import NArith ZArith SpecFloat.
From Verif Require Import Spec TreeSpec TreeFacts JoinMath FloodModel FloodCorrect FloatModel RecogModel V1BuildModel V1Sort LinkedGrid LinkedCorrect OrgModel OrgBuild.
Local Open Scope nat_scope.

(* SPEC: the regions as a table *)
Definition otable (regs : list oreg) (i : nat) : option (vreg nat) :=
  (fun a => VReg (o_gray a) (negb (o_merged a)) (o_size a) (o_par a)) <$> regs !! i.
(* SPEC: the region a linked point belongs to *)
Definition olab (own : list (option nat)) (p : nat) : nat :=
  match own !! p with Some (Some x) => x | _ => 0 end.

Lemma otable_up regs r t : vup (otable regs) r t <-> oup (strip <$> regs) r t.
Proof.
  rewrite oup_strip. unfold vup, oup, otable. split.
  - intros (v & Hv & E). destruct (regs !! r) as [a|] eqn:Ea; [|done]. injection Hv as <-. exists a. auto.
  - intros (a & Ha & E). rewrite Ha. eexists. split; [done|]. done.
Qed.
Lemma otable_under regs r t : vunder (otable regs) r t <-> ound (strip <$> regs) r t.
Proof. split; apply rtc_subrel; intros x y; by apply otable_up. Qed.
Lemma otable_get regs r v : otable regs r = Some v -> exists a, regs !! r = Some a /\ (strip <$> regs) !! r = Some (strip a) /\
  v_gray v = o_gray a /\ v_live v = negb (o_merged a) /\ v_size v = o_size a /\ v_par v = o_par a.
Proof. unfold otable. destruct (regs !! r) as [a|] eqn:E; [|done]. intros [= <-]. exists a. rewrite list_lookup_fmap, E. auto 10. Qed.
Lemma otable_at regs r a : (strip <$> regs) !! r = Some a -> exists v, otable regs r = Some v /\
  v_gray v = o_gray a /\ v_live v = negb (o_merged a) /\ v_size v = o_size a /\ v_par v = o_par a.
Proof. intros H. apply list_lookup_fmap_inv in H as (b & -> & Hb). unfold otable. rewrite Hb. eexists. split; [done|]. auto. Qed.

Section tree.
Context (img : list Z) (offs : list Z) (pts : list nat) (cap rcap : nat).
Notation inP := (inP img). Notation lev := (lev img). Notation adjP := (adjP offs). Notation PV := (PV img offs).
Context (Hin : forall p d, inP p -> d ∈ offs -> (0 <= Z.of_nat p + d)%Z /\ Z.to_nat (Z.of_nat p + d) < length img).
Context (Hsym : forall p q, inP p -> inP q -> adjP p q -> adjP q p).
Context (Hpts : NoDup pts) (Hpin : forall p, p ∈ pts <-> inP p).
Context (Hcap : length pts <= cap) (Hrcap : length pts <= rcap).
Context (g : nat) (st : ost) (sg : nat -> list nat) (HP : pinv img offs g st sg).
Context (Hall : forall p, inP p -> exists x, os_own st !! p = Some (Some x)).
Notation regs := (os_regs st). Notation K := (strip <$> os_regs st). Notation own := (os_own st).
Let HC := p_core _ _ _ _ _ HP.

Lemma olab_own p : inP p -> own !! p = Some (Some (olab own p)).
Proof using All. intros Ip. destruct (Hall p Ip) as [x Hx]. unfold olab. by rewrite Hx. Qed.
Lemma seg_under r p : is_Some (K !! r) -> (p ∈ sg r <-> inP p /\ ound K (olab own p) r).
Proof using All.
  intros Hr. rewrite (k_mem _ _ _ _ _ _ _ _ HC r p Hr). split.
  - intros (x & Hx & Hu). destruct (k_lab _ _ _ _ _ _ _ _ HC _ _ Hx) as (Ip & _). split; auto. unfold olab. by rewrite Hx.
  - intros [Ip Hu]. exists (olab own p). split; auto. by apply olab_own.
Qed.

(* a surviving region contains every neighbour that is not brighter *)
Lemma seg_closed r a x y : K !! r = Some a -> o_merged a = false -> x ∈ sg r -> inP y -> adjP x y -> lev y <= o_gray a -> y ∈ sg r.
Proof using All.
  intros Ha Hm Hx Hy Hxy Hl. destruct (o_par a) as [t|] eqn:Et.
  - destruct (k_par _ _ _ _ _ _ _ _ HC r a t Ha Et) as (_ & b & Hb & Hle & Hmm & _ & Hcl). rewrite Hm in Hmm. symmetry in Hmm. apply Nat.eqb_neq in Hmm.
    apply (Hcl ltac:(lia) x y); auto. lia.
  - assert (oroot K r) as Rr by (exists a; auto). assert (is_Some (K !! r)) as Hr by eauto. apply seg_under in Hx as [Ix Hux]; auto.
    apply seg_under; auto. split; auto.
    assert (joined K (olab own x) r) as Jx. { exists r. split_and!; auto. constructor. }
    eapply (joined_root img offs pts cap rcap Hin Hsym Hpts Hpin Hcap Hrcap _ _ _ _ _ _ HC); auto.
    destruct (decide (lev y <= lev x)) as [Hc|Hc].
    + destruct (k_edge _ _ _ _ _ _ _ _ HC x y _ (olab_own x Ix) Hy Hxy Hc) as (z & Hz & J); [tauto|].
      rewrite (olab_own y Hy) in Hz. injection Hz as <-. eapply joined_trans; [apply joined_sym; exact J|exact Jx].
    + destruct (k_edge _ _ _ _ _ _ _ _ HC y x _ (olab_own y Hy) Ix (Hsym _ _ Ix Hy Hxy) ltac:(lia)) as (z & Hz & J); [tauto|].
      rewrite (olab_own x Ix) in Hz. injection Hz as <-. eapply joined_trans; [exact J|exact Jx].
Qed.

Lemma ctree_pass : ctree PV (olab own) (otable regs).
Proof using All.
  constructor.
  - intros p Hp. destruct (k_lab _ _ _ _ _ _ _ _ HC _ _ (olab_own p Hp)) as (_ & _ & a & Ha & Hg).
    destruct (otable_at _ _ _ Ha) as (v & Hv & E1 & _). exists v. split; auto. cbn. congruence.
  - intros r v t Hv Ht. destruct (otable_get _ _ _ Hv) as (a & _ & Ha & E1 & E2 & _ & E4). rewrite E4 in Ht.
    destruct (k_par _ _ _ _ _ _ _ _ HC r (strip a) t Ha Ht) as (_ & b & Hb & Hle & Hm & _). destruct (otable_at _ _ _ Hb) as (w & Hw & F1 & _).
    exists w. split; auto. rewrite E1, F1, E2. cbn in Hle, Hm. rewrite Hm. destruct (Nat.eqb_spec (o_gray a) (o_gray b)); [right; auto|left; lia].
  - intros r v Hv Hl. destruct (otable_get _ _ _ Hv) as (a & _ & Ha & E1 & E2 & _ & E4). rewrite E2 in Hl. apply negb_false_iff in Hl.
    destruct (o_par a) as [t|] eqn:Et; [|pose proof (k_root _ _ _ _ _ _ _ _ HC r (strip a) Ha Et) as Hm; cbn in Hm; congruence].
    destruct (k_par _ _ _ _ _ _ _ _ HC r (strip a) t Ha Et) as (_ & b & Hb & Hle & Hm & _). destruct (otable_at _ _ _ Hb) as (w & Hw & F1 & _).
    exists t, w. split; [congruence|]. split; auto. cbn in Hm. rewrite Hl in Hm. symmetry in Hm. apply Nat.eqb_eq in Hm. congruence.
  - intros r v Hv Hl. destruct (otable_get _ _ _ Hv) as (a & _ & Ha & E1 & E2 & _ & E4).
    pose proof (k_head _ _ _ _ _ _ _ _ HC r (strip a) Ha) as Hh. destruct (k_gray _ _ _ _ _ _ _ _ HC r (strip a) Ha) as (_ & Hg & _).
    destruct (k_lab _ _ _ _ _ _ _ _ HC _ _ Hh) as (Ih & _). exists (o_head a). split; [exact Ih|]. split; [cbn; rewrite E1; exact Hg|].
    unfold olab. cbn in Hh. rewrite Hh. constructor.
  - intros r v p q Hv Hl Hp Hq. destruct (otable_get _ _ _ Hv) as (a & _ & Ha & E1 & E2 & _ & E4). rewrite !otable_under, E1.
    assert (is_Some (K !! r)) as Hr by eauto. intros Hup. assert (p ∈ sg r) as Hps by (apply seg_under; auto). split.
    + intros Huq. assert (q ∈ sg r) as Hqs by (apply seg_under; auto).
      pose proof (k_conn _ _ _ _ _ _ _ _ HC r (strip a) p Ha Hps) as C1. pose proof (k_conn _ _ _ _ _ _ _ _ HC r (strip a) q Ha Hqs) as C2.
      eapply vconn_trans; [apply vconn_sym; [eapply PVsym; eauto|exact C1]|exact C2].
    + intros (_ & _ & _ & _ & Hc). rewrite E2 in Hl. apply negb_true_iff in Hl.
      assert (forall x y, rtc (vstep PV (o_gray a)) x y -> x ∈ sg r -> y ∈ sg r) as Hcl.
      { intros x y H. induction H as [|x z y (_ & Hz & (_ & _ & Hxz) & _ & Hlz) _ IH]; auto. intros Hx. apply IH.
        eapply (seg_closed r (strip a)); eauto. }
      apply Hcl in Hc; auto. by apply seg_under in Hc as [_ ?].
  - intros r v Hv Hl. destruct (otable_get _ _ _ Hv) as (a & _ & Ha & E1 & E2 & E3 & E4). destruct (k_seg _ _ _ _ _ _ _ _ HC r (strip a) Ha) as [S1 S2 _ _ _].
    exists (sg r). split; auto. split; [|rewrite E3; exact S2]. intros p. rewrite otable_under. apply seg_under. eauto.
  - intros r v Hv. destruct (otable_get _ _ _ Hv) as (a & _ & Ha & _).
    destruct (root_of img offs pts cap rcap Hin Hsym Hpts Hpin Hcap Hrcap _ _ _ _ _ _ HC r ltac:(eauto)) as (t & (b & Hb & Hbp) & Hu).
    destruct (otable_at _ _ _ Hb) as (w & Hw & _ & _ & _ & F4). exists t, w. rewrite otable_under. split; auto. split; auto. congruence.
Qed.
End tree.

(* ---------- the same tree under renamed pixels ---------- *)
Section iso.
Context {I : Type} (V1 V2 : view) (f : nat -> nat) (lab : nat -> I) (T : I -> option (vreg I)).
Context (Hin : forall p, vw_in V1 p -> vw_in V2 (f p)) (Hsur : forall q, vw_in V2 q -> exists p, vw_in V1 p /\ f p = q).
Context (Hinj : forall p q, vw_in V1 p -> vw_in V1 q -> f p = f q -> p = q).
Context (Hgray : forall p, vw_in V1 p -> vw_gray V1 p = vw_gray V2 (f p)).
Context (Hadj : forall p q, vw_in V1 p -> vw_in V1 q -> (vw_adj V1 p q <-> vw_adj V2 (f p) (f q))).

Lemma iso_conn l p q : vw_in V1 p -> vw_in V1 q -> vconn V1 l p q <-> vconn V2 l (f p) (f q).
Proof using All.
  intros Hp Hq. unfold vconn. rewrite <-!Hgray by done. split.
  - intros (_ & _ & H1 & H2 & H). split_and!; auto. clear H1 H2 Hp Hq. induction H as [|x y z (X1 & X2 & X3 & X4 & X5) _ IH]; [constructor|].
    eapply rtc_l; [|exact IH]. split_and!; auto; [by apply Hadj|by rewrite <-Hgray|by rewrite <-Hgray].
  - intros (_ & _ & H1 & H2 & H). split_and!; auto. clear H1 H2. remember (f p) as x eqn:Ex. remember (f q) as z eqn:Ez. revert p Hp Ex.
    induction H as [x|x y z (X1 & X2 & X3 & X4 & X5) _ IH]; intros p Hp Ex.
    + rewrite (Hinj p q); auto; [constructor|congruence].
    + destruct (Hsur y X2) as (u & Hu & <-). subst x. eapply rtc_l; [|apply (IH Ez u Hu eq_refl)].
      split_and!; auto; [by apply Hadj|by rewrite Hgray|by rewrite Hgray].
Qed.
Lemma iso_card (Q : nat -> Prop) n : card_is (fun p => vw_in V2 p /\ Q p) n -> card_is (fun p => vw_in V1 p /\ Q (f p)) n.
Proof using All.
  intros (l & Hnd & Hl & <-).
  assert (forall l : list nat, NoDup l -> (forall q, q ∈ l -> vw_in V2 q) -> exists k, NoDup k /\ f <$> k = l /\ forall p, p ∈ k -> vw_in V1 p) as Hk.
  { clear l Hnd Hl. induction l as [|q l IH]; intros Hnd Hq; [exists []; split; [constructor|]; split; [done|]; by intros p []%elem_of_nil|].
    apply NoDup_cons in Hnd as [H1 H2]. destruct IH as (k & K1 & <- & K3); auto; [intros; apply Hq; by apply elem_of_list_further|].
    destruct (Hsur q (Hq q ltac:(apply elem_of_list_here))) as (p & Hp & <-). exists (p :: k). split_and!.
    - apply NoDup_cons. split; auto. intros H. apply H1. apply elem_of_list_fmap. eauto.
    - done.
    - intros u [->|Hu]%elem_of_cons; auto. }
  destruct (Hk l Hnd) as (k & K1 & K2 & K3); [intros q Hq; by apply Hl in Hq as [? _]|].
  exists k. split; auto. split; [|by rewrite <-K2, fmap_length]. intros p. split.
  - intros Hp. split; auto. assert (f p ∈ l) as Hfp by (rewrite <-K2; apply elem_of_list_fmap; eauto). by apply Hl in Hfp as [_ ?].
  - intros [Hp HQ]. assert (f p ∈ l) as Hfp by (apply Hl; auto). rewrite <-K2 in Hfp. apply elem_of_list_fmap in Hfp as (u & Eu & Hu).
    rewrite (Hinj p u); auto.
Qed.
Lemma iso_ctree : ctree V2 lab T -> ctree V1 (fun p => lab (f p)) T.
Proof using All.
  intros [T1 T2 T3 T4 T5 T6 T7]. constructor; auto.
  - intros p Hp. destruct (T1 (f p) (Hin p Hp)) as (a & Ha & Hg). exists a. split; auto. by rewrite Hgray.
  - intros r a Ha Hl. destruct (T4 r a Ha Hl) as (q & Hq & Hg & Hu). destruct (Hsur q Hq) as (p & Hp & <-). exists p. rewrite Hgray; auto.
  - intros r a p q Ha Hl Hp Hq Hu. rewrite iso_conn by done. apply T5; auto.
  - intros r a Ha Hl. apply (iso_card (fun p => vunder T (lab p) r)). by apply T6.
Qed.
End iso.
