(* Joining two pixels of a component tree: the mathematics of one connect call. *)
From stdpp Require Import sorting relations functions list.
From Verif Require Import Spec TreeSpec TreeFacts.

(* SPEC: the view with one more adjacency *)
Definition add_edge (V : view) (p0 q0 : nat) : view :=
  View (vw_in V) (fun x y => vw_adj V x y \/ (x = p0 /\ y = q0) \/ (x = q0 /\ y = p0)) (vw_gray V).
(* SPEC: the adjacency is symmetric *)
Definition vsym (V : view) : Prop := forall p q, vw_adj V p q -> vw_adj V q p.

Lemma vsym_add V p q : vsym V -> vsym (add_edge V p q).
Proof. intros H x y [Ha|[[-> ->]|[-> ->]]]; simpl; auto. Qed.
Lemma vstep_sym V l p q : vsym V -> vstep V l p q -> vstep V l q p.
Proof. intros HS (H1 & H2 & H3 & H4 & H5). repeat split; auto. Qed.
Lemma vconn_sym V l p q : vsym V -> vconn V l p q -> vconn V l q p.
Proof.
  intros HS (H1 & H2 & H3 & H4 & H5). repeat split; auto.
  induction H5 as [x|x y z Hxy Hyz IH]; [apply rtc_refl|].
  destruct Hxy as (X1 & X2 & X3 & X4 & X5).
  eapply rtc_r; [apply IH; auto|]. apply vstep_sym; auto. repeat split; auto.
Qed.
Lemma vconn_trans V l p q r : vconn V l p q -> vconn V l q r -> vconn V l p r.
Proof. intros (H1 & H2 & H3 & H4 & H5) (K1 & K2 & K3 & K4 & K5). repeat split; auto. by etrans. Qed.
Lemma vconn_refl V l p : vw_in V p -> vw_gray V p <= l -> vconn V l p p.
Proof. intros. repeat split; auto. apply rtc_refl. Qed.
Lemma vconn_mono V l l' p q : l <= l' -> vconn V l p q -> vconn V l' p q.
Proof.
  intros Hl (H1 & H2 & H3 & H4 & H5). repeat split; auto; try lia.
  revert H5. apply rtc_subrel. intros x y (X1 & X2 & X3 & X4 & X5). repeat split; auto; lia.
Qed.
Lemma vconn_step V l p q : vstep V l p q -> vconn V l p q.
Proof. intros H. pose proof H as (H1 & H2 & H3 & H4 & H5). repeat split; auto. by apply rtc_once. Qed.
Lemma vconn_add V p0 q0 l p q : vconn V l p q -> vconn (add_edge V p0 q0) l p q.
Proof.
  intros (H1 & H2 & H3 & H4 & H5). repeat split; auto. revert H5. apply rtc_subrel.
  intros x y (X1 & X2 & X3 & X4 & X5). repeat split; simpl; auto.
Qed.

Lemma card_exists (P Q : nat -> Prop) N : card_is P N -> (forall p, Q p -> P p) ->
  (forall p, Q p \/ ~ Q p) -> exists n, n <= N /\ card_is Q n.
Proof.
  intros (l & H1 & H2 & <-) HQ HD.
  assert (exists l', NoDup l' /\ (forall p, p ∈ l' <-> p ∈ l /\ Q p) /\ length l' <= length l) as (l' & L1 & L2 & L3).
  { clear - H1 HD. induction l as [|x l IH].
    - exists []. split; [constructor|]. split; [|done]. intros p. rewrite elem_of_nil. tauto.
    - apply NoDup_cons in H1 as [Hx H1]. destruct (IH H1) as (l' & L1 & L2 & L3).
      destruct (HD x) as [Hq|Hq].
      + exists (x :: l'). split; [|split].
        * constructor; auto. rewrite L2. tauto.
        * intros p. rewrite !elem_of_cons, L2. split; [intros [->|[? ?]]; auto|].
          intros [[->|?] ?]; auto.
        * simpl. lia.
      + exists l'. split; auto. split.
        * intros p. rewrite elem_of_cons, L2. split; [intros [? ?]; auto|].
          intros [[->|?] ?]; [done|auto].
        * simpl. lia. }
  exists (length l'). split; auto. exists l'. split; auto. split; auto.
  intros p. rewrite L2, H2. split; [tauto|]. auto.
Qed.

Section join.
Context {I : Type} `{EqDecision I}.
Context (V : view) (lab : nat -> I).
Implicit Types T : I -> option (vreg I).
Notation E T g := (rtsc (edge T g)).

Definition gle T (x : I) (g : nat) : Prop := exists a, T x = Some a /\ v_gray a <= g.

Lemma ctree_wf T : ctree V lab T -> wf T.
Proof. intros []. constructor; auto. Qed.

(* a component tree represents connectivity at all levels *)
Lemma ctree_rep T g p q : vsym V -> ctree V lab T -> vw_in V p -> vw_in V q ->
  vw_gray V p <= g -> vw_gray V q <= g -> vconn V g p q <-> E T g (lab p) (lab q).
Proof.
  intros HS HT Hp Hq Hgp Hgq. pose proof (ctree_wf _ HT) as HW. split.
  - intros (_ & _ & _ & _ & H).
    assert (forall x y, vstep V g x y -> vw_gray V x <= vw_gray V y -> E T g (lab x) (lab y)) as Hst.
    { intros x y (X1 & X2 & X3 & X4 & X5) Hle.
      destruct (ct_lab _ _ _ HT y X2) as (a & Ha & Hga).
      destruct (real_exists _ _ _ HW Ha) as (r & b & R1 & R2 & R3 & R4 & R5).
      assert (vunder T (lab x) r) as Hx.
      { eapply (ct_comp _ _ _ HT r b y x); eauto. apply vconn_sym; auto. apply vconn_step.
        repeat split; auto; lia. }
      eapply rtsc_trans'; [|apply rtsc_sym']; eapply vunder_E; eauto; lia. }
    induction H as [x|x y z Hxy _ IH]; [apply rtc_refl|].
    eapply rtsc_trans'; [|apply IH; auto; by destruct Hxy as (? & ? & ? & ? & ?)].
    destruct (Nat.le_ge_cases (vw_gray V x) (vw_gray V y)); auto.
    apply rtsc_sym', Hst; auto. by apply vstep_sym.
  - intros H.
    assert (exists r b, vunder T (lab p) r /\ vunder T (lab q) r /\ T r = Some b /\ v_gray b <= g)
      as (r & b & H1 & H2 & H3 & H4).
    { apply E_common in H as [He|H]; auto. destruct (ct_lab _ _ _ HT p Hp) as (a & Ha & Hga).
      exists (lab p), a. rewrite <-He. repeat split; auto; [apply rtc_refl|apply rtc_refl|lia]. }
    destruct (real_exists _ _ _ HW H3) as (r' & b' & R1 & R2 & R3 & R4 & R5).
    apply (vconn_mono V (v_gray b')); [lia|].
    apply (ct_comp _ _ _ HT r' b' p q); auto; by etrans.
Qed.

(* and conversely *)
Lemma rep_ctree V' T : wf T ->
  (forall p, vw_in V' p -> exists a, T (lab p) = Some a /\ v_gray a = vw_gray V' p) ->
  (forall r a, T r = Some a -> v_live a = true ->
    exists p, vw_in V' p /\ vw_gray V' p = v_gray a /\ vunder T (lab p) r) ->
  (forall r a, T r = Some a -> v_live a = true ->
    card_is (fun p => vw_in V' p /\ vunder T (lab p) r) (v_size a)) ->
  (forall g p q, vw_in V' p -> vw_in V' q -> vw_gray V' p <= g -> vw_gray V' q <= g ->
    vconn V' g p q <-> E T g (lab p) (lab q)) -> ctree V' lab T.
Proof.
  intros HW Hlab Hown Hsize Hrep. constructor; auto; try apply HW.
  intros r a p q Hr Hl Hp Hq Hpr.
  destruct (Hlab p Hp) as (ap & Hap & Hgp). destruct (Hlab q Hq) as (aq & Haq & Hgq).
  assert (vw_gray V' p <= v_gray a) as Hpa. { rewrite <-Hgp. by eapply vunder_gray. }
  split.
  - intros Hqr. assert (vw_gray V' q <= v_gray a) as Hqa. { rewrite <-Hgq. by eapply vunder_gray. }
    apply Hrep; auto. eapply rtsc_trans'; [|apply rtsc_sym']; eapply vunder_E; eauto.
  - intros Hc. pose proof Hc as (_ & _ & _ & Hqa & _). apply Hrep in Hc; auto.
    apply E_common in Hc as [He|(r2 & b & H1 & H2 & H3 & H4)]; auto.
    + by rewrite <-He.
    + destruct (vunder_linear _ _ _ _ Hpr H1) as [H|H].
      * destruct (vunder_live _ _ _ _ _ HW Hr H3 Hl H) as [->|?]; [done|lia].
      * by etrans.
Qed.

(* connectivity after adding one pair *)
Lemma rep_add T p0 q0 g p q : vsym V -> ctree V lab T -> vw_in V p0 -> vw_in V q0 ->
  vw_in V p -> vw_in V q -> vw_gray V p <= g -> vw_gray V q <= g ->
  vconn (add_edge V p0 q0) g p q <->
  rtsc (fun x y => edge T g x y \/ (x = lab p0 /\ y = lab q0 /\ gle T x g /\ gle T y g)) (lab p) (lab q).
Proof.
  intros HS HT Hp0 Hq0 Hp Hq Hgp Hgq.
  destruct (ct_lab _ _ _ HT p0 Hp0) as (a0 & Ha0 & Hg0).
  destruct (ct_lab _ _ _ HT q0 Hq0) as (b0 & Hb0 & Hg0').
  split.
  - intros (_ & _ & _ & _ & H). induction H as [x|x y z Hxy _ IH]; [apply rtc_refl|].
    eapply rtsc_trans'; [|apply IH; auto; by destruct Hxy as (? & ? & ? & ? & ?)].
    destruct Hxy as (X1 & X2 & X3 & X4 & X5). destruct X3 as [X3|[[-> ->]|[-> ->]]].
    + assert (E T g (lab x) (lab y)) as He.
      { apply ctree_rep; auto. apply vconn_step. repeat split; auto. }
      revert He. apply rtsc_sub. intros u v Huv. apply rtsc_once'. auto.
    + apply rtsc_once'. right. simpl in X4, X5. split; [done|]. split; [done|]. split.
      * exists a0. split; auto; lia.
      * exists b0. split; auto; lia.
    + apply rtsc_sym', rtsc_once'. right. simpl in X4, X5. split; [done|]. split; [done|]. split.
      * exists a0. split; auto; lia.
      * exists b0. split; auto; lia.
  - intros H.
    assert (E T g (lab p) (lab q) \/ (vw_gray V p0 <= g /\ vw_gray V q0 <= g /\
      rtsc (plus (edge T g) (lab p0) (lab q0)) (lab p) (lab q))) as [H'|(Hl1 & Hl2 & H')].
    { clear Hgp Hgq. destruct (le_dec (vw_gray V p0) g); [destruct (le_dec (vw_gray V q0) g)|].
      - right. split; auto. split; auto. revert H. apply rtsc_sub.
        intros x y [Hxy|(-> & -> & _)]; apply rtsc_once'; [by left|by right].
      - left. revert H. apply rtsc_sub. intros x y [Hxy|(-> & -> & _ & (c & Hc & Hcg))]; [by apply rtsc_once'|].
        assert (c = b0) as -> by congruence. lia.
      - left. revert H. apply rtsc_sub. intros x y [Hxy|(-> & -> & (c & Hc & Hcg) & _)]; [by apply rtsc_once'|].
        assert (c = a0) as -> by congruence. lia. }
    + apply vconn_add, (ctree_rep T); auto.
    + assert (vconn (add_edge V p0 q0) g p0 q0) as Hn.
      { apply vconn_step. repeat split; simpl; auto. }
      apply rtsc_plus in H' as [H'|[[H1 H2]|[H1 H2]]].
      * apply vconn_add, (ctree_rep T); auto.
      * eapply vconn_trans; [|eapply vconn_trans; [exact Hn|]]; apply vconn_add, (ctree_rep T); auto.
      * eapply vconn_trans; [|eapply vconn_trans; [apply vconn_sym; [by apply vsym_add|exact Hn]|]];
          apply vconn_add, (ctree_rep T); auto.
Qed.

(* ---------- updates ---------- *)
Lemma upd_s T T' s v : upd T T' s v -> T' s = Some v.
Proof. intros H. rewrite (H s). by rewrite decide_True. Qed.
Lemma upd_ne T T' s v x : upd T T' s v -> x <> s -> T' x = T x.
Proof. intros H Hx. rewrite (H x). by rewrite decide_False. Qed.

Lemma same_vup T T' s v a x y : upd T T' s v -> T s = Some a -> v_par v = v_par a ->
  vup T' x y <-> vup T x y.
Proof.
  intros HU Hs Hp. destruct (decide (x = s)) as [->|Hne]; [|by eapply upd_vup].
  unfold vup. rewrite (upd_s _ _ _ _ HU), Hs. split; intros (c & Hc & Hcp); injection Hc as <-.
  - exists a. split; auto. congruence.
  - exists v. split; auto. congruence.
Qed.
Lemma vunder_iff T T' x y : (forall x y, vup T' x y <-> vup T x y) -> vunder T' x y <-> vunder T x y.
Proof. intros H. split; apply rtc_subrel; intros ? ?; by rewrite H. Qed.

Lemma wf_rehang T T' s v t a b : wf T -> upd T T' s v -> T s = Some a -> v_gray v = v_gray a ->
  v_par v = Some t -> T t = Some b -> ~ vunder T t s ->
  (v_gray a < v_gray b \/ (v_gray a = v_gray b /\ v_live v = false)) ->
  (v_live v = false -> v_gray b = v_gray a) -> wf T'.
Proof.
  intros HW HU Hs Hg Hv Ht Hts Hlt Hdd.
  assert (t <> s) as Hne. { intros ->. apply Hts, rtc_refl. }
  pose proof (upd_s _ _ _ _ HU) as Hs'.
  constructor.
  - intros r x u Hr Hp. assert (exists b', T u = Some b' /\ (v_gray x < v_gray b' \/ (v_gray x = v_gray b' /\ v_live x = false))) as (b' & Hb' & Hd).
    { destruct (decide (r = s)) as [->|Hrs].
      - assert (x = v) as -> by congruence. assert (u = t) as -> by congruence. exists b. rewrite Hg. auto.
      - rewrite (upd_ne _ _ _ _ _ HU Hrs) in Hr. eapply wf_par; eauto. }
    destruct (decide (u = s)) as [->|Hus].
    + exists v. split; auto. rewrite Hg. assert (b' = a) as -> by congruence. auto.
    + exists b'. by rewrite (upd_ne _ _ _ _ _ HU Hus).
  - intros r x Hr Hl. assert (exists u b', v_par x = Some u /\ T u = Some b' /\ v_gray b' = v_gray x) as (u & b' & Hp & Hb' & Hd).
    { destruct (decide (r = s)) as [->|Hrs].
      - assert (x = v) as -> by congruence. exists t, b. rewrite Hg. auto.
      - rewrite (upd_ne _ _ _ _ _ HU Hrs) in Hr. eapply wf_dead; eauto. }
    destruct (decide (u = s)) as [->|Hus].
    + exists s, v. split; auto. split; auto. assert (b' = a) as -> by congruence. congruence.
    + exists u, b'. by rewrite (upd_ne _ _ _ _ _ HU Hus).
  - intros r x Hr.
    destruct (wf_acyc _ HW _ _ Ht) as (z & c & Hz & Hc & Hn).
    assert (vunder T' t z) as Htz by (eapply upd_avoid; eauto).
    assert (z <> s) as Hzs by (intros ->; auto).
    assert (exists y, T r = Some y) as [y Hy].
    { destruct (decide (r = s)) as [->|Hrs]; eauto. rewrite <-(upd_ne _ _ _ _ _ HU Hrs). eauto. }
    destruct (vunder_dec T r s HW) as [Hrs|Hrs].
    + exists z, c. split; [|by rewrite (upd_ne _ _ _ _ _ HU Hzs)].
      eapply rehang_in; eauto.
    + destruct (wf_acyc _ HW _ _ Hy) as (z' & c' & Hz' & Hc' & Hn').
      exists z', c'. split; [by eapply upd_avoid|]. rewrite (upd_ne _ _ _ _ _ HU); auto.
      intros ->. auto.
Qed.

Lemma wf_same T T' s v a : wf T -> upd T T' s v -> T s = Some a -> v_par v = v_par a ->
  v_gray v = v_gray a -> v_live v = v_live a -> wf T'.
Proof.
  intros HW HU Hs Hp Hg Hl.
  assert (forall r x, T' r = Some x -> exists y, T r = Some y /\ v_par x = v_par y /\
    v_gray x = v_gray y /\ v_live x = v_live y) as Hb.
  { intros r x Hr. destruct (decide (r = s)) as [->|Hrs].
    - exists a. rewrite (upd_s _ _ _ _ HU) in Hr. injection Hr as <-. auto.
    - rewrite (upd_ne _ _ _ _ _ HU Hrs) in Hr. eauto. }
  assert (forall r y, T r = Some y -> exists x, T' r = Some x /\ v_par x = v_par y /\
    v_gray x = v_gray y /\ v_live x = v_live y) as Hf.
  { intros r y Hr. destruct (decide (r = s)) as [->|Hrs].
    - exists v. rewrite (upd_s _ _ _ _ HU). assert (y = a) as -> by congruence. auto.
    - exists y. rewrite (upd_ne _ _ _ _ _ HU Hrs). auto. }
  constructor.
  - intros r x t Hr Ht. destruct (Hb _ _ Hr) as (y & Hy & E1 & E2 & E3). rewrite E1 in Ht.
    destruct (wf_par _ HW _ _ _ Hy Ht) as (b & Hbt & Hd). destruct (Hf _ _ Hbt) as (b' & Hb' & F1 & F2 & F3).
    exists b'. rewrite E2, E3, F2. auto.
  - intros r x Hr Hd. destruct (Hb _ _ Hr) as (y & Hy & E1 & E2 & E3). rewrite E3 in Hd.
    destruct (wf_dead _ HW _ _ Hy Hd) as (t & b & Hpt & Hbt & Hgb).
    destruct (Hf _ _ Hbt) as (b' & Hb' & F1 & F2 & F3).
    exists t, b'. rewrite E1, E2, F2. auto.
  - intros r x Hr. destruct (Hb _ _ Hr) as (y & Hy & _).
    destruct (wf_acyc _ HW _ _ Hy) as (t & b & Hu & Hbt & Hn).
    destruct (Hf _ _ Hbt) as (b' & Hb' & F1 & F2 & F3). exists t, b'.
    split; [|split; auto; congruence].
    apply (vunder_iff T T'); auto. intros. eapply same_vup; eauto.
Qed.

(* ---------- the loop invariant ---------- *)
Definition anc T (os : option I) (r : I) : Prop := exists s, os = Some s /\ vunder T s r.
Definition pend T (os ob : option I) (g : nat) : I -> I -> Prop :=
  rtsc (fun x y => edge T g x y \/ (os = Some x /\ ob = Some y /\ gle T x g /\ gle T y g)).
Definition U T (r : I) (p : nat) : Prop := vw_in V p /\ vunder T (lab p) r.
Definition is_live T (os : option I) : Prop :=
  forall s, os = Some s -> exists a, T s = Some a /\ v_live a = true.
Definition size_inv T (os ob : option I) (c : nat) : Prop := forall r a n,
  T r = Some a -> v_live a = true -> card_is (U T r) n ->
  (anc T os r -> anc T ob r -> v_size a = n) /\
  (anc T os r -> ~ anc T ob r -> v_size a + c = n) /\
  (~ anc T os r -> anc T ob r -> v_size a = n + c) /\
  (~ anc T os r -> ~ anc T ob r -> v_size a = n).

Context (C0 : nat -> I -> I -> Prop) (N : nat).

Record jinv T (os ob : option I) (c : nat) : Prop := {
  j_wf : wf T;
  j_fin : card_is (vw_in V) N;
  j_lab : forall p, vw_in V p -> exists a, T (lab p) = Some a /\ v_gray a = vw_gray V p;
  j_own : forall r a, T r = Some a -> v_live a = true ->
    exists p, vw_in V p /\ vw_gray V p = v_gray a /\ vunder T (lab p) r;
  j_s : is_live T os;
  j_b : is_live T ob;
  j_conn : forall g x y, pend T os ob g x y <-> C0 g x y;
  j_size : size_inv T os ob c;
  j_ord : c = 0 \/ forall s b a a', os = Some s -> ob = Some b -> T s = Some a -> T b = Some a' ->
    v_gray a <= v_gray a'
}.

Lemma pend_sym T os ob g x y : pend T os ob g x y -> pend T ob os g x y.
Proof.
  apply rtsc_sub. intros u v [Hu|(H1 & H2 & H3 & H4)].
  - apply rtsc_once'. auto.
  - apply rtsc_sym', rtsc_once'. auto 6.
Qed.
Lemma j_swap T os ob : jinv T os ob 0 -> jinv T ob os 0.
Proof.
  intros []. constructor; auto.
  - intros g x y. rewrite <-j_conn0. split; apply pend_sym.
  - intros r a n Hr Hl Hn. destruct (j_size0 r a n Hr Hl Hn) as (H1 & H2 & H3 & H4).
    split; auto. split; [intros; specialize (H3 ltac:(auto) ltac:(auto)); lia|].
    split; auto. intros. specialize (H2 ltac:(auto) ltac:(auto)). lia.
Qed.

Lemma U_card T r : wf T -> card_is (vw_in V) N -> exists n, n <= N /\ card_is (U T r) n.
Proof.
  intros HW HN. eapply card_exists; [exact HN|by intros p [? _]|]. intros p. unfold U.
  destruct (vunder_dec T (lab p) r HW).
  - destruct HN as (l & H1 & H2 & H3).
    destruct (decide (p ∈ l)) as [Hp|Hp]; rewrite H2 in Hp; [left; auto|right; tauto].
  - right. tauto.
Qed.

(* a live region at most as bright as another one is not above it *)
Lemma not_under T s b a a' : wf T -> T s = Some a -> T b = Some a' -> v_live a' = true ->
  v_gray a <= v_gray a' -> s <> b -> ~ vunder T b s.
Proof.
  intros HW Hs Hb Hl Hg Hne H. destruct (vunder_live _ _ _ _ _ HW Hb Hs Hl H) as [->|?]; [done|lia].
Qed.

(* the size written in the loop is the exact number of pixels *)
Lemma j_fits T s ob c a : jinv T (Some s) ob c -> T s = Some a ->
  (forall b a', ob = Some b -> T b = Some a' -> v_gray a <= v_gray a' /\ s <> b) ->
  card_is (U T s) (v_size a + c) /\ v_size a + c <= N.
Proof.
  intros J Hs Hb. destruct (U_card T s (j_wf _ _ _ _ J) (j_fin _ _ _ _ J)) as (n & Hn & Hc).
  assert (v_live a = true) as Hl.
  { destruct (j_s _ _ _ _ J s eq_refl) as (a2 & Ha2 & ?). congruence. }
  destruct (j_size _ _ _ _ J s a n Hs Hl Hc) as (_ & H & _).
  assert (v_size a + c = n) as ->; [|auto]. apply H.
  - exists s. split; auto. apply rtc_refl.
  - intros (b & -> & Hu). destruct (j_b _ _ _ _ J b eq_refl) as (a' & Ha' & Hl').
    destruct (Hb b a' eq_refl Ha') as [Hg Hne]. apply (not_under T s b a a'); auto. apply J.
Qed.

(* the carry is a number of pixels *)

(* ---------- shortening the parent link of s ---------- *)
Lemma gle_upd T T' s v a x g : upd T T' s v -> T s = Some a -> v_gray v = v_gray a ->
  gle T' x g <-> gle T x g.
Proof.
  intros HU Hs Hg. unfold gle. destruct (decide (x = s)) as [->|Hne].
  - rewrite (upd_s _ _ _ _ HU), Hs. split; intros (c & Hc & ?); injection Hc as <-; eexists; split; eauto; lia.
  - by rewrite (upd_ne _ _ _ _ _ HU Hne).
Qed.

Section compress.
Context T T' s a t y d (HW : wf T) (Hs : T s = Some a) (Hpa : v_par a = Some t)
  (Hty : vunder T t y) (Hy : T y = Some d) (Hyl : v_live d = true)
  (Hyg : forall bt, T t = Some bt -> v_gray d = v_gray bt)
  (Hmin : forall z c, vunder T t z -> T z = Some c -> v_live c = true -> vunder T y z)
  (HU : upd T T' s (VReg (v_gray a) (v_live a) (v_size a) (Some y))).

Lemma compress_sy : vunder T s y.
Proof. eapply rtc_l; [|exact Hty]. exists a; auto. Qed.
Lemma compress_ts : ~ vunder T t s.
Proof.
  intros H. assert (vunder T s t) as Hst. { apply rtc_once. exists a; auto. }
  assert (t = s) as ->. { destruct (wf_par _ HW _ _ _ Hs Hpa) as (b & Hb & _). eapply vunder_antisym; eauto. }
  destruct (wf_acyc _ HW _ _ Hs) as (z & b & Hz & Hb & Hn).
  assert (forall z, vunder T s z -> z = s) as Hall.
  { intros u Hu. remember s as s0 eqn:Hs0. assert (vup T s s) as Hss by (exists a; subst; auto).
    induction Hu as [x|x x' u Hx _ IH]; auto. subst x.
    assert (x' = s) as -> by (eapply vup_fun; eauto). rewrite IH; auto. }
  apply Hall in Hz as ->. congruence.
Qed.
Lemma compress_ys : ~ vunder T y s.
Proof. intros H. apply compress_ts. by etrans. Qed.
Lemma compress_wf : wf T'.
Proof.
  destruct (wf_par _ HW _ _ _ Hs Hpa) as (b & Hb & Hd). pose proof (Hyg _ Hb) as Hg.
  eapply wf_rehang; [exact HW|exact HU|exact Hs|done|done|exact Hy|exact compress_ys| |].
  - simpl. rewrite Hg. auto.
  - simpl. intros Hl. destruct (wf_dead _ HW _ _ Hs Hl) as (t' & b' & H1 & H2 & H3).
    assert (t' = t) as -> by congruence. assert (b' = b) as -> by congruence. congruence.
Qed.
Lemma compress_under x r c : T r = Some c -> v_live c = true -> vunder T' x r <-> vunder T x r.
Proof.
  intros Hr Hl. destruct (T x) as [bx|] eqn:Hx.
  - destruct (vunder_dec T x s HW) as [Hxs|Hxs].
    + rewrite (rehang_in T T' s _ y HW HU eq_refl compress_ys x r) by eauto. split.
      * intros [[? ?]|H]; auto. etrans; [exact Hxs|]. etrans; [exact compress_sy|done].
      * intros H. destruct (vunder_linear _ _ _ _ H Hxs) as [H'|H']; auto.
        inversion H' as [|? u ? Hu Hr']; subst; auto.
        assert (u = t) as ->. { eapply vup_fun; [exact Hu|]. exists a; auto. }
        right. eauto.
    + eapply rehang_out; eauto.
  - assert (x <> s) as Hne by congruence.
    assert (forall r, vunder T x r -> r = x) as H1.
    { intros u Hu. inversion Hu as [|? ? ? (e & He & _) _]; subst; auto. congruence. }
    assert (forall r, vunder T' x r -> r = x) as H2.
    { intros u Hu. inversion Hu as [|? ? ? (e & He & _) _]; subst; auto.
      rewrite (upd_ne _ _ _ _ _ HU Hne) in He. congruence. }
    split; intros H; [apply H2 in H|apply H1 in H]; subst; apply rtc_refl.
Qed.
Lemma compress_E g x z : E T' g x z <-> E T g x z.
Proof.
  destruct (wf_par _ HW _ _ _ Hs Hpa) as (b & Hb & Hd). pose proof (Hyg _ Hb) as Hg.
  assert (forall u, u <> s -> T' u = T u) as Hne by (intros; eapply upd_ne; eauto).
  assert (y <> s) as Hys. { intros He. apply compress_ys. rewrite He. apply rtc_refl. }
  split; apply rtsc_sub.
  - intros u v (c & e & Hu & Hp & Hv & Hge). destruct (decide (u = s)) as [->|Hus].
    + rewrite (upd_s _ _ _ _ HU) in Hu. injection Hu as <-. simpl in Hp. injection Hp as <-.
      rewrite Hne in Hv by auto. eapply vunder_E; eauto. exact compress_sy.
    + rewrite Hne in Hu by auto. apply rtsc_once'.
      destruct (decide (v = s)) as [->|Hvs].
      * rewrite (upd_s _ _ _ _ HU) in Hv. injection Hv as <-. exists c, a. auto.
      * rewrite Hne in Hv by auto. exists c, e. auto.
  - intros u v (c & e & Hu & Hp & Hv & Hge). destruct (decide (u = s)) as [->|Hus].
    + assert (c = a) as -> by congruence. assert (v = t) as -> by congruence.
      assert (e = b) as -> by congruence.
      assert (E T' g s y) as H1.
      { apply rtsc_once'. eexists _, d. rewrite (upd_s _ _ _ _ HU). split; [done|]. split; [done|].
        rewrite Hne by auto. split; auto. lia. }
      assert (E T' g t y) as H2.
      { eapply vunder_E; [exact compress_wf| |rewrite Hne; eauto|lia].
        eapply upd_avoid; [exact HU|exact Hty|]. exact compress_ts. }
      eapply rtsc_trans'; [exact H1|]. by apply rtsc_sym'.
    + apply rtsc_once'. destruct (decide (v = s)) as [->|Hvs].
      * exists c. eexists. rewrite Hne by auto. rewrite (upd_s _ _ _ _ HU).
        split; [done|]. split; [done|]. split; [done|]. simpl. assert (e = a) as -> by congruence. done.
      * exists c, e. rewrite !Hne by auto. auto.
Qed.
End compress.

(* replacing the table by one with the same live structure keeps the invariant *)
Lemma jinv_transport T T' os ob c : jinv T os ob c -> wf T' ->
  (forall x a, T x = Some a -> exists b, T' x = Some b /\ v_gray b = v_gray a /\
     v_live b = v_live a /\ v_size b = v_size a) ->
  (forall x b, T' x = Some b -> exists a, T x = Some a) ->
  (forall x r a, T r = Some a -> v_live a = true -> vunder T' x r <-> vunder T x r) ->
  (forall g x y, E T' g x y <-> E T g x y) -> jinv T' os ob c.
Proof.
  intros J HW Hf Hb Hu HE.
  assert (forall x b, T' x = Some b -> exists a, T x = Some a /\ v_gray b = v_gray a /\
     v_live b = v_live a /\ v_size b = v_size a) as Hb'.
  { intros x b Hx. destruct (Hb x b Hx) as [a Ha]. destruct (Hf x a Ha) as (b' & Hb' & ?).
    exists a. split; auto. by assert (b' = b) as -> by congruence. }
  assert (forall x g, gle T' x g <-> gle T x g) as Hgle.
  { intros x g. split; intros (a & Ha & Hg).
    - destruct (Hb' _ _ Ha) as (b & Hb2 & H1 & _). exists b. split; auto. lia.
    - destruct (Hf _ _ Ha) as (b & Hb2 & H1 & _). exists b. split; auto. lia. }
  assert (forall os, is_live T os -> is_live T' os) as Hlive.
  { intros o Ho s Hs. destruct (Ho s Hs) as (a & Ha & Hl). destruct (Hf _ _ Ha) as (b & Hb2 & H1 & H2 & _).
    exists b. split; auto. congruence. }
  assert (forall o r a, T r = Some a -> v_live a = true -> anc T' o r <-> anc T o r) as Hanc.
  { intros o r a Ha Hl. split; intros (s & -> & H); exists s; split; auto; by eapply Hu in H || (eapply Hu; eauto). }
  destruct J as [J1 J2 J3 J4 J5 J6 J7 J8 J9]. constructor; auto.
  - intros p Hp. destruct (J3 p Hp) as (a & Ha & Hg). destruct (Hf _ _ Ha) as (b & Hb2 & H1 & _).
    exists b. split; auto. congruence.
  - intros r b Hr Hl. destruct (Hb' _ _ Hr) as (a & Ha & H1 & H2 & H3). rewrite H2 in Hl.
    destruct (J4 _ _ Ha Hl) as (p & Hp & Hg & Hpu). exists p. split; auto. split; [congruence|].
    eapply Hu; eauto.
  - intros g x y. rewrite <-J7. unfold pend. split; apply rtsc_sub; intros u v [Huv|(H1 & H2 & H3 & H4)].
    + apply rtsc_once', HE in Huv. revert Huv. apply rtsc_sub. intros. apply rtsc_once'. auto.
    + apply rtsc_once'. right. rewrite Hgle in H3, H4. auto.
    + apply rtsc_once', HE in Huv. revert Huv. apply rtsc_sub. intros. apply rtsc_once'. auto.
    + apply rtsc_once'. right. rewrite !Hgle. auto.
  - intros r b n Hr Hl Hn. destruct (Hb' _ _ Hr) as (a & Ha & H1 & H2 & H3). rewrite H2 in Hl.
    rewrite (Hanc os r a Ha Hl), (Hanc ob r a Ha Hl), H3. apply (J8 r a n); auto.
    revert Hn. apply card_ext. intros p. unfold U. by rewrite (Hu _ _ _ Ha Hl).
  - destruct J9 as [?|J9]; [by left|right]. intros s b a a' Hs Hb2 Ha Ha'.
    destruct (Hb' _ _ Ha) as (a1 & Ha1 & E1 & _). destruct (Hb' _ _ Ha') as (a2 & Ha2 & E2 & _).
    rewrite E1, E2. eauto.
Qed.

(* the real parent of s *)
Definition real_parent T (a : vreg I) (oy : option I) : Prop :=
  match v_par a with
  | None => oy = None
  | Some t => exists y d, oy = Some y /\ vunder T t y /\ T y = Some d /\ v_live d = true /\
      (forall bt, T t = Some bt -> v_gray d = v_gray bt) /\
      (forall z c, vunder T t z -> T z = Some c -> v_live c = true -> vunder T y z)
  end.

Lemma upd_fwd T T' s v a x c : upd T T' s v -> T s = Some a -> T x = Some c ->
  exists b, T' x = Some b /\ (x = s /\ b = v /\ c = a \/ x <> s /\ b = c).
Proof.
  intros HU Hs Hx. rewrite (HU x). case_decide as Hd.
  - subst. exists v. split; auto. left. split; auto. split; auto. congruence.
  - exists c. auto.
Qed.
Lemma upd_bwd T T' s v a x c : upd T T' s v -> T s = Some a -> T' x = Some c ->
  exists b, T x = Some b /\ (x = s /\ c = v /\ b = a \/ x <> s /\ b = c).
Proof.
  intros HU Hs Hx. rewrite (HU x) in Hx. case_decide as Hd.
  - subst. exists a. split; auto. left. split; auto. split; auto. congruence.
  - exists c. auto.
Qed.

Lemma j_compress T T' s a oy os ob c : jinv T os ob c -> T s = Some a -> real_parent T a oy ->
  upd T T' s (VReg (v_gray a) (v_live a) (v_size a) oy) ->
  jinv T' os ob c.
Proof.
  intros J Hs HR HU. pose proof (j_wf _ _ _ _ J) as HW. unfold real_parent in HR.
  destruct (v_par a) as [t|] eqn:Hpa.
  - destruct HR as (y & d & -> & H1 & H2 & H3 & H4 & H5). eapply jinv_transport; eauto.
    + exact (compress_wf T T' s a t y d HW Hs Hpa H1 H2 H4 H5 HU).
    + intros x e Hx. destruct (upd_fwd _ _ _ _ _ _ _ HU Hs Hx) as (b & Hb & [(-> & -> & ->)|(? & ->)]);
        eexists; split; eauto.
    + intros x e Hx. destruct (upd_bwd _ _ _ _ _ _ _ HU Hs Hx) as (b & Hb & _). eauto.
    + intros x r e Hr Hl. exact (compress_under T T' s a t y d HW Hs Hpa H1 H4 H5 HU x r e Hr Hl).
    + intros g x z. exact (compress_E T T' s a t y d HW Hs Hpa H1 H2 H4 H5 HU g x z).
  - subst oy. assert (forall x, T' x = T x) as He.
    { intros x. rewrite (HU x). case_decide as Hd; auto. subst. rewrite Hs. destruct a; simpl in *. congruence. }
    assert (forall x y, vup T' x y <-> vup T x y) as Hv by (intros; unfold vup; by rewrite He).
    eapply jinv_transport; eauto.
    + eapply wf_same; eauto.
    + intros x e Hx. exists e. rewrite He. auto.
    + intros x e Hx. rewrite He in Hx. eauto.
    + intros. by apply vunder_iff.
    + intros g x y. split; apply rtsc_sub; intros u v (e & f & K1 & K2 & K3 & K4); apply rtsc_once';
        exists e, f; [rewrite He in K1, K3|rewrite !He]; auto.
Qed.

(* after shortening, the new table has the real parent as parent *)

(* ---------- s moves to its parent ---------- *)
Lemma j_advance T T' s a oy ob c : jinv T (Some s) ob c -> T s = Some a -> v_par a = oy ->
  is_live T oy ->
  (forall b a', ob = Some b -> T b = Some a' -> v_gray a <= v_gray a' /\ s <> b) ->
  (forall y d b a', oy = Some y -> T y = Some d -> ob = Some b -> T b = Some a' -> v_gray d <= v_gray a') ->
  (oy = None -> ob = None) ->
  upd T T' s (VReg (v_gray a) (v_live a) (v_size a + c) oy) ->
  jinv T' oy ob c.
Proof.
  intros J Hs Hpa Hly Hsb Hyb Hnn HU. pose proof (j_fits _ _ _ _ _ J Hs Hsb) as [Hcs _].
  destruct J as [HW J2 J3 J4 J5 J6 J7 J8 J9].
  assert (forall x y, vup T' x y <-> vup T x y) as Hv.
  { intros. eapply same_vup; eauto. }
  assert (forall x y, vunder T' x y <-> vunder T x y) as Hvu by (intros; by apply vunder_iff).
  assert (forall g x y, edge T' g x y <-> edge T g x y) as HE.
  { intros g x y. split; intros (e & f & K1 & K2 & K3 & K4).
    - destruct (proj1 (Hv x y)) as (e' & E1 & E2); [exists e; auto|].
      destruct (upd_bwd _ _ _ _ _ _ _ HU Hs K3) as (b & Hb & [(-> & -> & ->)|(? & ->)]);
        (exists e'; eexists; split; [eauto|]; split; [eauto|]; split; eauto).
    - destruct (proj2 (Hv x y)) as (e' & E1 & E2); [exists e; auto|].
      destruct (upd_fwd _ _ _ _ _ _ _ HU Hs K3) as (b & Hb & [(-> & -> & ->)|(? & ->)]);
        (exists e'; eexists; split; [eauto|]; split; [eauto|]; split; eauto). }
  assert (forall x g, gle T' x g <-> gle T x g) as Hgle by (intros; eapply gle_upd; eauto).
  assert (forall o, is_live T o -> is_live T' o) as Hlive.
  { intros o Ho u Hu. destruct (Ho u Hu) as (e & He & Hl).
    destruct (upd_fwd _ _ _ _ _ _ _ HU Hs He) as (b & Hb & [(-> & -> & ->)|(? & ->)]); eauto. }
  destruct (J5 s eq_refl) as (a2 & Ha2 & Hal). assert (a2 = a) as -> by congruence. clear Ha2.
  constructor; auto.
  - apply (wf_same T T' s _ a HW HU Hs); auto.
  - intros p Hp. destruct (J3 p Hp) as (e & He & Hg).
    destruct (upd_fwd _ _ _ _ _ _ _ HU Hs He) as (b & Hb & Hd). exists b. split; auto.
    destruct Hd as [(? & -> & ->)|(? & ->)]; auto.
  - intros r e Hr Hl. destruct (upd_bwd _ _ _ _ _ _ _ HU Hs Hr) as (b & Hb & [(-> & -> & ->)|(? & ->)]).
    + destruct (J4 _ _ Hb Hal) as (p & ? & ? & ?). exists p. rewrite Hvu. auto.
    + destruct (J4 _ _ Hb Hl) as (p & ? & ? & ?). exists p. rewrite Hvu. auto.
  - intros g x z. rewrite <-J7. unfold pend.
    (* (s,b) and (y,b) generate the same with the edge s - y *)
    assert (forall y d b a', oy = Some y -> T y = Some d -> ob = Some b -> T b = Some a' ->
       v_gray a' <= g -> edge T g s y /\ v_gray d <= g /\ v_gray a <= g) as Hact.
    { intros y d b a' -> Hd -> Ha' Hg'. specialize (Hyb y d b a' eq_refl Hd eq_refl Ha').
      split; [exists a, d; repeat split; auto; lia|]. split; [lia|].
      destruct (Hsb b a' eq_refl Ha'). lia. }
    split; apply rtsc_sub; intros u v [Huv|(H1 & H2 & H3 & H4)].
    + apply rtsc_once'. left. by apply HE.
    + rewrite Hgle in H3, H4. destruct H3 as (d & Hd & Hdg), H4 as (a' & Ha' & Hg').
      destruct (Hact u d v a' H1 Hd H2 Ha' Hg') as (K1 & K2 & K3).
      eapply rtsc_trans'; [apply rtsc_sym', rtsc_once'; left; exact K1|].
      apply rtsc_once'. right. split; auto. split; auto. split; [exists a|exists a']; auto.
    + apply rtsc_once'. left. by apply HE.
    + injection H1 as <-. destruct H3 as (a1 & Ha1 & Hg1), H4 as (a' & Ha' & Hg').
      destruct oy as [y|]; [|rewrite Hnn in H2; done].
      destruct (Hly y eq_refl) as (d & Hd & _).
      destruct (Hact y d v a' eq_refl Hd H2 Ha' Hg') as (K1 & K2 & K3).
      eapply rtsc_trans'; [apply rtsc_once'; left; apply HE; exact K1|].
      apply rtsc_once'. right. split; auto. split; auto. rewrite !Hgle. split; [exists d|exists a']; auto.
  - assert (forall o r, anc T' o r <-> anc T o r) as Hanc.
    { intros o r. split; intros (u & -> & Hu); exists u; split; auto; by apply Hvu. }
    intros r e n Hr Hl Hn. rewrite !Hanc.
    assert (card_is (U T r) n) as Hn'.
    { revert Hn. apply card_ext. intros p. unfold U. by rewrite Hvu. }
    destruct (upd_bwd _ _ _ _ _ _ _ HU Hs Hr) as (b & Hb & [(-> & -> & ->)|(Hne & ->)]).
    + simpl. rewrite (card_unique _ _ _ Hn' Hcs).
      assert (~ anc T oy s) as A1.
      { intros (y & Hoy & Hu). rewrite Hoy in Hpa.
        assert (vunder T s y) as Hsy. { apply rtc_once. exists a; auto. }
        assert (s = y) as <- by (eapply vunder_antisym; eauto).
        destruct (wf_par _ HW _ _ _ Hs Hpa) as (b' & Hb' & [?|[_ ?]]); [|congruence].
        assert (b' = a) as -> by congruence. lia. }
      assert (~ anc T ob s) as A2.
      { intros (b & -> & Hu). destruct (J6 b eq_refl) as (a' & Ha' & Hl').
        destruct (Hsb b a' eq_refl Ha') as [Hg Hneb]. apply (not_under T s b a a'); auto. }
      tauto.
    + assert (anc T oy r <-> anc T (Some s) r) as Hay.
      { split.
        - intros (y & Hoy & Hu). exists s. split; auto. eapply rtc_l; [|exact Hu]. exists a. split; auto. congruence.
        - intros (s' & [= <-] & Hu). inversion Hu as [|? y ? Hsy Hu']; subst; [done|].
          exists y. split; auto. destruct Hsy as (a1 & Ha1 & Hp1). congruence. }
      rewrite Hay. eapply J8; eauto.
  - destruct oy as [y|]; [|by right].
    destruct ob as [b|]; [|by right]. right. intros s' b' e f [= <-] [= <-] He Hf.
    destruct (upd_bwd _ _ _ _ _ _ _ HU Hs He) as (e' & He' & Hde).
    destruct (upd_bwd _ _ _ _ _ _ _ HU Hs Hf) as (f' & Hf' & Hdf).
    specialize (Hyb y e' b f' eq_refl He' eq_refl Hf').
    destruct Hde as [(-> & -> & ->)|(? & ->)], Hdf as [(-> & -> & ->)|(? & ->)]; simpl in *; lia.
Qed.

(* ---------- s is hung below b ---------- *)
Lemma j_rehang T T' s a b e oy c : jinv T (Some s) (Some b) c -> T s = Some a -> T b = Some e ->
  v_par a = oy -> is_live T oy -> v_gray a <= v_gray e -> s <> b ->
  (forall y d, oy = Some y -> T y = Some d -> v_gray e <= v_gray d) ->
  upd T T' s (VReg (v_gray a) (negb (v_gray e =? v_gray a)) (v_size a + c) (Some b)) ->
  jinv T' (Some b) oy (v_size a).
Proof.
  intros J Hs Hb Hpa Hly Hse Hsb Hye HU.
  assert (forall b' a', Some b = Some b' -> T b' = Some a' -> v_gray a <= v_gray a' /\ s <> b') as Hsb'.
  { intros b' a' [= <-] Ha'. assert (a' = e) as -> by congruence. auto. }
  pose proof (j_fits _ _ _ _ _ J Hs Hsb') as [Hcs _]. clear Hsb'.
  destruct J as [HW J2 J3 J4 J5 J6 J7 J8 J9].
  destruct (J5 s eq_refl) as (a2 & Ha2 & Hal). assert (a2 = a) as -> by congruence. clear Ha2.
  destruct (J6 b eq_refl) as (e2 & He2 & Hel). assert (e2 = e) as -> by congruence. clear He2.
  assert (~ vunder T b s) as Hbs by (apply (not_under T s b a e); auto).
  assert (forall y, oy = Some y -> ~ vunder T y s) as Hys.
  { intros y Hoy H. rewrite Hoy in Hpa.
    assert (vunder T s y) as Hsy. { apply rtc_once. exists a; auto. }
    assert (s = y) as <- by (eapply vunder_antisym; eauto).
    destruct (wf_par _ HW _ _ _ Hs Hpa) as (b' & Hb' & [?|[_ ?]]); [|congruence].
    assert (b' = a) as -> by congruence. lia. }
  assert (wf T') as HW'.
  { eapply wf_rehang; [exact HW|exact HU|exact Hs|done|done|exact Hb|done| |]; simpl.
    - destruct (Nat.eqb_spec (v_gray e) (v_gray a)); simpl; [right; auto|left; lia].
    - intros Hn. destruct (Nat.eqb_spec (v_gray e) (v_gray a)); auto; done. }
  pose proof (fun x r => rehang_out T T' s _ HU x r) as Hout.
  pose proof (rehang_in T T' s _ b HW HU eq_refl Hbs) as Hin.
  assert (forall x g, gle T' x g <-> gle T x g) as Hgle by (intros; eapply gle_upd; eauto).
  constructor; auto.
  - intros p Hp. destruct (J3 p Hp) as (x & Hx & Hg).
    destruct (upd_fwd _ _ _ _ _ _ _ HU Hs Hx) as (z & Hz & Hd). exists z. split; auto.
    destruct Hd as [(? & -> & ->)|(? & ->)]; auto.
  - intros r x Hr Hl. destruct (upd_bwd _ _ _ _ _ _ _ HU Hs Hr) as (z & Hz & Hd).
    assert (v_live z = true /\ v_gray z = v_gray x) as [Hzl Hzg].
    { destruct Hd as [(-> & -> & ->)|(? & ->)]; auto. }
    destruct (J4 _ _ Hz Hzl) as (p & Hp & Hg & Hu). exists p. split; auto. split; [congruence|].
    destruct (J3 p Hp) as (x' & Hx' & Hgx').
    destruct (vunder_dec T (lab p) s HW) as [Hps|Hps]; [|by apply Hout].
    apply Hin; eauto. left. split; auto.
    destruct (vunder_linear _ _ _ _ Hu Hps) as [H|H]; auto.
    destruct (vunder_live _ _ _ _ _ HW Hs Hz Hal H) as [->|Hlt]; [apply rtc_refl|].
    pose proof (vunder_gray _ _ _ _ _ HW Hx' Hs Hps). lia.
  - intros u [= <-]. exists e. split; auto. rewrite (upd_ne _ _ _ _ _ HU); auto.
  - intros y Hy. destruct (Hly y Hy) as (d & Hd & Hdl). exists d. split; auto.
    rewrite (upd_ne _ _ _ _ _ HU); auto. intros ->. apply (Hys s); auto. apply rtc_refl.
  - intros g x z. rewrite <-J7. unfold pend.
    split; apply rtsc_sub; intros u v [Huv|(H1 & H2 & H3 & H4)].
    + destruct Huv as (k & l & K1 & K2 & K3 & K4).
      destruct (upd_bwd _ _ _ _ _ _ _ HU Hs K3) as (l' & Hl' & Hdl).
      assert (v_gray l' = v_gray l) as Hgl by (destruct Hdl as [(-> & -> & ->)|(? & ->)]; auto).
      destruct (upd_bwd _ _ _ _ _ _ _ HU Hs K1) as (k' & Hk' & [(-> & -> & ->)|(? & ->)]).
      * simpl in K2. injection K2 as <-. assert (l' = e) as -> by congruence.
        apply rtsc_once'. right. split; auto. split; auto. split; [exists a|exists e]; split; auto; lia.
      * apply rtsc_once'. left. exists k, l'. repeat split; auto. lia.
    + injection H1 as <-. rewrite Hgle in H3, H4. destruct H3 as (e' & He' & Hge), H4 as (d & Hd & Hdg).
      assert (e' = e) as -> by congruence.
      (* b - s - y *)
      eapply rtsc_trans'; [apply rtsc_sym', rtsc_once'; right|apply rtsc_once'; left].
      * split; [reflexivity|]. split; [reflexivity|]. split; [exists a|exists e]; split; auto; lia.
      * exists a, d. repeat split; auto. congruence.
    + destruct Huv as (k & l & K1 & K2 & K3 & K4).
      destruct (upd_fwd _ _ _ _ _ _ _ HU Hs K3) as (l' & Hl' & Hdl).
      assert (v_gray l' = v_gray l) as Hgl by (destruct Hdl as [(-> & -> & ->)|(? & ->)]; auto).
      destruct (upd_fwd _ _ _ _ _ _ _ HU Hs K1) as (k' & Hk' & [(-> & -> & ->)|(? & ->)]).
      * (* the old edge s - y: now s - b and the pair (b, y) *)
        assert (oy = Some v) as Hoy by congruence.
        specialize (Hye v l Hoy K3).
        eapply rtsc_trans'; [apply rtsc_once'; left|apply rtsc_once'; right].
        -- eexists _, e. split; [exact Hk'|]. split; [reflexivity|]. split; [|lia].
           rewrite (upd_ne _ _ _ _ _ HU); auto.
        -- split; [reflexivity|]. split; [done|]. rewrite !Hgle. split; [exists e|exists l]; split; auto; lia.
      * apply rtsc_once'. left. exists k, l'. repeat split; auto. lia.
    + injection H1 as <-. injection H2 as <-. destruct H4 as (e' & He' & Hge). assert (e' = e) as -> by congruence.
      apply rtsc_once'. left. eexists _, e. split; [apply (upd_s _ _ _ _ HU)|]. split; [reflexivity|].
      split; auto. rewrite (upd_ne _ _ _ _ _ HU); auto.
  - intros r x n' Hr Hl Hn'.
    assert (anc T' (Some b) r <-> vunder T b r) as A1.
    { split; [intros (? & [= <-] & Hu)|intros Hu; exists b; split; auto]; by apply Hout. }
    assert (anc T' oy r <-> anc T oy r) as A2.
    { split; intros (y & Hoy & Hu); exists y; split; auto; apply Hout; auto. }
    rewrite A1, A2.
    destruct (decide (r = s)) as [->|Hne].
    { rewrite (upd_s _ _ _ _ HU) in Hr. injection Hr as <-. simpl in *.
      assert (n' = v_size a + c) as ->.
      { apply (card_unique (U T s)); auto. revert Hn'. apply card_ext. intros p. unfold U.
        split; intros [Hp Hu]; split; auto.
        - destruct (vunder_dec T (lab p) s HW) as [Hps|Hps]; auto. by apply Hout in Hu.
        - apply Hin; auto.
          + destruct (J3 p Hp) as (z & Hz & _). eauto.
          + left. split; auto. apply rtc_refl. }
      assert (~ anc T oy s) as A3. { intros (y & Hoy & Hu). by apply (Hys y). }
      tauto. }
    rewrite (upd_ne _ _ _ _ _ HU Hne) in Hr.
    assert (anc T oy r <-> vunder T s r) as A3.
    { split.
      - intros (y & Hoy & Hu). eapply rtc_l; [|exact Hu]. exists a. split; auto. congruence.
      - intros Hu. inversion Hu as [|? y ? Hsy Hu']; subst; [done|].
        exists y. split; auto. destruct Hsy as (a1 & Ha1 & Hp1). congruence. }
    rewrite A3.
    destruct (U_card T r HW J2) as (n & _ & Hn).
    destruct (J8 r x n Hr Hl Hn) as (S1 & S2 & S3 & S4).
    assert (forall z, anc T (Some z) r <-> vunder T z r) as A4.
    { intros z. split; [intros (? & [= <-] & ?); auto|intros; exists z; auto]. }
    rewrite !A4 in *.
    assert (forall p, vw_in V p -> exists z, T (lab p) = Some z) as Hdom.
    { intros p Hp. destruct (J3 p Hp) as (z & Hz & _). eauto. }
    destruct (vunder_dec T b r HW) as [Hbr|Hbr]; destruct (vunder_dec T s r HW) as [Hsr|Hsr].
    + assert (n' = n) as ->.
      { apply (card_unique (U T r)); auto. revert Hn'. apply card_ext. intros p. unfold U.
        split; intros [Hp Hu]; split; auto.
        - destruct (vunder_dec T (lab p) s HW) as [Hps|Hps]; [by etrans|by apply Hout in Hu].
        - destruct (vunder_dec T (lab p) s HW) as [Hps|Hps]; [apply Hin; auto|by apply Hout]. }
      tauto.
    + assert (n' = n + (v_size a + c)) as ->.
      { apply (card_unique (fun p => U T r p \/ U T s p)).
        - revert Hn'. apply card_ext. intros p. unfold U. split.
          + intros [Hp Hu]. destruct (vunder_dec T (lab p) s HW) as [Hps|Hps]; auto. apply Hout in Hu; auto.
          + intros [[Hp Hu]|[Hp Hu]]; split; auto.
            * destruct (vunder_dec T (lab p) s HW) as [Hps|Hps]; [apply Hin; auto|by apply Hout].
            * apply Hin; auto.
        - apply card_union; auto. intros p [Hp H1] [_ H2].
          destruct (vunder_linear _ _ _ _ H1 H2) as [H|H]; auto. apply Hbs. by etrans. }
      split; [tauto|]. split; [|tauto]. intros _ _. rewrite S3; auto. lia.
    + destruct (card_diff _ _ _ _ Hn Hcs) as (k & -> & Hk).
      { intros p [Hp Hu]. split; auto. by etrans. }
      assert (n' = k) as ->.
      { eapply card_unique; [|exact Hk]. revert Hn'. apply card_ext. intros p. unfold U. split.
        - intros [Hp Hu]. destruct (vunder_dec T (lab p) s HW) as [Hps|Hps].
          + apply Hin in Hu as [[H1 H2]|H1]; auto; [|done]. destruct Hne. exact (vunder_antisym _ _ _ _ HW Hr H2 Hsr).
          + apply Hout in Hu; auto. tauto.
        - intros [[Hp Hu] Hnu]. split; auto. apply Hout; auto. }
      specialize (S2 Hsr Hbr). split; [tauto|]. split; [tauto|]. split; [|tauto]. intros _ _. lia.
    + assert (n' = n) as ->.
      { apply (card_unique (U T r)); auto. revert Hn'. apply card_ext. intros p. unfold U.
        split; intros [Hp Hu]; split; auto.
        - destruct (vunder_dec T (lab p) s HW) as [Hps|Hps]; [|by apply Hout in Hu].
          apply Hin in Hu as [[H1 H2]|H1]; auto; done.
        - destruct (vunder_dec T (lab p) s HW) as [Hps|Hps]; [|by apply Hout].
          apply Hin; auto. left. split; auto. destruct (vunder_linear _ _ _ _ Hu Hps); done. }
      tauto.
  - right. intros s' y e' d [= <-] Hoy He' Hd.
    rewrite (upd_ne _ _ _ _ _ HU) in He' by auto. assert (e' = e) as -> by congruence.
    destruct (upd_bwd _ _ _ _ _ _ _ HU Hs Hd) as (d' & Hd' & [(-> & -> & ->)|(? & ->)]).
    + exfalso. apply (Hys s); auto. apply rtc_refl.
    + eauto.
Qed.

(* ---------- the end ---------- *)
Lemma pend_done T os ob g x y : (os = ob \/ os = None \/ ob = None) ->
  pend T os ob g x y <-> E T g x y.
Proof.
  intros Hd. split; apply rtsc_sub; intros u v.
  - intros [H|(H1 & H2 & _)]; [by apply rtsc_once'|].
    destruct Hd as [-> | [-> | ->] ]; try done. assert (u = v) as -> by congruence. apply rtc_refl.
  - intros H. apply rtsc_once'. auto.
Qed.
(* both sides have arrived at the same region *)
Lemma j_meet T b c : jinv T (Some b) (Some b) c -> jinv T (Some b) None 0.
Proof.
  intros []. constructor; auto.
  - by intros ? [=].
  - intros g x y. rewrite <-j_conn0. rewrite !pend_done; auto.
  - intros r a n Hr Hl Hn. destruct (j_size0 r a n Hr Hl Hn) as (H1 & H2 & H3 & H4).
    split; [by intros _ (? & [=] & _)|]. split; [intros H _; rewrite (H1 H H); lia|].
    split; [by intros _ (? & [=] & _)|]. intros H _. by apply H4.
Qed.
Lemma j_done T os ob c : jinv T os ob c -> (os = ob \/ (os = None /\ ob = None)) ->
  forall r a, T r = Some a -> v_live a = true -> card_is (U T r) (v_size a).
Proof.
  intros J Hd r a Hr Hl. destruct (U_card T r (j_wf _ _ _ _ J) (j_fin _ _ _ _ J)) as (n & _ & Hn).
  destruct (j_size _ _ _ _ J r a n Hr Hl Hn) as (H1 & H2 & H3 & H4).
  assert (os = ob) as -> by (destruct Hd as [|[-> ->]]; auto).
  assert (v_size a = n) as ->; [|done].
  destruct ob as [b|].
  - destruct (vunder_dec T b r (j_wf _ _ _ _ J)) as [H|H].
    + apply H1; exists b; auto.
    + apply H4; intros (? & [= <-] & ?); auto.
  - apply H4; intros (? & ? & ?); done.
Qed.
End join.

(* the start of a connect call and its end *)
Section joinspec.
Context {I : Type} `{EqDecision I} (V : view) (lab : nat -> I).
Implicit Types T : I -> option (vreg I).

Definition C0_of T (p0 q0 : nat) (g : nat) : I -> I -> Prop :=
  rtsc (fun x y => edge T g x y \/ (x = lab p0 /\ y = lab q0 /\ gle T x g /\ gle T y g)).

(* the surviving region that x stands for *)
Definition real_of T (x y : I) : Prop := exists a b, T x = Some a /\ vunder T x y /\ T y = Some b /\
  v_live b = true /\ v_gray b = v_gray a.

Lemma j_start T N p0 q0 s b : vsym V -> ctree V lab T -> card_is (vw_in V) N ->
  vw_in V p0 -> vw_in V q0 -> real_of T (lab p0) s -> real_of T (lab q0) b ->
  jinv V lab (C0_of T p0 q0) N T (Some s) (Some b) 0.
Proof.
  intros HS HT HN Hp Hq (a & a' & Ha & Hs & Ha' & Hl & Hg) (e & e' & He & Hb & He' & Hl' & Hg').
  pose proof (ctree_wf _ _ _ HT) as HW.
  constructor; auto.
  - apply HT.
  - apply HT.
  - intros ? [= <-]. eauto.
  - intros ? [= <-]. eauto.
  - intros g x y.
    assert (forall k, gle T (lab p0) k -> rtsc (edge T k) (lab p0) s /\ gle T s k) as P1.
    { intros k (z & Hz & Hk). assert (z = a) as -> by congruence. split; [eapply vunder_E; eauto; lia|].
      exists a'. split; auto. lia. }
    assert (forall k, gle T (lab q0) k -> rtsc (edge T k) (lab q0) b /\ gle T b k) as P2.
    { intros k (z & Hz & Hk). assert (z = e) as -> by congruence. split; [eapply vunder_E; eauto; lia|].
      exists e'. split; auto. lia. }
    assert (forall k, gle T s k -> gle T (lab p0) k) as P3.
    { intros k (z & Hz & Hk). assert (z = a') as -> by congruence. exists a. split; auto. lia. }
    assert (forall k, gle T b k -> gle T (lab q0) k) as P4.
    { intros k (z & Hz & Hk). assert (z = e') as -> by congruence. exists e. split; auto. lia. }
    split; apply rtsc_sub; intros u v [H|(H1 & H2 & H3 & H4)].
    + apply rtsc_once'. auto.
    + injection H1 as <-. injection H2 as <-. apply P3 in H3. apply P4 in H4.
      apply (rtsc_trans' _ _ (lab p0)); [|apply (rtsc_trans' _ _ (lab q0))].
      * apply rtsc_sym'. apply P1 in H3 as [H3 _]. revert H3. apply rtsc_sub. intros. apply rtsc_once'. auto.
      * apply rtsc_once'. right. eauto.
      * apply P2 in H4 as [H4 _]. revert H4. apply rtsc_sub. intros. apply rtsc_once'. auto.
    + apply rtsc_once'. auto.
    + subst. apply P1 in H3 as [H3 H5]. apply P2 in H4 as [H4 H6].
      apply (rtsc_trans' _ _ s); [|apply (rtsc_trans' _ _ b)].
      * revert H3. apply rtsc_sub. intros. apply rtsc_once'. auto.
      * apply rtsc_once'. right. split; [reflexivity|]. auto.
      * apply rtsc_sym'. revert H4. apply rtsc_sub. intros. apply rtsc_once'. auto.
  - intros r x n Hr Hlx Hn. assert (v_size x = n).
    { eapply card_unique; [|exact Hn]. by apply (ct_size _ _ _ HT). }
    split; [tauto|]. split; [lia|]. split; [lia|tauto].
Qed.

Lemma j_end T T' N p0 q0 os ob c : vsym V -> ctree V lab T -> vw_in V p0 -> vw_in V q0 ->
  jinv V lab (C0_of T p0 q0) N T' os ob c -> (os = ob \/ (os = None /\ ob = None)) ->
  ctree (add_edge V p0 q0) lab T'.
Proof.
  intros HS HT Hp Hq J Hd. pose proof (j_done _ _ _ _ _ _ _ _ J Hd) as Hsz.
  apply rep_ctree; try apply J.
  - intros r a Hr Hl. by apply Hsz.
  - intros g p q Hip Hiq Hgp Hgq. rewrite (rep_add V lab T) by auto.
    rewrite <-(pend_done T' os ob g) by tauto. by rewrite (j_conn _ _ _ _ _ _ _ _ J).
Qed.
End joinspec.
