(* Invariant of the abstract flooding machine and its preservation. *)
From stdpp Require Import sorting relations functions list.
From Verif Require Import Spec FloodAbs.

(* ---------- connectivity ---------- *)
Section conn.
Context (G : pgraph) (HG : graph_ok G).

Lemma lstep_sym l p q : lstep G l p q -> lstep G l q p.
Proof.
  intros (Hp & Ha & H1 & H2). split; [eapply gok_closed; eauto|].
  split; [eapply gok_sym; eauto|]. auto.
Qed.
Lemma conn_refl l p : p ∈ g_nodes G -> g_gray G p <= l -> conn G l p p.
Proof. intros ??. repeat split; auto. apply rtc_refl. Qed.
Lemma conn_sym l p q : conn G l p q -> conn G l q p.
Proof.
  intros (Hp & Hq & H1 & H2 & H). repeat split; auto.
  clear - H HG. induction H as [x|x y z Hxy _ IH]; [apply rtc_refl|].
  eapply rtc_r; [exact IH|]. by apply lstep_sym.
Qed.
Lemma conn_trans l p q r : conn G l p q -> conn G l q r -> conn G l p r.
Proof.
  intros (Hp & Hq & H1 & H2 & H) (_ & Hr & _ & H3 & H'). repeat split; auto.
  eapply rtc_transitive; eauto.
Qed.
Lemma conn_mono l l' p q : l <= l' -> conn G l p q -> conn G l' p q.
Proof.
  intros Hl (Hp & Hq & H1 & H2 & H). repeat split; auto; try lia.
  clear - H Hl. induction H as [x|x y z (?&?&?&?) _ IH]; [apply rtc_refl|].
  eapply rtc_l; [|exact IH]. repeat split; auto; lia.
Qed.
Lemma conn_adj l p q : p ∈ g_nodes G -> adj G p q ->
  g_gray G p <= l -> g_gray G q <= l -> conn G l p q.
Proof.
  intros Hp Ha H1 H2. repeat split; auto; [eapply gok_closed; eauto|].
  apply rtc_once. repeat split; auto.
Qed.
End conn.

(* ---------- region tables ---------- *)
Lemma rparent_fun regs r t t' : rparent regs r t -> rparent regs r t' -> t = t'.
Proof. intros (a & H1 & H2) (b & H3 & H4). simplify_eq. done. Qed.

Definition isroot (regs : list areg) (r : nat) : Prop :=
  exists a, regs !! r = Some a /\ rpar a = None.

Lemma under_root_inv regs r x : isroot regs r -> under regs r x -> x = r.
Proof.
  intros (a & Ha & Hp) H. inversion H as [|? y ? (b & Hb & Hb') _]; simplify_eq; auto.
Qed.
Lemma under_root_unique regs x a b :
  isroot regs a -> isroot regs b -> under regs x a -> under regs x b -> a = b.
Proof.
  intros Ha Hb H. induction H as [x|x y z Hxy H IH]; intros H'.
  - symmetry. eapply under_root_inv; eauto.
  - inversion H' as [|? y' ? Hxy' H'']; subst.
    + destruct Hb as (rb & Hb1 & Hb2). destruct Hxy as (r & Hr & Hr'). simplify_eq.
    + assert (y = y') as -> by (eapply rparent_fun; eauto). apply IH; auto.
Qed.
Lemma under_linear regs x a b : under regs x a -> under regs x b ->
  under regs a b \/ under regs b a.
Proof.
  intros H. induction H as [x|x y z Hxy H IH]; intros H'; [by left|].
  inversion H' as [|? y' ? Hxy' H'']; subst.
  - right. eapply rtc_l; eauto.
  - assert (y = y') as -> by (eapply rparent_fun; eauto). apply IH; auto.
Qed.

Lemma rparent_set_par regs a b x y ra :
  regs !! a = Some ra -> rpar ra = None ->
  rparent (set_par regs a b) x y <-> rparent regs x y \/ (x = a /\ y = b).
Proof.
  intros Ha Hr. unfold set_par, rparent. rewrite Ha. split.
  - intros (r & H1 & H2). destruct (decide (x = a)) as [->|Hne].
    + rewrite list_lookup_insert in H1 by (by eapply lookup_lt_Some). simplify_eq. simpl in *. simplify_eq. auto.
    + rewrite list_lookup_insert_ne in H1 by done. left; eauto.
  - intros [(r & H1 & H2)|[-> ->]].
    + destruct (decide (x = a)) as [->|Hne]; [simplify_eq|].
      exists r. rewrite list_lookup_insert_ne by done. auto.
    + eexists. rewrite list_lookup_insert by (by eapply lookup_lt_Some). eauto.
Qed.

Lemma under_set_par regs a b x y :
  isroot regs a -> isroot regs b -> a <> b ->
  under (set_par regs a b) x y <-> under regs x y \/ (under regs x a /\ y = b).
Proof.
  intros (ra & Ha & Hra) Hb Hab. split.
  - intros H. induction H as [x|x z y Hxz H IH].
    + left. apply rtc_refl.
    + eapply rparent_set_par in Hxz; [|eauto..].
      destruct Hxz as [Hxz|[-> ->]].
      * destruct IH as [IH|[IH ->]].
        -- left. eapply rtc_l; eauto.
        -- right. split; auto. eapply rtc_l; eauto.
      * right. split; [apply rtc_refl|].
        destruct IH as [IH|[IH ->]]; auto. eapply under_root_inv; eauto.
  - intros H. assert (forall u v, under regs u v -> under (set_par regs a b) u v) as Hm.
    { clear H. intros u v H. induction H as [u|u z v Hxz H IH]; [apply rtc_refl|].
      eapply rtc_l; [|exact IH]. eapply rparent_set_par; eauto. }
    destruct H as [H|[H ->]]; auto.
    eapply rtc_r; [by apply Hm|]. eapply rparent_set_par; eauto.
Qed.

Lemma rparent_app regs r x y : rpar r = None ->
  rparent (regs ++ [r]) x y <-> rparent regs x y.
Proof.
  intros Hr. unfold rparent. split.
  - intros (a & H1 & H2). apply lookup_app_Some in H1 as [H1|[_ H1]]; [eauto|].
    destruct (x - length regs); simpl in H1; simplify_eq; congruence.
  - intros (a & H1 & H2). exists a. split; auto. by apply lookup_app_l_Some.
Qed.
Lemma rtc_iff {A} (R S : A -> A -> Prop) x y :
  (forall u v, R u v <-> S u v) -> rtc R x y <-> rtc S x y.
Proof.
  intros H. split; intros Hr; induction Hr; try apply rtc_refl; (eapply rtc_l; [|eauto]); by apply H.
Qed.
Lemma under_app regs r x y : rpar r = None ->
  under (regs ++ [r]) x y <-> under regs x y.
Proof. intros Hr. apply rtc_iff. intros. by apply rparent_app. Qed.

Lemma rparent_set_rl regs r l x y : rparent (set_rl regs r l) x y <-> rparent regs x y.
Proof.
  unfold set_rl, rparent. destruct (regs !! r) as [a|] eqn:Ha; [|done]. split.
  - intros (b & H1 & H2). destruct (decide (x = r)) as [->|].
    + rewrite list_lookup_insert in H1 by (by eapply lookup_lt_Some). simplify_eq. simpl in *. eauto.
    + rewrite list_lookup_insert_ne in H1 by done. eauto.
  - intros (b & H1 & H2). destruct (decide (x = r)) as [->|].
    + simplify_eq. eexists. rewrite list_lookup_insert by (by eapply lookup_lt_Some). eauto.
    + exists b. rewrite list_lookup_insert_ne by done. eauto.
Qed.
Lemma under_set_rl regs r l x y : under (set_rl regs r l) x y <-> under regs x y.
Proof. apply rtc_iff. intros. by apply rparent_set_rl. Qed.

Lemma length_set_par regs r t : length (set_par regs r t) = length regs.
Proof. unfold set_par. destruct (regs !! r); auto. by rewrite insert_length. Qed.
Lemma length_set_rl regs r l : length (set_rl regs r l) = length regs.
Proof. unfold set_rl. destruct (regs !! r); auto. by rewrite insert_length. Qed.

Lemma set_rl_lookup regs r l a x : regs !! r = Some a ->
  set_rl regs r l !! x = if decide (x = r) then Some (AReg (rg a) (rpar a) l) else regs !! x.
Proof.
  intros Ha. unfold set_rl. rewrite Ha. case_decide; subst.
  - apply list_lookup_insert. by eapply lookup_lt_Some.
  - by apply list_lookup_insert_ne.
Qed.
Lemma set_par_lookup regs r t a x : regs !! r = Some a ->
  set_par regs r t !! x = if decide (x = r) then Some (AReg (rg a) (Some t) (rl a)) else regs !! x.
Proof.
  intros Ha. unfold set_par. rewrite Ha. case_decide; subst.
  - apply list_lookup_insert. by eapply lookup_lt_Some.
  - by apply list_lookup_insert_ne.
Qed.

(* ---------- the invariant ---------- *)
Section inv.
Context (G : pgraph).

(* finished pixels below region [r] *)
Definition below (px : nat -> pst) (regs : list areg) (r p : nat) : Prop :=
  exists x, px p = PD x /\ under regs x r.

(* a region whose level has been exhausted *)
Record closed_reg (px : nat -> pst) (regs : list areg) (r : nat) (a : areg) : Prop := Closed {
  cl_own : exists p, px p = PD r;
  cl_mem : NoDup (rl a) /\ forall p, p ∈ rl a <-> below px regs r p;
  cl_comp : forall p q, below px regs r p -> (below px regs r q <-> conn G (rg a) p q)
}.

(* pixels, tour and boundary stacks *)
Record InvA (px : nat -> pst) (cur d : nat) (heap : nat -> list nat) : Prop := MkInvA {
  i_cur : cur ∈ g_nodes G /\ (exists d0, px cur = PW d0) /\ d <= g_deg G;
  i_dom : forall p, px p <> PU -> p ∈ g_nodes G;
  i_heap : forall g p, p ∈ heap g ->
      g_gray G p = g /\ p <> cur /\ exists d0, px p = PW d0 /\ d0 <= g_deg G;
  i_hnd : forall g, NoDup (heap g);
  i_wait : forall p d0, px p = PW d0 -> p = cur \/ p ∈ heap (g_gray G p);
  i_low : forall g, g < g_gray G cur -> heap g = [];
  i_pend : forall p d0, px p = PW d0 -> conn G (g_gray G p) p cur;
  i_tour : forall d0 q, d0 < d -> g_nbr G cur d0 = Some q -> px q <> PU;
  i_ptour : forall p d1 d0 q, p <> cur -> px p = PW d1 -> d0 < d1 ->
      g_nbr G p d0 = Some q -> px q <> PU
}.

(* components and regions *)
Record InvB (px : nat -> pst) (cur : nat) (comps : list acomp) (regs : list areg) : Prop := MkInvB {
  i_sorted : StronglySorted lt (map cg comps);
  i_nodup : NoDup (map cr comps);
  i_creg : forall c, c ∈ comps ->
      exists a, regs !! cr c = Some a /\ rpar a = None /\ rg a = cg c;
  i_lab : forall p r, px p = PD r ->
      (exists a, regs !! r = Some a /\ rg a = g_gray G p) /\
      exists c, c ∈ comps /\ under regs r (cr c);
  i_adj : forall c q p, c ∈ comps -> below px regs (cr c) q -> adj G q p ->
      below px regs (cr c) p \/ (exists d, px p = PW d) /\ cg c <= g_gray G p;
  i_conn : forall c q, c ∈ comps -> below px regs (cr c) q -> conn G (cg c) q cur;
  i_list : forall c, c ∈ comps ->
      NoDup (cl c) /\ forall p, p ∈ cl c <-> below px regs (cr c) p;
  i_closed : forall r a, regs !! r = Some a -> r ∉ map cr comps ->
      closed_reg px regs r a /\
      exists t b, rpar a = Some t /\ regs !! t = Some b /\ rg a < rg b
}.

Definition InvC (cur : nat) (heap : nat -> list nat) (comps : list acomp) : Prop :=
  exists c rest, comps = c :: rest /\ cg c = g_gray G cur /\
    forall c', c' ∈ rest -> heap (cg c') <> [].

Record Inv (s : ast) : Prop := MkInv {
  inv_a : InvA (a_px s) (a_cur s) (a_d s) (a_heap s);
  inv_b : InvB (a_px s) (a_cur s) (a_comps s) (a_regs s);
  inv_c : InvC (a_cur s) (a_heap s) (a_comps s)
}.
End inv.
