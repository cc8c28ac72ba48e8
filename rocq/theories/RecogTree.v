(* What the component tree says about the surviving regions recognition works on. *)
From stdpp Require Import sorting relations functions list.
From Coq Require Import NArith ZArith SpecFloat.
From Verif Require Import Spec TreeSpec TreeFacts JoinMath FloodModel ConnectModel ConnectProof JoinCorrect FloatModel FloatFacts
  RecogModel RecogSpec RecogStatic DupAbs.
Local Open Scope nat_scope.

(* SPEC: the regions recognition starts from: the component tree of a connected view
   (a picture has at most 858993459 pixels), no more region records than pixels;
   regions know their partition and are unclassified or merged *)
Record recog_input (V : view) (lab : nat -> rref) (F : forest) : Prop := {
  ri_sym : vsym V;
  ri_conn : vconnected V;
  ri_tree : ctree V lab (tab F);
  ri_small : exists N, card_is (vw_in V) N /\ nregs F <= N /\ (N.of_nat N * 5 < 2 ^ 32)%N;
  ri_reg : forall k i a, fget F (k, i) = Some a -> g_patch a = k /\ g_gray a <= 255 /\ (g_flag a = 0 \/ g_flag a = 3)
}.

Lemma card_sub P Q n m : card_is P n -> card_is Q m -> (forall p, P p -> Q p) -> n <= m.
Proof. intros HP HQ Hs. destruct (card_diff Q P m n HQ HP Hs) as (k & -> & _). lia. Qed.
Lemma card_pos P n p : card_is P n -> P p -> 0 < n.
Proof. intros (l & _ & H & <-) Hp. apply H in Hp. destruct l; [by apply elem_of_nil in Hp|]. cbn. lia. Qed.

Section tree.
Context (V : view) (lab : nat -> rref) (F0 : forest) (HI : recog_input V lab F0).
Notation RP := (RP F0). Notation gray0 := (gray0 F0). Notation size0 := (size0 F0). Notation live0 := (live0 F0).
Notation T := (tab F0). Notation top := (top F0).
Notation anc := (rtc (up RP)). Notation sanc := (tc (up RP)).
Notation pix := (region_pixels V lab T).

Lemma input_start : rstart F0.
Proof. constructor; [eapply ctree_wf; apply HI|apply HI]. Qed.
Let H0 := input_start.
Let HT := ri_tree _ _ _ HI.
Let HW := rs_wf _ H0.

Lemma live_tab x : live0 x <-> exists v, T x = Some v /\ v_live v = true.
Proof.
  split.
  - intros (a & Ha & Hf). exists (vr a). split; [by apply tab_get|]. cbn. by destruct (Nat.eqb_spec (g_flag a) 3).
  - intros (v & Hv & Hl). destruct (get_tab _ _ _ Hv) as (a & Ha & ->). exists a. split; auto. cbn in Hl.
    intros E. by rewrite E in Hl.
Qed.
Lemma live_get x : live0 x -> exists v, T x = Some v /\ v_live v = true /\ v_gray v = gray0 x /\ v_size v = size0 x.
Proof.
  intros (a & Ha & Hf). exists (vr a). split; [by apply tab_get|]. split; [cbn; by destruct (Nat.eqb_spec (g_flag a) 3)|].
  unfold RecogStatic.gray0, RecogStatic.size0. by rewrite Ha.
Qed.

Lemma RP_under x y : live0 x -> RP x = Some y -> vunder T x y.
Proof.
  intros Hx E. assert (sparent T x y) as (_ & _ & _ & ? & _); auto. by apply sparent_RP.
Qed.
Lemma anc_under x y : live0 x -> anc x y -> vunder T x y.
Proof.
  intros Hx H. induction H as [x|x z y Hz _ IH]; [apply rtc_refl|].
  destruct (live0_RP F0 H0 x z Hx Hz) as [Hlz _]. etrans; [by apply RP_under|auto].
Qed.
Lemma under_anc x y : live0 x -> live0 y -> vunder T x y -> anc x y.
Proof.
  intros Hx Hy. revert x Hx. apply (live0_ind F0 H0 (fun x => vunder T x y -> anc x y)).
  intros x Hx IH Hu. destruct (decide (x = y)) as [->|Hne]; [apply rtc_refl|].
  destruct (live_get x Hx) as (a & Ha & Hla & _). destruct (live_get y Hy) as (b & Hb & Hlb & _).
  destruct (RP x) as [z|] eqn:E.
  - assert (sparent T x z) as (_ & _ & _ & _ & Hmin) by (apply sparent_RP; auto).
    destruct (Hmin y b Hu Hb Hlb) as [?|Hzy]; [done|]. eapply rtc_l; [exact E|]. by apply IH.
  - exfalso. destruct Hx as (a' & Ha' & _). apply (RP_none F0 H0 x a' Ha') in E.
    apply rtc_inv in Hu as [?|(z & (c & Hc & Hz) & _)]; [done|]. rewrite (tab_get _ _ _ Ha') in Hc. injection Hc as <-. cbn in Hz. congruence.
Qed.

Lemma pix_card x : live0 x -> card_is (pix x) (size0 x).
Proof. intros Hx. destruct (live_get x Hx) as (a & Ha & Hl & _ & <-). by apply (ct_size _ _ _ HT). Qed.
Lemma pix_own x : live0 x -> exists p, pix x p /\ vw_gray V p = gray0 x.
Proof.
  intros Hx. destruct (live_get x Hx) as (a & Ha & Hl & <- & _). destruct (ct_own _ _ _ HT x a Ha Hl) as (p & ? & ? & ?).
  exists p. split; auto. split; auto.
Qed.
Lemma pix_gray x p : live0 x -> pix x p -> vw_gray V p <= gray0 x.
Proof.
  intros Hx [Hp Hu]. destruct (live_get x Hx) as (a & Ha & Hl & <- & _).
  destruct (proj1 (ct_comp _ _ _ HT x a p p Ha Hl Hp Hp Hu) Hu) as (_ & _ & ? & _). done.
Qed.
Lemma pix_mono x y p : live0 x -> anc x y -> pix x p -> pix y p.
Proof. intros Hx H [Hp Hu]. split; auto. etrans; [exact Hu|]. by apply anc_under. Qed.
Lemma pix_comp x p q : live0 x -> pix x p -> pix x q <-> vconn V (gray0 x) p q.
Proof.
  intros Hx [Hp Hu]. destruct (live_get x Hx) as (a & Ha & Hl & <- & _). split.
  - intros [Hq Hq']. by apply (ct_comp _ _ _ HT x a p q Ha Hl Hp Hq Hu).
  - intros Hc. assert (vw_in V q) as Hq by apply Hc. split; auto. by apply (ct_comp _ _ _ HT x a p q Ha Hl Hp Hq Hu).
Qed.

Lemma size_pos x : live0 x -> 0 < size0 x.
Proof. intros Hx. destruct (pix_own x Hx) as (p & Hp & _). eapply card_pos; [by apply pix_card|exact Hp]. Qed.
Lemma size_lt x y : live0 x -> RP x = Some y -> size0 x < size0 y.
Proof.
  intros Hx E. destruct (live0_RP F0 H0 x y Hx E) as [Hy Hg].
  assert (anc x y) as Hxy by (by apply rtc_once).
  destruct (card_diff (pix y) (pix x) (size0 y) (size0 x)) as (k & -> & Hk).
  { by apply pix_card. } { by apply pix_card. } { intros p. by apply pix_mono. }
  destruct (pix_own y Hy) as (p & Hp & Hgp). enough (0 < k) by lia. eapply card_pos; [exact Hk|]. cbn. split; [exact Hp|].
  intros Hx'. pose proof (pix_gray x p Hx Hx'). lia.
Qed.
Lemma size_le_N : exists N, card_is (vw_in V) N /\ nregs F0 <= N /\ (N.of_nat N * 5 < 2 ^ 32)%N /\ forall x, live0 x -> size0 x <= N.
Proof.
  destruct (ri_small _ _ _ HI) as (N & H1 & H2 & H3). exists N. split; auto. split; auto. split; auto.
  intros x Hx. eapply card_sub; [by apply pix_card|exact H1|]. by intros p [? _].
Qed.
Lemma size_small x : live0 x -> (Z.of_nat (size0 x) < 2 ^ 31)%Z.
Proof. intros Hx. destruct size_le_N as (N & _ & _ & H1 & H2). specialize (H2 x Hx). lia. Qed.

Lemma dis_size a c b : live0 a -> live0 c -> live0 b -> anc a b -> anc c b -> ~ anc a c -> ~ anc c a ->
  size0 a + size0 c <= size0 b.
Proof.
  intros Ha Hc Hb Hab Hcb N1 N2. eapply card_sub; [apply (card_union (pix a) (pix c)); try (by apply pix_card)|by apply pix_card|].
  - intros p [Hp H1] [_ H2]. destruct (vunder_linear _ _ _ _ H1 H2) as [H|H].
    + apply N1. by apply under_anc. + apply N2. by apply under_anc.
  - cbn. intros p [Hp|Hp]; [by apply (pix_mono a)|by apply (pix_mono c)].
Qed.
Lemma live_top thr x : live0 x -> live0 (top thr x) /\ anc x (top thr x) /\ size0 x <= size0 (top thr x).
Proof.
  intros Hx. destruct (top_spec F0 H0 thr x Hx) as (H1 & _ & _ & H2 & _).
  assert (anc x (top thr x)) as H3 by (by apply under_anc). split; auto. split; auto.
  eapply card_sub; [by apply pix_card|by apply pix_card|]. intros p. by apply pix_mono.
Qed.

Context (P : rparam).
Notation VAR := (VAR F0 P). Notation has_var := (has_var F0 P).
Lemma var_defined x : live0 x -> fge (VAR x) fzero = has_var x.
Proof.
  intros Hx. unfold RecogStatic.VAR, RecogStatic.has_var. set (thr := (Z.of_nat (gray0 x) + p_delta P)%Z).
  destruct (live_top thr x Hx) as (H1 & H2 & H3).
  destruct ((match RP (top thr x) with Some _ => true | None => false end) || _); [|done].
  apply growth_nonneg; auto; [by apply size_pos|by apply size_small].
Qed.

(* ---------- the variation in terms of pixels ---------- *)
Lemma path_low p q g : vw_in V p -> vw_in V q -> rtc (fun x y => vw_in V x /\ vw_in V y /\ vw_adj V x y) p q ->
  (forall r, vw_in V r -> vw_gray V r <= g) -> vconn V g p q.
Proof.
  intros Hp Hq H Hg. split; auto. split; auto. split; auto. split; auto.
  induction H as [p|p r q (H1 & H2 & H3) _ IH]; [apply rtc_refl|]. eapply rtc_l; [|by apply IH]. repeat split; auto.
Qed.

(* the component of level g + d around a region is the one of the last region on the
   way up whose level is at most g + d *)
Lemma top_component d x p : live0 x -> (p_delta P = Z.of_nat d)%Z ->
  let t := top (Z.of_nat (gray0 x) + p_delta P) x in
  pix t p <-> exists q, pix x q /\ vconn V (gray0 x + d) q p.
Proof.
  intros Hx Ed t. destruct (top_spec F0 H0 (Z.of_nat (gray0 x) + p_delta P) x Hx) as (T1 & T2 & T3 & T4 & T5). fold t in T1, T2, T3, T4, T5.
  destruct (pix_own x Hx) as (o & Ho & Hgo). assert (anc x t) as Hxt by (by apply under_anc).
  assert (gray0 t <= gray0 x + d) as Hgt. { destruct T3 as [->|]; lia. }
  split.
  - intros Hp. exists o. split; auto. assert (pix t o) as Ht by (by apply (pix_mono x)).
    apply (pix_comp t o p T1 Ht) in Hp. destruct Hp as (P1 & P2 & P3 & P4 & P5). split; auto. split; auto. split; [lia|]. split; [lia|].
    eapply rtc_subrel; [|exact P5]. intros u v (U1 & U2 & U3 & U4 & U5). repeat split; auto; lia.
  - intros (q & Hq & (C1 & C2 & C3 & C4 & C5)). assert (pix t q) as Htq by (by apply (pix_mono x)).
    clear Hq C1 C3. induction C5 as [q|q r p Hqr _ IH]; auto. apply IH; auto.
    (* one step from a pixel of t stays in t *)
    destruct Hqr as (Q1 & Q2 & Q3 & Q4 & Q5).
    destruct (decide (vw_gray V r <= gray0 t)) as [Hle|Hgt'].
    { apply (pix_comp t q r T1 Htq). split; auto. split; auto. pose proof (pix_gray t q T1 Htq). split; auto. split; auto.
      apply rtc_once. repeat split; auto. }
    (* the region of r is above t, of level at most g + d *)
    exfalso. destruct (ct_lab _ _ _ HT r Q2) as (v & Hv & Hgv).
    destruct (real_exists _ _ _ HW Hv) as (u & b & R1 & R2 & R3 & R4 & R5).
    assert (live0 u) as Hu by (apply live_tab; eauto).
    destruct (live_get u Hu) as (b' & Hb' & _ & Hgu & _). assert (b' = b) as -> by congruence.
    assert (pix u r) as Hur by (split; auto).
    assert (pix u q) as Huq.
    { apply (pix_comp u r q Hu Hur). split; auto. split; auto. split; [lia|]. pose proof (pix_gray t q T1 Htq). split; [lia|].
      apply rtc_once. repeat split; auto; [by apply (ri_sym _ _ _ HI)|lia|lia]. }
    destruct Huq as [_ Huq]. destruct Htq as [_ Htq']. destruct (live_get t T1) as (ct & Hct & Hlt & Hgct & _).
    destruct (vunder_linear _ _ _ _ Htq' Huq) as [Htu|Hut].
    + assert (anc t u) as Htu' by (by apply under_anc). apply rtc_inv in Htu' as [<-|(y & Hy & Hyu)]; [lia|].
      specialize (T2 y Hy). destruct (live0_RP F0 H0 t y T1 Hy) as [Hly _].
      pose proof (vunder_gray T y u) as Hg. destruct (live_get y Hly) as (cy & Hcy & _ & Hgy & _).
      specialize (Hg cy b HW Hcy R2 (anc_under y u Hly Hyu)). lia.
    + pose proof (vunder_gray T u t b ct HW R2 Hct Hut). lia.
Qed.

Lemma VAR_spec d x : live0 x -> (p_delta P = Z.of_nat d)%Z -> variation V d (gray0 x) (pix x) (VAR x).
Proof.
  intros Hx Ed. set (t := top (Z.of_nat (gray0 x) + p_delta P) x).
  destruct (top_spec F0 H0 (Z.of_nat (gray0 x) + p_delta P) x Hx) as (T1 & T2 & T3 & T4 & T5). fold t in T1, T2, T3, T4, T5.
  destruct (live_get t T1) as (ct & Hct & Hlt & Hgct & _).
  assert (gray0 t <= gray0 x + d) as Hgt. { destruct T3 as [->|]; lia. }
  (* a root contains everything *)
  assert (RP t = None -> forall q, vw_in V q -> pix t q) as Hroot.
  { intros E q Hq. destruct (pix_own t T1) as (o & Ho & _).
    assert (forall p, rtc (fun x y => vw_in V x /\ vw_in V y /\ vw_adj V x y) o p -> pix t p) as Hall.
    { intros p Hp. revert Ho. induction Hp as [p|p r q' (P1 & P2 & P3) _ IH]; auto. intros Htp. apply IH; auto.
      - split; auto. destruct Htp as [_ Htp]. 
        destruct (ct_lab _ _ _ HT r P2) as (v & Hv & Hgv). destruct (real_exists _ _ _ HW Hv) as (u & b & R1 & R2 & R3 & R4 & R5).
        assert (live0 u) as Hu by (apply live_tab; eauto). destruct (live_get u Hu) as (b' & Hb' & _ & Hgu & _). assert (b' = b) as -> by congruence.
        destruct (decide (vw_gray V p <= gray0 u)) as [Hle|Hgtu].
        + assert (pix u p) as [_ Hup].
          { apply (pix_comp u r p Hu); [split; auto|]. split; auto. split; auto. split; [lia|]. split; [lia|].
            apply rtc_once. repeat split; auto; [by apply (ri_sym _ _ _ HI)|lia]. }
          destruct (vunder_linear _ _ _ _ Htp Hup) as [Htu|Hut]; [|by etrans; [exact R1|]].
          assert (anc t u) as Htu' by (by apply under_anc). apply rtc_inv in Htu' as [<-|(y & Hy & _)]; [done|]. unfold up in Hy. congruence.
        + (* r is lower than p, so it is in the component of p's level *)
          assert (pix t p) as Htp' by (split; auto). apply (pix_comp t p r T1 Htp'). pose proof (pix_gray t p T1 Htp').
          split; auto. split; auto. split; auto. split; [lia|]. apply rtc_once. repeat split; auto. lia. }
    apply Hall. apply (ri_conn _ _ _ HI); auto. by destruct Ho. }
  split.
  - intros (q & Hq & Hgq). exists (size0 x), (size0 t). split; [by apply pix_card|]. split.
    + eapply card_ext; [|by apply pix_card]. intros p. by apply top_component.
    + unfold RecogStatic.VAR. fold t. destruct (RP t) as [y|] eqn:E; [done|]. cbn [orb].
      destruct (Z.eqb_spec (Z.of_nat (gray0 t)) (Z.of_nat (gray0 x) + p_delta P)) as [|Hne]; auto. exfalso.
      pose proof (pix_gray t q T1 (Hroot eq_refl q Hq)). lia.
  - intros Hno. unfold RecogStatic.VAR. fold t. destruct (RP t) as [y|] eqn:E; cbn [orb].
    + exfalso. apply Hno. destruct (live0_RP F0 H0 t y T1 E) as [Hy _]. destruct (pix_own y Hy) as (q & [Hq _] & Hg).
      exists q. split; auto. specialize (T2 y eq_refl). lia.
    + destruct (Z.eqb_spec (Z.of_nat (gray0 t)) (Z.of_nat (gray0 x) + p_delta P)) as [He|]; auto. exfalso. apply Hno.
      destruct (pix_own t T1) as (q & [Hq _] & Hg). exists q. split; auto. lia.
Qed.
End tree.
