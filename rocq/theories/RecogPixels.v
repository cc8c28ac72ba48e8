(* Recognition in terms of pixel sets only. *)
From stdpp Require Import sorting relations functions list_numbers list.
From Coq Require Import NArith ZArith SpecFloat.
From Verif Require Import Spec TreeSpec TreeFacts JoinMath FloodModel ConnectModel ConnectProof WholeProof JoinCorrect FloatModel FloatFacts
  RecogModel RecogSpec RecogStatic RecogWorkers RecogSched RecogNms RecogSerial RecogOrder DupAbs RecogDup GrowthFacts RecogTree
  RecogCompose RecogFinal RecogTransport RecogResults.
Local Open Scope nat_scope.

Lemma variation_ext V d g S S' v : (forall p, S p <-> S' p) -> variation V d g S v -> variation V d g S' v.
Proof.
  intros HS [H1 H2]. split; auto. intros E. destruct (H1 E) as (n & m & C1 & C2 & ->). exists n, m.
  split; [by eapply card_ext; [|exact C1]|]. split; auto. eapply card_ext; [|exact C2].
  intros q. cbn. split; intros (p & Hp & ?); exists p; split; auto; by apply HS.
Qed.

Section px.
Context (V : view) (lab : nat -> rref) (F : forest) (HI : recog_input V lab F) (P : rparam).
Context (d : nat) (Hd : (p_delta P = Z.of_nat d)%Z).
Notation pix := (region_pixels V lab (tab F)).
Notation RP := (RP F). Notation gray0 := (gray0 F). Notation size0 := (size0 F). Notation live0 := (live0 F).
Notation VAR := (VAR F P).
Let H0 := input_start V lab F HI.

Lemma pix_component z : live0 z -> component V (gray0 z) (pix z).
Proof.
  intros Hz. destruct (tree_extremal V lab (tab F) (ri_sym _ _ _ HI) (ri_tree _ _ _ HI)) as (Hx & _).
  destruct (live_get F z Hz) as (a & Ha & Hl & <- & _). exact (Hx z a Ha Hl).
Qed.
Lemma component_pix g S : component V g S -> exists z, live0 z /\ gray0 z = g /\ forall p, S p <-> pix z p.
Proof.
  intros Hc. destruct (tree_extremal V lab (tab F) (ri_sym _ _ _ HI) (ri_tree _ _ _ HI)) as (_ & Hx & _).
  destruct (Hx g S Hc) as (r & a & Ha & Hl & Hg & HS). exists r.
  assert (live0 r) as Hr by (apply live_tab; eauto). split; auto. split; auto.
  destruct (live_get F r Hr) as (a' & Ha' & _ & <- & _). congruence.
Qed.
Lemma sub_anc x y : live0 x -> live0 y -> (forall p, pix x p -> pix y p) -> rtc (up RP) x y.
Proof.
  intros Hx Hy Hs. destruct (decide (x = y)) as [->|Hne]; [apply rtc_refl|].
  apply tc_rtc. by apply (anc_card V lab F HI).
Qed.
Lemma adjacent_RP x y : live0 x -> live0 y -> gray0 y = gray0 x + 1 -> (forall p, pix x p -> pix y p) -> RP x = Some y.
Proof.
  intros Hx Hy Hg Hs. pose proof (sub_anc x y Hx Hy Hs) as Ha. apply rtc_inv in Ha as [->|(z & Hxz & Hzy)]; [lia|].
  destruct (live0_RP F H0 x z Hx Hxz) as [Hz Hgz]. destruct (decide (z = y)) as [->|Hne]; [done|].
  exfalso. apply rtc_inv in Hzy as [?|(w & Hzw & Hwy)]; [done|]. destruct (live0_RP F H0 z w Hz Hzw) as [Hw Hgw].
  destruct (pix_own V lab F HI w Hw) as (q & Hq & Hgq).
  pose proof (pix_gray V lab F HI y q Hy (pix_mono V lab F HI w y q Hw Hwy Hq)). lia.
Qed.
Lemma RP_sub x y : live0 x -> RP x = Some y -> forall p, pix x p -> pix y p.
Proof. intros Hx E p. apply (pix_mono V lab F HI x y p Hx). by apply rtc_once. Qed.
Lemma whole_RP z : live0 z -> RP z <> None <-> exists p, vw_in V p /\ ~ pix z p.
Proof.
  intros Hz. split.
  - intros Hn. destruct (RP z) as [t|] eqn:Ht; [|done]. destruct (live0_RP F H0 z t Hz Ht) as [Hlt Hg].
    destruct (pix_own V lab F HI t Hlt) as (p & Hp & Hgp). exists p. split; [apply Hp|].
    intros Hc. pose proof (pix_gray V lab F HI z p Hz Hc). lia.
  - intros (p & Hp & Hnp) Hn. apply Hnp.
    destruct (region_of V lab F p HI Hp) as (u & Hu & _ & Hup).
    assert (forall u, live0 u -> exists r, live0 r /\ RP r = None /\ rtc (up RP) u r) as Hroot.
    { clear -HI H0. intros u Hu. revert u Hu. apply (live0_ind F H0 (fun u => exists r, live0 r /\ RP r = None /\ rtc (up RP) u r)).
      intros x Hx IH. destruct (RP x) as [y|] eqn:E; [|exists x; split; auto; split; auto; apply rtc_refl].
      destruct (IH y eq_refl) as (r & H1 & H2 & H3). exists r. split; auto. split; auto. eapply rtc_l; eauto. }
    destruct (Hroot u Hu) as (r & Hr & Hrn & Hur).
    assert (r = z) as <-; [|exact (pix_mono V lab F HI u r p Hu Hur Hup)].
    assert (one_root (tab F)) as (r0 & _ & Huniq).
    { eapply root_of_connected; [apply HI|apply HI|apply HI|eauto]. }
    destruct Hr as (ar & Har & Hfr). destruct Hz as (az & Haz & Hfz).
    apply (RP_none F H0 r ar Har) in Hrn. apply (RP_none F H0 z az Haz) in Hn.
    rewrite (Huniq r (vr ar)), (Huniq z (vr az)); auto; by apply tab_get.
Qed.

Lemma limits_px z : live0 z -> in_limits P (tab F) z <->
  (exists n, card_is (pix z) n /\ (p_min P <= Z.of_nat n <= p_max P)%Z) /\ exists p, vw_in V p /\ ~ pix z p.
Proof.
  intros Hz. rewrite <-(whole_RP z Hz). destruct (live_get F z Hz) as (a & Ha & Hl & _ & Hs). split.
  - intros (a' & Ha' & _ & Hlim & t & Ht). assert (a' = a) as -> by congruence. split.
    + exists (size0 z). split; [by apply (pix_card V lab F HI)|]. by rewrite <-Hs.
    + apply (sparent_RP F H0 z t) in Ht as [_ ->]. done.
  - intros [(n & Hn & Hlim) Hr]. exists a. split; auto. split; auto. split.
    + rewrite Hs. by rewrite (card_unique _ _ _ (pix_card V lab F HI z Hz) Hn).
    + destruct (RP z) as [t|] eqn:Et; [|done]. exists t. by apply (sparent_RP F H0 z t).
Qed.

Lemma survives_mser z : live0 z -> survives P (tab F) VAR z <-> mser V P d (gray0 z) (pix z).
Proof.
  intros Hz. unfold survives, mser. rewrite (limits_px z Hz).
  pose proof (VAR_spec V lab F HI P d z Hz Hd) as HV. destruct (ri_small _ _ _ HI) as (N & HN & _).
  split.
  - intros ([H1 H2] & H3 & H4). split; [by apply pix_component|]. split; auto. split; auto.
    exists (VAR z). split; auto. split; auto. intros Hn g' S' v' Hc' Hv' Hadj Hp Hp'.
    destruct (component_pix g' S' Hc') as (q & Hq & <- & HS).
    assert (v' = VAR q) as ->.
    { eapply variation_unique; [eauto| |apply (VAR_spec V lab F HI P d q Hq Hd)]. by eapply variation_ext. }
    apply (H4 Hn q); auto. apply (neigh_iff V lab F HI P). destruct Hadj as [[Hg Hs]|[Hg Hs]].
    + left. split; auto. split; auto. apply adjacent_RP; auto. intros p Hpp. apply HS. by apply Hs.
    + right. split; auto. split; auto. apply adjacent_RP; auto. intros p Hpp. apply Hs. by apply HS.
  - intros (_ & H1 & H2 & v & Hv & H3 & H4).
    assert (v = VAR z) as -> by (eapply variation_unique; eauto). split; auto. split; auto.
    intros Hn q Hq Hp Hp'. apply (neigh_iff V lab F HI P) in Hq as [(_ & Hr & Hg)|(Hlq & Hr & Hg)].
    + destruct (live0_RP F H0 z q Hz Hr) as [Hlq _].
      apply (H4 Hn (gray0 q) (pix q) (VAR q)); auto using pix_component. { by apply (VAR_spec V lab F HI P d q Hlq Hd). }
      left. split; auto. by apply RP_sub.
    + apply (H4 Hn (gray0 q) (pix q) (VAR q)); auto using pix_component. { by apply (VAR_spec V lab F HI P d q Hlq Hd). }
      right. split; auto. by apply RP_sub.
Qed.

Lemma component_fun g g' S S' : component V g S -> component V g' S' -> (forall p, S p <-> S' p) -> g = g'.
Proof.
  intros (p & Hp & Hg & HS) (q & Hq & Hg' & HS') He.
  assert (vconn V g p p) as Hpp by (by rewrite <-Hg; apply vconn_refl).
  assert (vconn V g' q q) as Hqq by (by rewrite <-Hg'; apply vconn_refl).
  apply HS, He, HS' in Hpp. apply HS', He, HS in Hqq. destruct Hpp as (_ & _ & _ & ? & _). destruct Hqq as (_ & _ & _ & ? & _). lia.
Qed.
End px.

(* the candidates are the stable extremal regions *)
Lemma candidates_msers V lab F P fuel m s0 d b : ready V lab F P fuel m s0 -> (p_delta P = Z.of_nat d)%Z ->
  computes P m \/ fgt fzero (p_stable P) = false ->
  exists s l b', candidates fuel m P b s0 = Some (s, l, b') /\
    (forall z, z ∈ l -> exists a, alive F z a /\ mser V P d (v_gray a) (region_pixels V lab (tab F) z)) /\
    forall g S, mser V P d g S -> reports V lab F l S.
Proof.
  intros HR Hd Hc. pose proof (rd_input _ _ _ _ _ _ _ HR) as HI.
  destruct (survivors_ok V lab F P fuel m s0 HR d b (VAR F P) Hd Hc) as (s & l & b' & E & Hl).
  { by eapply VAR_variations. }
  exists s, l, b'. split; auto. split.
  - intros z Hz%Hl. pose proof (survives_live F P _ z Hz) as Hlz. destruct (live_alive F z Hlz) as (a & Ha & Hg & _).
    exists a. split; auto. rewrite Hg. by apply (survives_mser V lab F HI P d Hd z Hlz).
  - intros g S HM. pose proof HM as (Hcomp & _). destruct (component_pix V lab F HI g S Hcomp) as (z & Hz & <- & HS).
    exists z. split; auto. apply Hl. apply (survives_mser V lab F HI P d Hd z Hz).
    destruct HM as (H1 & (n & Hn & Hlim) & (p & Hp & Hnp) & v & Hv & Hs & Hnms). split; [by apply pix_component|].
    split; [exists n; split; auto; by eapply card_ext|]. split; [exists p; split; auto; by rewrite <-HS|].
    exists v. split; [by eapply variation_ext|]. split; auto. intros Hg g' S' v' Hc' Hv' Hadj.
    apply (Hnms Hg g' S' v' Hc' Hv'). destruct Hadj as [[Hgg Hss]|[Hgg Hss]]; [left|right]; split; auto; intros q Hq.
    + apply Hss. by apply HS.
    + apply HS. by apply Hss.
Qed.

(* without duplicate removal they are reported *)
Lemma reported_msers V lab F P fuel m s0 d b : ready V lab F P fuel m s0 -> (p_delta P = Z.of_nat d)%Z ->
  computes P m \/ fgt fzero (p_stable P) = false -> fge fzero (p_dup P) = true ->
  exists s l n b', recognize fuel m P b s0 = Some (s, l, n, b') /\
    (forall z, z ∈ l -> exists a, alive F z a /\ mser V P d (v_gray a) (region_pixels V lab (tab F) z)) /\
    forall g S, mser V P d g S -> reports V lab F l S.
Proof.
  intros HR Hd Hc Hdup. pose proof (rd_input _ _ _ _ _ _ _ HR) as HI.
  destruct (candidates_msers V lab F P fuel m s0 d b HR Hd Hc) as (s & l & b' & E & H1 & H2).
  pose proof HR as [_ Hdl G2 G3 G4 G5].
  destruct (candidates_ok V lab F HI P Hdl fuel m b s0 G2 G3 G4 G5) as (s1 & l1 & b1 & E1 & (_ & -> & _) & _).
  rewrite E in E1. injection E1 as <- -> _.
  destruct (run_recognize V lab F P fuel m s0 HR b) as (s' & E' & _).
  assert (forall z, z ∈ reported F P m <-> z ∈ CL F (flags F P m)) as Heq.
  { intros z. rewrite (elem_reported V lab F HI P m z), (elem_CL V lab F HI P). split; [tauto|]. intros [Hz Hf].
    split; auto. split; auto. destruct (final_cases F P m) as [->|[_ ->]].
    - apply (keep_nonpos V lab F HI P (flags F P m) (flags_le F P m)); auto.
      intros y Hy Hfy. by apply (flags_limits V lab F HI P m y Hy Hfy).
    - rewrite decide_True; auto. by apply (elem_CL V lab F HI P). }
  eexists s', _, _, _. split; [exact E'|]. split.
  - intros z Hz%Heq. by apply H1.
  - intros g S HM. destruct (H2 g S HM) as (z & Hz & HS). exists z. split; auto. by apply Heq.
Qed.
