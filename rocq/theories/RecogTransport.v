(* The reported regions do not depend on how the tree is stored. *)
From stdpp Require Import sorting relations functions list_numbers list.
From Coq Require Import NArith ZArith SpecFloat.
From Verif Require Import Spec TreeSpec TreeFacts JoinMath FloodModel ConnectModel ConnectProof JoinCorrect FloatModel FloatFacts
  RecogModel RecogSpec RecogStatic RecogWorkers RecogSched RecogNms RecogSerial RecogOrder DupAbs DupTrans RecogDup GrowthFacts RecogTree
  RecogCompose RecogFinal.
Local Open Scope nat_scope.

(* regions of two stored trees with the same pixels *)
Definition same (V : view) (lab1 : nat -> rref) (F1 : forest) (lab2 : nat -> rref) (F2 : forest) (x y : rref) : Prop :=
  live0 F1 x /\ live0 F2 y /\ forall p, region_pixels V lab1 (tab F1) x p <-> region_pixels V lab2 (tab F2) y p.
Lemma same_sym V lab1 F1 lab2 F2 x y : same V lab1 F1 lab2 F2 x y -> same V lab2 F2 lab1 F1 y x.
Proof. intros (H1 & H2 & H3). split; auto. split; auto. intros p. symmetry. apply H3. Qed.

(* the region of the level of a pixel that contains it *)
Lemma region_of V lab F p : recog_input V lab F -> vw_in V p ->
  exists u, live0 F u /\ gray0 F u = vw_gray V p /\ region_pixels V lab (tab F) u p.
Proof.
  intros HI Hp. pose proof (ri_tree _ _ _ HI) as HT. destruct (ct_lab _ _ _ HT p Hp) as (v & Hv & Hg).
  destruct (real_exists _ _ _ (rs_wf _ (input_start _ _ _ HI)) Hv) as (u & b & R1 & R2 & R3 & R4 & R5).
  assert (live0 F u) as Hu by (apply live_tab; eauto). exists u. split; auto.
  destruct (live_get F u Hu) as (b' & Hb' & _ & <- & _). assert (b' = b) as -> by congruence. split; [congruence|]. split; auto.
Qed.

Section one.
Context (V : view) (lab1 lab2 : nat -> rref) (F1 F2 : forest) (HI1 : recog_input V lab1 F1) (HI2 : recog_input V lab2 F2).
Notation R := (same V lab1 F1 lab2 F2).
Notation pix1 := (region_pixels V lab1 (tab F1)). Notation pix2 := (region_pixels V lab2 (tab F2)).
Let S1 := input_start _ _ _ HI1.
Let S2 := input_start _ _ _ HI2.

Lemma same_total x : live0 F1 x -> exists y, R x y.
Proof.
  intros Hx. destruct (pix_own V lab1 F1 HI1 x Hx) as (p & Hp & Hg). destruct (region_of V lab2 F2 p HI2 (proj1 Hp)) as (y & Hy & Hgy & Hyp).
  exists y. split; auto. split; auto. intros q.
  rewrite (pix_comp V lab1 F1 HI1 x p q Hx Hp), (pix_comp V lab2 F2 HI2 y p q Hy Hyp). by rewrite Hgy, Hg.
Qed.
Lemma same_size x y : R x y -> size0 F1 x = size0 F2 y.
Proof.
  intros (Hx & Hy & He). eapply card_unique; [by eapply pix_card|]. eapply card_ext; [|by eapply pix_card]. intros p. symmetry. apply He.
Qed.
Lemma same_gray_le x y : R x y -> gray0 F1 x <= gray0 F2 y.
Proof.
  intros (Hx & Hy & He). destruct (pix_own V lab1 F1 HI1 x Hx) as (p & Hp & <-). apply (pix_gray V lab2 F2 HI2); auto. by apply He.
Qed.
End one.

Section two.
Context (V : view) (lab1 lab2 : nat -> rref) (F1 F2 : forest) (HI1 : recog_input V lab1 F1) (HI2 : recog_input V lab2 F2).
Notation R := (same V lab1 F1 lab2 F2).
Notation pix1 := (region_pixels V lab1 (tab F1)). Notation pix2 := (region_pixels V lab2 (tab F2)).
Let S1 := input_start _ _ _ HI1.
Let S2 := input_start _ _ _ HI2.

Lemma same_gray x y : R x y -> gray0 F1 x = gray0 F2 y.
Proof.
  intros H. pose proof (same_gray_le V lab1 lab2 F1 F2 HI1 HI2 x y H).
  pose proof (same_gray_le V lab2 lab1 F2 F1 HI2 HI1 y x (same_sym _ _ _ _ _ _ _ H)). lia.
Qed.
(* regions are determined by their pixels *)
Lemma pix_inj lab F x x' : recog_input V lab F -> live0 F x -> live0 F x' ->
  (forall p, region_pixels V lab (tab F) x p <-> region_pixels V lab (tab F) x' p) -> x = x'.
Proof.
  clear. intros HI Hx Hx' He. destruct (decide (x = x')) as [|Hne]; auto. exfalso.
  pose proof (anc_card V lab F HI x x' Hx Hx' (fun p => proj1 (He p)) Hne) as Hs.
  destruct (sanc_lt (RP F) (size0 F) (gray0 F) (live0 F) (fun z => dp F (Some z)) (HLd F (input_start _ _ _ HI) (size_lt _ _ _ HI)) x x' Hx Hs)
    as (_ & Hlt & _).
  pose proof (card_sub _ _ _ _ (pix_card V lab F HI x' Hx') (pix_card V lab F HI x Hx) (fun p => proj2 (He p))). lia.
Qed.
Lemma same_fun x y x' y' : R x y -> R x' y' -> x = x' <-> y = y'.
Proof.
  intros (A1 & A2 & A3) (B1 & B2 & B3). split; intros ->.
  - apply (pix_inj lab2 F2); auto. intros p. by rewrite <- A3, B3.
  - apply (pix_inj lab1 F1); auto. intros p. by rewrite A3, B3.
Qed.
Lemma same_RPs x y x' : R x y -> RP F1 x = Some x' -> exists y', RP F2 y = Some y' /\ R x' y'.
Proof.
  intros HR E. pose proof HR as (Hx & Hy & He). destruct (live0_RP F1 S1 x x' Hx E) as [Hx' _].
  assert (rtc (up (RP F1)) x x') as Hxx by (by apply rtc_once).
  destruct (same_total V lab1 lab2 F1 F2 HI1 HI2 x' Hx') as (v & HRv). pose proof HRv as (_ & Hv & Hev).
  assert (tc (up (RP F2)) y v) as Hyv.
  { apply (anc_card V lab2 F2 HI2); auto.
    - intros p Hp. apply Hev. eapply (pix_mono V lab1 F1 HI1 x x'); eauto. by apply He.
    - intros ->. assert (x = x') as <- by (by apply (proj2 (same_fun _ _ _ _ HR HRv))). pose proof (size_lt V lab1 F1 HI1 x x Hx E). lia. }
  destruct (sanc_inv (RP F2) y v Hyv) as (z & Ez & Hzv).
  assert (rtc (up (RP F2)) z v) as Hzv'. { destruct Hzv as [->|Hzv]; [apply rtc_refl|by apply tc_rtc]. }
  destruct (live0_RP F2 S2 y z Hy Ez) as [Hz _]. exists z. split; auto. split; auto. split; auto.
  destruct (same_total V lab2 lab1 F2 F1 HI2 HI1 z Hz) as (u & HRu%same_sym). pose proof HRu as (Hu & _ & Heu).
  assert (tc (up (RP F1)) x u) as Hxu.
  { apply (anc_card V lab1 F1 HI1); auto.
    - intros p Hp. apply Heu. eapply (pix_mono V lab2 F2 HI2 y z); eauto; [by apply rtc_once|]. by apply He.
    - intros ->. assert (y = z) as <- by (by apply (proj1 (same_fun _ _ _ _ HR HRu))). pose proof (size_lt V lab2 F2 HI2 y y Hy Ez). lia. }
  destruct (sanc_inv (RP F1) x u Hxu) as (x2 & Ex2 & Hx2u). assert (x2 = x') as -> by congruence.
  assert (rtc (up (RP F1)) x' u) as Hxu'. { destruct Hx2u as [->|H]; [apply rtc_refl|by apply tc_rtc]. }
  intros p. split; intros Hp.
  - apply Heu. by eapply (pix_mono V lab1 F1 HI1 x' u).
  - apply Hev. by eapply (pix_mono V lab2 F2 HI2 z v).
Qed.
End two.

Section three.
Context (V : view) (lab1 lab2 : nat -> rref) (F1 F2 : forest) (HI1 : recog_input V lab1 F1) (HI2 : recog_input V lab2 F2).
Context (P : rparam).
Notation R := (same V lab1 F1 lab2 F2).
Let S1 := input_start _ _ _ HI1.
Let S2 := input_start _ _ _ HI2.

Lemma same_RPn x y : R x y -> RP F1 x = None -> RP F2 y = None.
Proof.
  intros HR E. destruct (RP F2 y) as [z|] eqn:Ez; auto.
  destruct (same_RPs V lab2 lab1 F2 F1 HI2 HI1 y x z (same_sym _ _ _ _ _ _ _ HR) Ez) as (u & Eu & _). congruence.
Qed.
Lemma same_top thr x : live0 F1 x -> forall y, R x y -> R (top F1 thr x) (top F2 thr y).
Proof.
  intros Hx. revert x Hx. apply (live0_ind F1 S1 (fun x => forall y, R x y -> R (top F1 thr x) (top F2 thr y))).
  intros x Hx IH y HR. pose proof HR as (_ & Hy & _).
  destruct (RP F1 x) as [x'|] eqn:E.
  - destruct (same_RPs V lab1 lab2 F1 F2 HI1 HI2 x y x' HR E) as (y' & E' & HR').
    pose proof (same_gray V lab1 lab2 F1 F2 HI1 HI2 x' y' HR') as Hg.
    destruct (Z.leb_spec (Z.of_nat (gray0 F1 x')) thr) as [Hle|Hlt].
    + rewrite (top_up F1 S1 thr x x'), (top_up F2 S2 thr y y'); auto. lia.
    + rewrite (top_stop F1 thr x), (top_stop F2 thr y); auto; intros z Hz; [rewrite E' in Hz|rewrite E in Hz]; injection Hz as <-; lia.
  - pose proof (same_RPn x y HR E) as E'. rewrite (top_stop F1 thr x), (top_stop F2 thr y); auto; intros z Hz; congruence.
Qed.
Lemma same_var x y : R x y -> VAR F1 P x = VAR F2 P y.
Proof.
  intros HR. unfold VAR. pose proof HR as (Hx & _ & _). rewrite <- (same_gray V lab1 lab2 F1 F2 HI1 HI2 x y HR).
  set (thr := (Z.of_nat (gray0 F1 x) + p_delta P)%Z). pose proof (same_top thr x Hx y HR) as Ht.
  rewrite (same_gray V lab1 lab2 F1 F2 HI1 HI2 _ _ Ht), (same_size V lab1 lab2 F1 F2 HI1 HI2 _ _ Ht), (same_size V lab1 lab2 F1 F2 HI1 HI2 _ _ HR).
  destruct (RP F1 (top F1 thr x)) as [u|] eqn:E.
  - by destruct (same_RPs V lab1 lab2 F1 F2 HI1 HI2 _ _ _ Ht E) as (u' & -> & _).
  - by rewrite (same_RPn _ _ Ht E).
Qed.
Lemma same_bad x y : R x y -> bad_limits P (size0 F1 x) (RP F1 x) = bad_limits P (size0 F2 y) (RP F2 y).
Proof.
  intros HR. unfold bad_limits. rewrite (same_size V lab1 lab2 F1 F2 HI1 HI2 _ _ HR). f_equal.
  destruct (RP F1 x) as [u|] eqn:E.
  - by destruct (same_RPs V lab1 lab2 F1 F2 HI1 HI2 _ _ _ HR E) as (u' & -> & _).
  - by rewrite (same_RPn _ _ HR E).
Qed.
End three.

Section four.
Context (V : view) (lab1 lab2 : nat -> rref) (F1 F2 : forest) (HI1 : recog_input V lab1 F1) (HI2 : recog_input V lab2 F2).
Context (P : rparam).
Notation R := (same V lab1 F1 lab2 F2).
Let S1 := input_start _ _ _ HI1.
Let S2 := input_start _ _ _ HI2.

Lemma same_survives x y : R x y -> survives P (tab F1) (VAR F1 P) x -> survives P (tab F2) (VAR F2 P) y.
Proof.
  intros HR (Hl & Hst & Hn). pose proof HR as (Hx & Hy & _).
  assert (BASE F1 P x = true) as HB by (apply (BASE_iff V lab1 F1 HI1 P x Hx); auto).
  assert (BASE F2 P y = true) as HB2.
  { unfold BASE in *. by rewrite <- (same_var V lab1 lab2 F1 F2 HI1 HI2 P x y HR), <- (same_bad V lab1 lab2 F1 F2 HI1 HI2 P x y HR). }
  apply (BASE_iff V lab2 F2 HI2 P y Hy) in HB2 as [B1 B2]. split; auto. split; auto.
  intros Hnn q Hq H1 H2 H3.
  assert (exists r, R r q /\ neighbours (tab F1) x r) as (r & HRr & Hr).
  { apply (neigh_iff V lab2 F2 HI2 P) in Hq. destruct Hq as [(_ & E & Hg)|(Hq & E & Hg)].
    - destruct (same_RPs V lab2 lab1 F2 F1 HI2 HI1 y x q (same_sym _ _ _ _ _ _ _ HR) E) as (r & Er & HRr%same_sym).
      exists r. split; auto. apply (proj2 (neigh_iff V lab1 F1 HI1 P _ _)). left. split; auto. split; auto.
      by rewrite (same_gray V lab1 lab2 F1 F2 HI1 HI2 _ _ HRr), (same_gray V lab1 lab2 F1 F2 HI1 HI2 _ _ HR).
    - destruct (same_total V lab2 lab1 F2 F1 HI2 HI1 q Hq) as (r & HRr%same_sym).
      exists r. split; auto. pose proof HRr as (Hr & _ & _). apply (proj2 (neigh_iff V lab1 F1 HI1 P _ _)). right. split; auto.
      rewrite (same_gray V lab1 lab2 F1 F2 HI1 HI2 _ _ HRr), (same_gray V lab1 lab2 F1 F2 HI1 HI2 _ _ HR). split; auto.
      destruct (same_RPs V lab2 lab1 F2 F1 HI2 HI1 q r y (same_sym _ _ _ _ _ _ _ HRr) E) as (x' & Ex' & HRx%same_sym).
      rewrite Ex'. f_equal. by apply (same_fun V lab1 lab2 F1 F2 HI1 HI2 x' y x y). }
  rewrite <- (same_var V lab1 lab2 F1 F2 HI1 HI2 P x y HR) in H1, H3. rewrite <- (same_var V lab1 lab2 F1 F2 HI1 HI2 P r q HRr) in H2, H3.
  by apply (Hn Hnn r).
Qed.
End four.

Section five.
Context (V : view) (lab1 lab2 : nat -> rref) (F1 F2 : forest) (HI1 : recog_input V lab1 F1) (HI2 : recog_input V lab2 F2).
Context (P : rparam) (Hd : delta_ok P).
Notation R := (same V lab1 F1 lab2 F2).
Let S1 := input_start _ _ _ HI1.
Let S2 := input_start _ _ _ HI2.

Lemma same_FLAG x y : R x y -> FLAG F1 P (allvis F1) x = FLAG F2 P (allvis F2) y.
Proof.
  intros HR. pose proof HR as (Hx & Hy & _).
  assert (FLAG F1 P (allvis F1) x = 0 <-> FLAG F2 P (allvis F2) y = 0) as H.
  { rewrite (FLAG_survives V lab1 F1 HI1 P x Hx), (FLAG_survives V lab2 F2 HI2 P y Hy). split.
    - by apply (same_survives V lab1 lab2). - apply (same_survives V lab2 lab1); auto. by apply same_sym. }
  destruct (FLAG_01 F1 P (allvis F1) x), (FLAG_01 F2 P (allvis F2) y); lia.
Qed.
End five.

(* without levels to grow over, the variation is zero *)
Lemma FLAG_delta0 V lab F P z : recog_input V lab F -> (p_delta P <= 0)%Z -> live0 F z ->
  FLAG F P (allvis F) z = 0 <-> LIM F P z = true /\ fgt fzero (p_stable P) = false.
Proof.
  intros HI Hd Hz. pose proof (input_start V lab F HI) as HS.
  assert (forall x y, live0 F x -> RP F x = Some y -> VAR F P x = fzero) as Hv.
  { intros x y Hx E. unfold VAR. rewrite (top_stop F); auto.
    - rewrite E. cbn [orb]. apply growth_same; [by eapply size_pos|by eapply size_small].
    - intros y' Ey. destruct (live0_RP F HS x y' Hx Ey) as [_ ?]. lia. }
  rewrite (FLAG_survives V lab F HI P z Hz). split.
  - intros (Hl & Hst & _). assert (BASE F P z = true) as HB by (by apply (BASE_iff V lab F HI P z Hz)).
    unfold BASE in HB. apply negb_true_iff, orb_false_iff in HB as [B1 B2]. split; [unfold LIM; by rewrite B2|].
    destruct (RP F z) as [y|] eqn:E; [|unfold bad_limits in B2; by rewrite orb_true_r in B2]. by rewrite (Hv z y Hz E) in B1.
  - intros [Hl Hst]. unfold LIM in Hl. apply negb_true_iff in Hl.
    destruct (RP F z) as [y|] eqn:E; [|unfold bad_limits in Hl; by rewrite orb_true_r in Hl].
    assert (BASE F P z = true) as HB. { unfold BASE. by rewrite (Hv z y Hz E), Hst, E, Hl. }
    apply (BASE_iff V lab F HI P z Hz) in HB as [B1 B2]. split; auto. split; auto. intros Hn q Hq H1 H2 H3.
    assert (VAR F P q = fzero \/ VAR F P q = fminus1) as [Eq|Eq].
    { destruct (RP F q) as [u|] eqn:Eu.
      - left. eapply Hv; eauto. apply (neigh_iff V lab F HI P) in Hq as [(_ & Hq & _)|(Hq & _)]; auto. by destruct (live0_RP F HS z q Hz Hq).
      - assert (live0 F q) as Hlq. { apply (neigh_iff V lab F HI P) in Hq as [(_ & Hq & _)|(Hq & _)]; auto. by destruct (live0_RP F HS z q Hz Hq). }
        unfold VAR. rewrite (top_stop F); auto; [|intros ? ?; congruence]. rewrite Eu. cbn [orb].
        destruct (_ =? _)%Z; auto. left. apply growth_same; [by eapply size_pos|by eapply size_small]. }
    + unfold worse_by in H3. rewrite (Hv z y Hz E), Eq in H3.
      assert (fge (f64_of_f32 (p_nms P)) fzero = true) as Hn2 by (by apply nonneg_f64).
      change (var_diff fzero fzero) with fzero in H3. unfold fge, fgt, SFleb, SFltb, fzero in *.
      destruct (f64_of_f32 (p_nms P)) as [[]|[]| |[] ? ?]; done.
    + rewrite Eq, minus1_neg in H2. done.
Qed.

Section six.
Context (V : view) (lab1 lab2 : nat -> rref) (F1 F2 : forest) (HI1 : recog_input V lab1 F1) (HI2 : recog_input V lab2 F2).
Context (P : rparam).
Notation R := (same V lab1 F1 lab2 F2).
Let S1 := input_start _ _ _ HI1.
Let S2 := input_start _ _ _ HI2.

Lemma same_flags m1 m2 x y : (0 < p_delta P)%Z \/ fgt fzero (p_stable P) = false -> R x y -> flags F1 P m1 x = flags F2 P m2 y.
Proof.
  intros Hm HR. pose proof HR as (Hx & Hy & _).
  assert (forall lab F m z, recog_input V lab F -> live0 F z -> flags F P m z = FLAG F P (allvis F) z) as Hall.
  { clear - Hm. intros lab F m z HI Hz. destruct m; auto. cbn. destruct (Z.ltb_spec 0 (p_delta P)) as [|Hp]; auto.
    destruct Hm as [|Hm]; [lia|]. pose proof (FLAG_delta0 V lab F P z HI Hp Hz) as H.
    destruct (LIM F P z) eqn:E.
    - symmetry. by apply H.
    - destruct (FLAG_01 F P (allvis F) z) as [H1|]; auto. apply H in H1 as [? _]. done. }
  rewrite (Hall lab1 F1), (Hall lab2 F2); auto. by eapply same_FLAG.
Qed.

Lemma same_keep fl1 fl2 x y : fgt (f64_of_int 1) (f64_of_f32 (p_dup P)) = true -> (forall x y, R x y -> fl1 x = fl2 y) ->
  (forall z, live0 F1 z -> fl1 z = 0 -> (p_min P <= Z.of_nat (size0 F1 z) <= p_max P)%Z) ->
  R x y -> keep F1 P fl1 x = keep F2 P fl2 y.
Proof.
  intros Hdup Hfl Hlim HR.
  assert (exists l2, Forall2 R (CL F1 fl1) l2) as (l2 & Hl2).
  { assert (forall z, z ∈ CL F1 fl1 -> exists z2, R z z2) as Hex.
    { intros z [Hz _]%(elem_cl V lab1 F1 HI1 P). by eapply same_total. }
    induction (CL F1 fl1) as [|z l IH]; [by exists []|]. destruct IH as (l2 & Hl2). { intros u Hu. apply Hex. by apply elem_of_list_further. }
    destruct (Hex z) as (z2 & Hz2); [by apply elem_of_list_here|]. exists (z2 :: l2). by constructor. }
  assert (forall z2, z2 ∈ l2 -> exists z, z ∈ CL F1 fl1 /\ R z z2) as Hl2in.
  { clear - Hl2. induction Hl2 as [|u v l1 l2 Huv _ IH]; intros z Hz; [by apply elem_of_nil in Hz|].
    apply elem_of_cons in Hz as [->|Hz].
    - exists u. split; auto. by apply elem_of_list_here.
    - destruct (IH z Hz) as (w & ? & ?). exists w. split; auto. by apply elem_of_list_further. }
  pose proof (same_fun V lab1 lab2 F1 F2 HI1 HI2) as Hfun.
  assert (forall z2, z2 ∈ l2 <-> z2 ∈ CL F2 fl2) as Hmem.
  { intros z2. rewrite (elem_cl V lab2 F2 HI2 P). split.
    - intros Hz. destruct (Hl2in z2 Hz) as (z & [Hz1 Hz0]%(elem_cl V lab1 F1 HI1 P) & HRz). pose proof HRz as (_ & ? & _). split; auto.
      by rewrite <- (Hfl z z2).
    - intros [Hz Hz0]. destruct (same_total V lab2 lab1 F2 F1 HI2 HI1 z2 Hz) as (z & HRz%same_sym). pose proof HRz as (? & _ & _).
      rewrite <- (elem_trans R Hfun (CL F1 fl1) l2 z z2 Hl2 HRz). apply (elem_cl V lab1 F1 HI1 P). split; auto. by rewrite (Hfl z z2). }
  assert (NoDup l2) as Hnd by (eapply (NoDup_trans R Hfun); [exact Hl2|apply CL_NoDup]).
  assert (CL F2 fl2 ≡ₚ l2) as Hperm. { apply NoDup_Permutation; auto; [apply CL_NoDup|]. intros z. symmetry. apply Hmem. }
  assert (StronglySorted (fun u v => gray0 F2 u <= gray0 F2 v) l2) as Hsorted.
  { pose proof (CL_gray F1 fl1) as Hs. clear - Hs Hl2 HI1 HI2. revert Hs. induction Hl2 as [|u v l1 l2 Huv Hl IH]; intros Hs; constructor.
    - apply IH. by apply StronglySorted_inv in Hs as [? _].
    - apply StronglySorted_inv in Hs as [_ Hs]. rewrite <- (same_gray V lab1 lab2 F1 F2 HI1 HI2 u v Huv). clear IH Huv.
      induction Hl as [|w z l1 l2 Hwz _ IH]; constructor; apply Forall_cons in Hs as [Hs1 Hs2]; auto.
      by rewrite <- (same_gray V lab1 lab2 F1 F2 HI1 HI2 w z Hwz). }
  unfold keep.
  rewrite (arun_perm (RP F2) (size0 F2) (gray0 F2) (fun x => too_big P (size0 F2 x)) (nearf P) (NN F2) (live0 F2) (fun z => dp F2 (Some z))
    (HLd F2 S2 (size_lt _ _ _ HI2)) (HNd F2 S2) (Hbigd F2 P) (Hmono V lab2 F2 HI2 P) (dis_size V lab2 F2 HI2) (Hhalf V lab2 F2 HI2 P Hdup)
    (CL F2 fl2) l2 fl2 Hperm (CL_NoDup F2 fl2) (CL_gray F2 fl2) Hsorted).
  - apply (arun_trans (RP F1) (size0 F1) (fun x => too_big P (size0 F1 x)) (NN F1) (fun z => dp F1 (Some z))
      (RP F2) (size0 F2) (fun x => too_big P (size0 F2 x)) (NN F2) (fun z => dp F2 (Some z)) (nearf P) R); auto.
    + apply (same_size V lab1 lab2 F1 F2 HI1 HI2).
    + intros u v Huv. by rewrite (same_size V lab1 lab2 F1 F2 HI1 HI2 u v Huv).
    + apply (same_RPs V lab1 lab2 F1 F2 HI1 HI2).
    + apply (same_RPn V lab1 lab2 F1 F2 HI1 HI2).
    + intros u v w (Hu & _ & _) E. by destruct (HLd F1 S1 (size_lt _ _ _ HI1) u w Hu E) as (_ & _ & _ & ?).
    + intros u v (Hu & _ & _). by apply HNd.
    + intros u v w (_ & Hu & _) E. by destruct (HLd F2 S2 (size_lt _ _ _ HI2) u w Hu E) as (_ & _ & _ & ?).
    + intros u v (_ & Hu & _). by apply HNd.
  - intros z Hz. destruct (Hl2in z) as (w & Hw & HRw); [by rewrite <- Hperm|]. pose proof HRw as (Hw1 & Hz1 & _). split; auto.
    apply (elem_cl V lab1 F1 HI1 P) in Hw as [_ Hw]. unfold too_big. apply Z.ltb_ge. rewrite <- (same_size V lab1 lab2 F1 F2 HI1 HI2 w z HRw).
    by apply Hlim.
Qed.

Lemma not_gt_zero : fgt (f64_of_int 1) (f64_of_f32 (p_dup P)) = true -> fgt (p_dup P) fzero = false -> fge fzero (p_dup P) = true.
Proof.
  clear. unfold fgt, fge, SFltb, SFleb, fzero. destruct (p_dup P) as [[]|[]| |[] ? ?]; cbn; done.
Qed.

Lemma same_reported m1 m2 x y : fgt (f64_of_int 1) (f64_of_f32 (p_dup P)) = true ->
  (0 < p_delta P)%Z \/ fgt fzero (p_stable P) = false -> R x y -> x ∈ reported F1 P m1 -> y ∈ reported F2 P m2.
Proof.
  intros Hdup Hst HR Hx. pose proof HR as (Hx1 & Hy1 & _).
  apply (elem_reported V lab1 F1 HI1) in Hx as (_ & Hf1 & Hfin).
  pose proof (same_flags m1 m2 x y Hst HR) as Hfl. rewrite Hf1 in Hfl. symmetry in Hfl.
  apply (elem_reported V lab2 F2 HI2). split; auto. split; auto.
  destruct (fgt (p_dup P) fzero) eqn:Eg.
  - assert (forall F m, final F P m = keep F P (flags F P m)) as Hk. { intros F m. destruct m; auto; cbn; by rewrite Eg. }
    rewrite Hk in Hfin |- *. rewrite <- Hfin. symmetry.
    apply (same_keep (flags F1 P m1) (flags F2 P m2)); auto.
    + intros u v Huv. by apply same_flags.
    + intros z Hz Hz0. by apply (flags_limits V lab1 F1 HI1 P m1).
  - destruct (final_cases F2 P m2) as [->|[_ ->]].
    + apply (keep_nonpos V lab2 F2 HI2 P (flags F2 P m2)); auto; [apply flags_le| |by apply not_gt_zero].
      intros z Hz Hz0. by apply (flags_limits V lab2 F2 HI2 P m2).
    + rewrite decide_True; auto. by apply (elem_cl V lab2 F2 HI2 P).
Qed.
End six.
