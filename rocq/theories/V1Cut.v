(* disconnect and the list part of connect of Fast MSER V1 keep the pixel lists. *)
From stdpp Require Import sorting relations functions list.
From Coq Require Import ZArith.
From Verif Require Import FloodModel V1JoinModel V1Heap V1Lists.
Local Open Scope nat_scope.

Lemma wreal_parent_shape fuel R r R1 par ar : get2 R r = Some ar -> wreal_parent fuel R r = Some (R1, par) ->
  R1 = set2 R r (wset_par ar par).
Proof. unfold wreal_parent. intros ->. destruct (wreal fuel R (w_par ar)); [|done]. by intros [= <- <-]. Qed.

Lemma split_unique (i : rref) l A B A' B' : A ++ (i :: l) ++ B = A' ++ (i :: l) ++ B' -> i ∉ A -> i ∉ A' ->
  A = A' /\ B = B'.
Proof.
  cbn [app]. revert A'. induction A as [|x A IH]; intros [|y C] Eu Q1 Q2; cbn [app] in Eu.
  - injection Eu as Eu. apply app_inv_head in Eu. auto.
  - exfalso. apply Q2. injection Eu as <- _. apply elem_of_cons; auto.
  - exfalso. apply Q1. injection Eu as -> _. apply elem_of_cons; auto.
  - injection Eu as -> Eu. destruct (IH C Eu) as [-> ->]; auto; intros H; [apply Q1|apply Q2]; apply elem_of_cons; auto.
Qed.

Section cut.
Context (xy : rref -> nat * nat) (pin : rref -> Prop) (labq : rref -> rref) (pg : rref -> nat).
Notation order := (order pin labq pg).
Notation lists := (lists xy pin labq pg).

Lemma disconnect_ok L W g R P M K St seg r par fuel R1 ar : order L W g -> lists L W g R P M K St seg ->
  L r -> (forall k, k ∈ K -> ~ W r k) -> (forall y, L y -> St y -> W y r -> y = r) ->
  get2 R r = Some ar -> wreal_parent fuel R r = Some (R1, par) ->
  match par with
  | None => forall y, L y -> W r y -> y = r
  | Some p => L p /\ W r p /\ p <> r /\ forall y, L y -> W r y -> y = r \/ W p y
  end -> num2 P <= fuel ->
  exists st' z, disconnect fuel (JSt R P M) r = Some st' /\ psame P (e_pts st') /\
    length <$> e_regs st' = length <$> R /\
    (forall y a, get2 R y = Some a -> exists a', get2 (e_regs st') y = Some a' /\ dchange r par (w_un ar) y a a' /\
      w_tail a' = (if decide (y = r) then Some z else w_tail a)) /\
    lists L W g (e_regs st') (e_pts st') (e_mp st') (r :: K) (fun y => St y \/ (W r y /\ y <> r)) (cutseg seg r).
Proof.
  intros HO HL Lr Hnk Hst Har HWP Hpar Hf.
  destruct (l_reg _ _ _ _ _ _ _ _ _ _ _ _ _ HL r Lr) as (a0 & h & z & t & A1 & A2 & A3 & A4 & A5 & A6 & A7 & _).
  assert (a0 = ar) as -> by congruence. clear A1.
  assert (rt P t z) as Hrt by (eapply (tail_rt xy pin labq pg L W g HO _ _ _ _ _ _ _ _ _ _ HL Lr); eauto).
  pose proof (wreal_parent_shape _ _ _ _ _ _ Har HWP) as HR1.
  (* the chain that contains the list of r *)
  destruct (o_top _ _ _ _ _ _ HO r Lr) as (u0 & Hu & Hru & Htop).
  destruct (up_split xy pin labq pg L W g R P M K St seg HL r Lr Hnk u0 Hu Hru) as (A & B & E).
  pose proof (l_chain _ _ _ _ _ _ _ _ _ _ _ _ _ HL u0 Hu (or_intror Htop)) as Hd.
  pose proof (l_dup _ _ _ _ _ _ _ _ _ _ _ _ _ HL u0 Hu) as ND. rewrite E in Hd, ND.
  pose proof Hd as Hd'. apply dseg_app in Hd' as [D1 D2]. apply dseg_app in D2 as [D2 D3].
  assert (pv P h = last A) as Hpvh.
  { rewrite (dseg_head _ _ _ _ _ D2 A3). unfold last_or. by destruct (last A). }
  assert (nx P z = head B) as Hnxz.
  { rewrite (dseg_last _ _ _ _ _ D2 A6). by rewrite head_hd_or. }
  assert (h ∈ seg r) as HhL by (by apply head_Some_elem_of).
  assert (z ∈ seg r) as HzL by (by apply last_Some_elem_of).
  assert (pdom P h) as Hdh. { eapply dseg_dom; [exact D2|done]. }
  assert (pdom P z) as Hdz. { eapply dseg_dom; [exact D2|done]. }
  apply NoDup_app in ND as (NA & NAL & NLB). apply NoDup_app in NLB as (NL & NLB' & NB).
  assert (last A <> Some z) as HAz.
  { intros H%last_Some_elem_of. apply (NAL z H). apply elem_of_app; auto. }
  assert (head B <> Some h) as HBh.
  { intros H%head_Some_elem_of. by apply (NLB' h). }
  unfold disconnect. cbn [e_regs e_pts e_mp]. rewrite Har, A4, A7.
  destruct (real_tail_ok P fuel t z Hrt Hf) as (P1 & -> & S1 & N1 & V1 & F1).
  destruct (unlink_eff P1 h z) as (P2 & -> & S2 & N2 & V2 & F2).
  { by apply (psame_dom P P1). } { by apply (psame_dom P P1). }
  { intros q Hq. rewrite V1, Hpvh in Hq. apply (psame_dom P P1); auto. eapply dseg_dom; [exact D1|]. by apply last_Some_elem_of. }
  { intros q Hq. rewrite N1, Hnxz in Hq. apply (psame_dom P P1); auto. eapply dseg_dom; [exact D3|]. by apply head_Some_elem_of. }
  { by rewrite V1, Hpvh. }
  rewrite HWP. rewrite V1, N1, Hpvh, Hnxz in N2, V2.
  (* everything up to the last two assignments *)
  assert (forall v y, rt P v y -> rt P2 v y) as T2.
  { intros v y H. apply (rt_real_tail P P1 z y S1) in H; [|exact F1].
    apply (rt_frame P1 P2 S2 v y H). intros q. left. apply F2. }
  set (X := match par with None => _ | Some p => _ end).
  assert (exists R2 P4 M', X = Some (R2, P4, M') /\ psame P P4 /\
    length <$> R2 = length <$> R /\
    (forall y a, get2 R y = Some a -> exists a', get2 R2 y = Some a' /\ dchange r par (w_un ar) y a a' /\ w_tail a' = w_tail a) /\
    (forall q, nx P4 q = nx P2 q) /\ (forall q, pv P4 q = pv P2 q) /\
    (forall v y, rt P v y -> y <> z -> rt P4 v y) /\
    (forall A' a v, rt P v z -> L a -> W r a -> a <> r -> seg a = A' ++ seg r -> exists p, last A' = Some p /\ rt P4 v p) /\
    (forall q, rf P4 q <> None -> rf P q <> None \/ (q = z /\ q ∈ M')) /\
    (forall q, q ∈ M -> q ∈ M') /\ (forall q, q ∈ M' -> q ∈ M \/ q = z))
    as (R2 & P4 & M' & -> & S4 & HS2 & HR2 & N4 & V4 & T4 & T4' & F4 & M1 & M2).
  { assert (forall a, L a -> W r a -> a <> r -> par <> None) as Hnp.
    { intros a La Hra Hne ->. by apply Hne, Hpar. }
    assert (forall q, rf P2 q <> None -> rf P q <> None) as F2'.
    { intros q. rewrite F2. destruct (F1 q) as [->|(? & _)]; auto. }
    subst X. destruct par as [p|].
    - destruct Hpar as (Lp & Hrp & Hpr & Hpm).
      destruct (l_reg _ _ _ _ _ _ _ _ _ _ _ _ _ HL p Lp) as (b & hb & zb & tb & B1 & B2 & B3 & B4 & B5 & B6 & B7 & _).
      assert (get2 R1 p = Some b) as Hb by (rewrite HR1, get2_set2_ne; auto).
      rewrite Hb, B7.
      assert (rt P tb zb) as Hrtb.
      { eapply (tail_rt xy pin labq pg L W g HO _ _ _ _ _ _ _ _ _ _ HL Lp); eauto.
        by apply (up_not_cut xy pin labq pg L W g HO R P M K St seg HL r Lr Hnk p Lp Hrp). }
      assert (psame P P2) as S12 by (by eapply psame_trans).
      destruct (real_tail_ok P2 fuel tb zb (T2 _ _ Hrtb)) as (P3 & -> & S3 & N3 & V3 & F3).
      { by rewrite (psame_num P P2). }
      assert (forall v y, rt P v y -> rt P3 v y) as T3.
      { intros v y H. apply T2 in H. by apply (rt_real_tail P2 P3 zb y S3) in H. }
      assert (forall q, rf P3 q <> None -> rf P q <> None) as F3'.
      { intros q. destruct (F3 q) as [-> |(? & _)]; auto. }
      set (R2 := set2 R1 p _).
      assert (forall y a, get2 R y = Some a -> exists a', get2 R2 y = Some a' /\ dchange r (Some p) (w_un ar) y a a' /\ w_tail a' = w_tail a) as HR2.
      { intros y a Ha. unfold R2. rewrite get2_set2, Hb. destruct (decide (y = p)) as [->|Hyp].
        - assert (a = b) as -> by congruence. eexists. split; [done|]. split; [|done].
          unfold dchange; cbn. rewrite decide_False, decide_True by done. done.
        - rewrite HR1, get2_set2, Har. destruct (decide (y = r)) as [->|Hyr].
          + assert (a = ar) as -> by congruence. eexists. split; [done|]. split; [|done].
            unfold dchange; cbn. rewrite decide_True, decide_False by congruence. done.
          + exists a. split; [done|]. split; [|done]. unfold dchange. rewrite !decide_False by congruence. done. }
      assert (length <$> R2 = length <$> R) as HS2.
      { unfold R2. by rewrite set2_shape, HR1, set2_shape. }
      destruct (up_split xy pin labq pg L W g R P M K St seg HL r Lr Hnk p Lp Hrp) as (Ap & Bp & Ep).
      pose proof (l_dup _ _ _ _ _ _ _ _ _ _ _ _ _ HL p Lp) as NDp. rewrite Ep in NDp.
      apply NoDup_app in NDp as (NAp & NALp & NLBp). apply NoDup_app in NLBp as (_ & NLBp' & _).
      (* the position of the list of p inside the chain *)
      destruct (l_nest _ _ _ _ _ _ _ _ _ _ _ _ _ HL u0 p Hu Lp) as (Au & Bu & Eu).
      { split; [|].
        - destruct (Hpm u0 Hu Hru) as [H|H]; [|done]. subst u0.
          exfalso. apply Hpr. by apply Htop.
        - intros k Hk H _. exfalso.
          by apply (up_not_cut xy pin labq pg L W g HO R P M K St seg HL r Lr Hnk p Lp Hrp k Hk). }
      destruct (decide (t = tb \/ zb = z)) as [Hc|Hc].
      + assert (zb = z) as ->. { destruct Hc as [->|]; [|done]. by eapply rt_fun. }
        assert (Bp = []) as ->.
        { destruct Bp as [|i Bp _] using rev_ind; [done|]. exfalso. rewrite Ep, !app_assoc, last_snoc in B6.
          injection B6 as ->. apply (NLBp' z); [done|]. apply elem_of_app. right. by apply elem_of_list_singleton. }
        rewrite app_nil_r in Ep.
        assert (Ap <> []) as HAp.
        { intros ->. rewrite Ep in B3. cbn in B3. assert (hb = h) as -> by congruence.
          destruct (o_gray _ _ _ _ _ _ HO r p Lr Lp Hrp) as [?|Hlt]; [congruence|]. lia. }
        assert (last A = last Ap) as HlA.
        { assert (A ++ seg r ++ B = (Au ++ Ap) ++ seg r ++ Bu) as EQ.
          { rewrite <-E, Eu, Ep. by rewrite <-!app_assoc. }
          pose proof (l_dup _ _ _ _ _ _ _ _ _ _ _ _ _ HL u0 Hu) as ND. rewrite Eu in ND.
          apply NoDup_app in ND as (_ & ND & _).
          assert (A = Au ++ Ap) as ->.
          { (* the first pixel of r occurs once *)
            destruct (seg r) as [|i l] eqn:Hsr; [done|].
            eapply (proj1 (B := B = Bu)), (split_unique i l A B (Au ++ Ap) Bu EQ).
            - intros H. apply (NAL i H). apply elem_of_app. left. apply elem_of_cons; auto.
            - intros [H|H]%elem_of_app.
              + apply (ND i H). rewrite Ep, !elem_of_app. left. right. apply elem_of_cons; auto.
              + apply (NALp i H). rewrite app_nil_r. apply elem_of_cons; auto. }
          rewrite last_app. destruct (last Ap) eqn:Hl; [done|]. apply last_None in Hl. done. }
        destruct (last Ap) as [p1|] eqn:Hp1; [|by apply last_None in Hp1].
        destruct (get_fields P3 h) as (xh & -> & _ & -> & _).
        { apply (psame_dom P P3); [by eapply psame_trans|done]. }
        rewrite V3, V2. rewrite decide_False by done. rewrite V1, Hpvh, HlA.
        assert (p1 ∈ Ap) as Hp1A by (by apply last_Some_elem_of).
        assert (pdom P3 z) as Hdz3. { apply (psame_dom P P3); [by eapply psame_trans|done]. }
        destruct (set_ref_eff P3 z (Some p1) Hdz3) as (P4 & -> & S4 & F4 & N4 & V4).
        assert (psame P P3) as S13 by (by eapply psame_trans).
        assert (p1 <> z) as Hpz. { intros ->. apply (NALp z Hp1A). apply elem_of_app; auto. }
        assert (rf P p1 = None) as Hrfp.
        { destruct (rf P p1) as [v|] eqn:Hv; [|done]. exfalso.
          assert (p1 ∈ seg p) as Hpp. { rewrite Ep. apply elem_of_app; auto. }
          destruct (l_ref _ _ _ _ _ _ _ _ _ _ _ _ _ HL p1) as (_ & k & Hk & Hqk);
            [by apply (l_mem _ _ _ _ _ _ _ _ _ _ _ _ _ HL) in Hpp as [? _]|congruence|].
          pose proof (l_cut _ _ _ _ _ _ _ _ _ _ _ _ _ HL k Hk) as Lk.
          pose proof (up_not_cut xy pin labq pg L W g HO R P M K St seg HL r Lr Hnk p Lp Hrp k Hk) as Hpk.
          destruct (meet_comparable xy pin labq pg L W g HO _ _ _ _ _ _ _ _ _ HL Lp Lk Hpp Hqk) as [?|Hkp]; [done|].
          apply (l_mem _ _ _ _ _ _ _ _ _ _ _ _ _ HL) in Hpp as [_ [_ Q2]]; [|done].
          apply (l_mem _ _ _ _ _ _ _ _ _ _ _ _ _ HL) in Hqk as [_ [Q3 _]]; [|done].
          pose proof (Q2 k Hk Q3 Hkp) as ->. apply Hpk. by apply (o_refl _ _ _ _ _ _ HO). }
        assert (pdom P p1) as Hdp1.
        { eapply dseg_dom; [exact D1|]. apply last_Some_elem_of. rewrite HlA. done. }
        assert (forall v y, rt P3 v y -> rt P4 v (if decide (y = z) then p1 else y)) as T4.
        { apply (rt_set P3 P4 z p1 S4); auto.
          - apply T3. by apply rt_here.
          - apply T3 in Hrt. by destruct (rt_end _ _ _ Hrt). }
        exists R2, P4, (M ++ [z]). split; [done|]. split; [by eapply psame_trans|]. split; [done|]. split; [done|].
        split; [intros q; rewrite N4; apply N3|]. split; [intros q; rewrite V4; apply V3|].
        split; [intros v y H Hy; apply T3, T4 in H; by rewrite decide_False in H|].
        split.
        { intros A' a v H La Hra Hne Ea. apply T3, T4 in H. rewrite decide_True in H by done. exists p1. split; [|done].
          assert (W p a) as Hpa by (destruct (Hpm a La Hra); done).
          destruct (l_nest _ _ _ _ _ _ _ _ _ _ _ _ _ HL a p La Lp) as (Aa & Ba & Eaa).
          { split; [done|]. intros k Hk Hk' _. exfalso.
            by apply (up_not_cut xy pin labq pg L W g HO R P M K St seg HL r Lr Hnk p Lp Hrp k Hk). }
          assert (Ba = []) as ->.
          { destruct Ba as [|i Ba _] using rev_ind; [done|]. exfalso.
            pose proof (l_dup _ _ _ _ _ _ _ _ _ _ _ _ _ HL a La) as NDa.
            rewrite Eaa in NDa. apply NoDup_app in NDa as (_ & _ & NDa). apply NoDup_app in NDa as (_ & NDa & _).
            assert (last (seg a) = Some z) as Hla. { rewrite Ea, last_app, A6. done. }
            rewrite Eaa, !app_assoc, last_snoc in Hla. injection Hla as ->.
            apply (NDa z); [rewrite Ep; apply elem_of_app; auto|]. apply elem_of_app. right. by apply elem_of_list_singleton. }
          rewrite app_nil_r, Ep, app_assoc in Eaa. rewrite Ea in Eaa. apply app_inv_tail in Eaa as ->.
          by rewrite last_app, Hp1. }
        split.
        { intros q. rewrite F4. destruct (decide (q = z)) as [->|].
          - intros _. right. split; [done|]. apply elem_of_app. right. by apply elem_of_list_singleton.
          - intros H. left. auto. }
        split; [intros q Hq; apply elem_of_app; auto|].
        intros q [?|?%elem_of_list_singleton]%elem_of_app; auto.
      + exists R2, P3, M. split; [done|]. split; [by eapply psame_trans|]. split; [done|]. split; [done|].
        split; [done|]. split; [done|]. split; [intros; by apply T3|].
        split.
        { intros A' a v H La Hra Hne Ea. exfalso. apply Hc. right.
          assert (W p a) as Hpa by (destruct (Hpm a La Hra); done).
          destruct (l_nest _ _ _ _ _ _ _ _ _ _ _ _ _ HL a p La Lp) as (Aa & Ba & Eaa).
          { split; [done|]. intros k Hk Hk' _. exfalso.
            by apply (up_not_cut xy pin labq pg L W g HO R P M K St seg HL r Lr Hnk p Lp Hrp k Hk). }
          assert (last (seg a) = Some z) as Hla. { rewrite Ea, last_app, A6. done. }
          destruct Ba as [|i Ba _] using rev_ind.
          - rewrite app_nil_r in Eaa. rewrite Eaa, last_app, B6 in Hla. congruence.
          - exfalso. pose proof (l_dup _ _ _ _ _ _ _ _ _ _ _ _ _ HL a La) as NDa.
            rewrite Eaa in NDa. apply NoDup_app in NDa as (_ & _ & NDa). apply NoDup_app in NDa as (_ & NDa & _).
            rewrite Eaa, !app_assoc, last_snoc in Hla. injection Hla as ->.
            apply (NDa z); [rewrite Ep; rewrite !elem_of_app; auto|]. apply elem_of_app. right. by apply elem_of_list_singleton. }
        split; [intros q Hq; left; auto|]. auto.
    - exists R1, P2, M. split; [done|]. split; [by eapply psame_trans|]. split; [by rewrite HR1, set2_shape|]. split.
      { intros y a Ha. rewrite HR1, get2_set2, Har. destruct (decide (y = r)) as [->|Hyr].
        + assert (a = ar) as -> by congruence. eexists. split; [done|]. split; [|done].
          unfold dchange; cbn. rewrite decide_True by done. done.
        + exists a. split; [done|]. split; [|done]. unfold dchange. rewrite !decide_False by congruence. done. }
      split; [done|]. split; [done|]. split; [intros; by apply T2|].
      split; [intros A' a v _ La Hra Hne; by destruct (Hnp a La Hra Hne)|].
      split; [intros q Hq; left; auto|]. auto. }
  
  destruct (HR2 r ar Har) as (ar2 & Har2 & Hdc & Htl). rewrite Har2.
  destruct (set_prev_eff P4 h None) as (P5 & -> & S5 & V5 & N5 & F5). { by apply (psame_dom P P4). }
  assert (psame P P5) as S15 by (by eapply psame_trans).
  destruct (set_next_eff P5 z None) as (P6 & -> & S6 & N6 & V6 & F6). { by apply (psame_dom P P5). }
  assert (psame P P6) as S16 by (by eapply psame_trans).
  assert (psame P4 P6) as S46 by (by eapply psame_trans).
  assert (forall v y, rt P4 v y -> rt P6 v y) as T6.
  { intros v y H. apply (rt_frame P4 P6 S46 v y H). intros q. left. by rewrite F6, F5. }
  eexists _, z. split; [done|]. cbn [e_regs e_pts e_mp]. split; [done|]. split; [by rewrite set2_shape|].
  assert (forall y a, get2 R y = Some a -> exists a', get2 (set2 R2 r (wset_tail ar2 (Some z))) y = Some a' /\
    dchange r par (w_un ar) y a a' /\ w_tail a' = (if decide (y = r) then Some z else w_tail a)) as HR6.
  { intros y a Ha. rewrite get2_set2, Har2. destruct (HR2 y a Ha) as (a' & B1 & B2 & B3).
    destruct (decide (y = r)) as [->|Hyr].
    - assert (a' = ar2) as -> by congruence. assert (a = ar) as -> by congruence. eexists. split; [done|].
      split; [exact B2|done].
    - exists a'. done. }
  split; [exact HR6|].
  eapply (disc_lists xy pin labq pg L W g HO R P M K St seg HL r Lr Hnk Hst _ P6 M' z t par (w_un ar) HR6 A6);
    [eauto|done| | | | | |done|done].
  - (* links *)
    intros A' B' top Ltop Hrtop Htop' E'.
    assert (top = u0) as ->.
    { destruct (o_lin _ _ _ _ _ _ HO r top u0 Ltop Hu Hrtop Hru) as [H|H]; [symmetry; by apply Htop'|by apply Htop]. }
    assert (A' = A /\ B' = B) as [-> ->].
    { pose proof (l_dup _ _ _ _ _ _ _ _ _ _ _ _ _ HL u0 Hu) as ND. rewrite E' in ND.
      apply NoDup_app in ND as (_ & NAL2 & _).
      rewrite E in E'. destruct (seg r) as [|i l] eqn:Hsr; [done|].
      assert (i ∉ A) as Q1. { intros H. apply (NAL i H). apply elem_of_app. left. apply elem_of_cons; auto. }
      assert (i ∉ A') as Q2. { intros H. apply (NAL2 i H). apply elem_of_app. left. apply elem_of_cons; auto. }
      destruct (split_unique i l A B A' B' E' Q1 Q2). auto. }
    split; intros q.
    + rewrite N6, N5, N4, N2, N1. destruct (decide (q = z)); [done|]. done.
    + rewrite V6, V5, V4, V2, V1, A3.
      destruct (decide (q = h)) as [->|]; [by rewrite decide_True|by rewrite (decide_False (P := Some q = Some h)) by congruence].
  - intros v y H (_ & _ & _ & _ & _ & Hy). apply T6, T4; auto.
  - intros v y H Hy. apply T6, T4; auto.
  - intros A' a v H La Hra Hne Ea. destruct (T4' A' a v H La Hra Hne Ea) as (p & Hp & H'). exists p. auto.
  - intros q Hq. apply F4. by rewrite <-F5, <-F6.
Qed.

(* ---------- one list put behind another ---------- *)
Definition joinseg (seg : rref -> list rref) (r s y : rref) : list rref :=
  if decide (y = r) then seg r ++ seg s else seg y.

Lemma append_ok (L : rref -> Prop) (W : rref -> rref -> Prop) g (L' : rref -> Prop) (W' : rref -> rref -> Prop) g' (X : rref -> Prop) R P M St seg r s ar c :
  order L W g -> lists L W g R P M [r; s] St seg -> r <> s -> ~ W r s ->
  (forall q, pin q -> X (labq q)) -> (forall y, L y -> X y) ->
  (forall x, X x -> W x s \/ ~ W x s) ->
  (forall y, L' y -> L y) -> (forall y, L y -> y <> s -> L' y) ->
  (forall x y, X x -> L' y -> ~ W x s -> W' x y <-> W x y) ->
  (forall x y, X x -> L' y -> W x s -> W' x y <-> (W x y /\ W y s) \/ W r y) ->
  (forall y, L' y -> g' y = g y) -> get2 R r = Some ar -> get2 R s = Some c ->
  exists st', append (JSt R P M) r s = Some st' /\ psame P (e_pts st') /\
    e_regs st' = set2 R r (wadjust (wset_size (wset_tail ar (w_tail c)) (w_size ar + w_size c) (w_size ar + w_size c)) c)%Z /\
    e_mp st' = M /\
    lists L' W' g' (e_regs st') (e_pts st') M [r] (fun y => St y /\ y <> r) (joinseg seg r s).
Proof.
  intros HO HL Hrs Hnrs HX1 HX2 Hdec HL1 HL2 HW1 HW2 Hg Hgr Hgc.
  assert (L r) as Lr. { apply (l_cut _ _ _ _ _ _ _ _ _ _ _ _ _ HL). apply elem_of_cons; auto. }
  assert (L s) as Ls. { apply (l_cut _ _ _ _ _ _ _ _ _ _ _ _ _ HL). apply elem_of_cons. right. by apply elem_of_list_singleton. }
  assert (L' r) as Lr' by auto.
  destruct (l_reg _ _ _ _ _ _ _ _ _ _ _ _ _ HL r Lr) as (ar0 & hr & zr & tr & A1 & A2 & A3 & A4 & A5 & A6 & A7 & A8 & DA & DA1 & DA2 & DA3).
  destruct (l_reg _ _ _ _ _ _ _ _ _ _ _ _ _ HL s Ls) as (c0 & hs & zs & ts & C1 & C2 & C3 & C4 & C5 & C6 & C7 & C8 & DC & DC1 & DC2 & DC3).
  assert (ar0 = ar) as -> by congruence. assert (c0 = c) as -> by congruence.
  assert (tr = zr) as ->. { destruct A8 as [?|(_ & H & _)]; [done|]. destruct H. apply elem_of_cons; auto. }
  assert (ts = zs) as ->. { destruct C8 as [?|(_ & H & _)]; [done|]. destruct H. apply elem_of_cons. right. by apply elem_of_list_singleton. }
  pose proof (l_chain _ _ _ _ _ _ _ _ _ _ _ _ _ HL r Lr ltac:(left; apply elem_of_cons; auto)) as Dr.
  pose proof (l_chain _ _ _ _ _ _ _ _ _ _ _ _ _ HL s Ls ltac:(left; apply elem_of_cons; right; by apply elem_of_list_singleton)) as Ds.
  assert (owner L W [r; s] r) as Or by (left; apply elem_of_cons; auto).
  assert (owner L W [r; s] s) as Os by (left; apply elem_of_cons; right; by apply elem_of_list_singleton).
  assert (NoDup (seg r ++ seg s)) as ND.
  { apply NoDup_app. split; [by apply (l_dup _ _ _ _ _ _ _ _ _ _ _ _ _ HL)|].
    split; [|by apply (l_dup _ _ _ _ _ _ _ _ _ _ _ _ _ HL)]. intros q Q1 Q2. apply Hrs.
    exact (owners_disjoint xy pin labq pg L W g HO _ _ _ _ _ _ _ _ _ HL Lr Ls Or Os Q1 Q2). }
  unfold append. cbn [e_regs e_pts e_mp]. rewrite A1, C1, A7, C4.
  destruct (set_next_eff P zr (Some hs)) as (P1 & -> & S1 & N1 & V1 & F1).
  { eapply dseg_dom; [exact Dr|]. by apply last_Some_elem_of. }
  destruct (set_prev_eff P1 hs (Some zr)) as (P2 & -> & S2 & V2 & N2 & F2).
  { apply (psame_dom P P1); auto. eapply dseg_dom; [exact Ds|]. by apply head_Some_elem_of. }
  assert (psame P P2) as S12 by (by eapply psame_trans).
  eexists _. split; [done|]. cbn [e_regs e_pts e_mp]. split; [done|]. split; [done|]. split; [done|].
  rewrite C7. set (R' := set2 R r _).
  destruct (put_behind P P2 (seg r) (seg s) zr hs S12 ND A6 C3 Dr Ds) as [Dn Df].
  { intros q. by rewrite N2, N1. } { intros q. by rewrite V2, V1. }
  (* reaching after the change *)
  assert (forall x, X x -> reach W' [r] x r <-> reach W [r; s] x r \/ reach W [r; s] x s) as HRr.
  { intros x Hx. unfold reach. setoid_rewrite elem_of_cons. setoid_rewrite elem_of_list_singleton.
    destruct (Hdec x Hx) as [Hxs|Hxs].
    - rewrite (HW2 x r Hx Lr' Hxs). split.
      + intros _. right. split; [done|]. intros k [-> | ->] _ H; done.
      + intros _. split; [right; by apply (o_refl _ _ _ _ _ _ HO)|]. intros k [-> | H]; [done|]. by apply elem_of_nil in H.
    - rewrite (HW1 x r Hx Lr' Hxs). split.
      + intros [H _]. left. split; [done|]. intros k [-> | ->]; done.
      + intros [[H _]|[H _]]; [|done]. split; [done|]. intros k [-> | H']; [done|]. by apply elem_of_nil in H'. }
  assert (forall x a, X x -> L' a -> a <> r -> reach W' [r] x a <-> reach W [r; s] x a) as HRa.
  { intros x a Hx La Har. pose proof (HL1 a La) as La0. unfold reach. setoid_rewrite elem_of_cons. setoid_rewrite elem_of_list_singleton.
    pose proof (HW1 r a (HX2 r Lr) La Hnrs) as Hra.
    destruct (Hdec x Hx) as [Hxs|Hxs].
    - rewrite (HW2 x a Hx La Hxs). split.
      + intros [H1 H2]. assert (~ W r a) as Hn.
        { intros H. apply Har. symmetry. apply H2; [by left| |by apply Hra].
          apply (HW2 x r Hx Lr' Hxs). right. by apply (o_refl _ _ _ _ _ _ HO). }
        destruct H1 as [[H1 H3]|]; [|done]. split; [done|]. intros k [-> | ->] K1 K2; [done|].
        by apply (o_anti pin labq pg L W g HO).
      + intros [H1 H2]. assert (W a s) as Has.
        { destruct (o_lin _ _ _ _ _ _ HO x a s La0 Ls H1 Hxs) as [|H]; [done|].
          rewrite <-(H2 s); auto. by apply (o_refl _ _ _ _ _ _ HO). }
        split; [by left|]. intros k [-> | H]; [|by apply elem_of_nil in H]. intros _ H. exfalso.
        apply Hra in H. apply Hnrs. by apply (o_trans _ _ _ _ _ _ HO r a s).
    - rewrite (HW1 x a Hx La Hxs). split.
      + intros [H1 H2]. split; [done|]. intros k [-> | ->] K1 K2; [|done].
        apply H2; auto; [|by apply Hra]. by apply (HW1 x r Hx Lr' Hxs).
      + intros [H1 H2]. split; [done|]. intros k [-> | H]; [|by apply elem_of_nil in H]. intros K1 K2.
        apply H2; auto; [|by apply Hra]. by apply (HW1 x r Hx Lr' Hxs). }
  assert (forall a, a <> r -> joinseg seg r s a = seg a) as Hja. { intros a Ha. unfold joinseg. by rewrite decide_False. }
  assert (joinseg seg r s r = seg r ++ seg s) as Hjr. { unfold joinseg. by rewrite decide_True. }
  assert (forall v y, rt P v y -> rt P2 v y) as T2.
  { intros v y H. apply (rt_frame P P2 S12 v y H). intros q. left. by rewrite F2, F1. }
  assert (forall D : list rref, (forall q, q ∈ D -> exists k, k ∈ [r; s] /\ q ∈ seg k) -> forall q, q ∈ D -> q ∈ seg r ++ seg s) as HDs.
  { intros D H q Hq. destruct (H q Hq) as (k & Hk & Hqk). apply elem_of_app.
    apply elem_of_cons in Hk as [->|Hk%elem_of_list_singleton]; [auto|subst; auto]. }
  constructor.
  - intros k ->%elem_of_list_singleton. done.
  - intros a La. destruct (decide (a = r)) as [->|Ha]; [by rewrite Hjr|]. rewrite Hja by done.
    apply (l_dup _ _ _ _ _ _ _ _ _ _ _ _ _ HL). auto.
  - intros a q La. destruct (decide (a = r)) as [->|Ha].
    + rewrite Hjr, elem_of_app, (l_mem _ _ _ _ _ _ _ _ _ _ _ _ _ HL r q Lr), (l_mem _ _ _ _ _ _ _ _ _ _ _ _ _ HL s q Ls).
      split; [intros [[Hp H]|[Hp H]]; (split; [done|]); apply HRr; auto|].
      intros [Hp H]. apply HRr in H; [tauto|auto].
    + rewrite Hja by done. rewrite (l_mem _ _ _ _ _ _ _ _ _ _ _ _ _ HL a q) by auto.
      split; intros [Hp H]; (split; [done|]); apply (HRa (labq q) a); auto.
  - intros a La. destruct (decide (a = r)) as [->|Ha].
    + eexists _, hr, zs, zs. unfold R'. rewrite (get2_set2_eq _ _ _ _ A1), Hjr. split; [done|]. cbn.
      split; [rewrite (Hg r); auto|]. split. { destruct (seg r); [done|]. exact A3. }
      split; [done|]. split; [rewrite (Hg r); auto|]. split; [by rewrite last_app, C6|]. split; [done|]. split; [by left|].
      exists []. split; [by intros q ?%elem_of_nil|]. split; [by left|]. rewrite app_nil_r.
      assert (isbox xy (wset_size (wset_tail ar (Some zs)) (w_size ar + w_size c)%Z (w_size ar + w_size c)%Z) (seg r ++ DA)) as DA3'.
      { eapply isbox_same; [|exact DA3]. done. }
      pose proof (isbox_adjust _ _ _ _ _ DA3' DC3) as Hb.
      eapply isbox_ext; [|exact Hb]. intros q. rewrite !elem_of_app. split; [|tauto].
      intros [[?|H]|[?|H]]; try tauto; [apply (HDs DA DA1) in H|apply (HDs DC DC1) in H]; by apply elem_of_app.
    + destruct (l_reg _ _ _ _ _ _ _ _ _ _ _ _ _ HL a (HL1 a La)) as (b & h & z & t & B1 & B2 & B3 & B4 & B5 & B6 & B7 & B8 & D & D1 & D2 & D3).
      exists b, h, z, t. rewrite Hja by done. unfold R'. rewrite get2_set2_ne by done.
      split; [done|]. split; [rewrite (Hg a); auto|]. split; [done|]. split; [done|]. split; [rewrite (Hg a); auto|].
      split; [done|]. split; [done|]. split.
      * destruct B8 as [?|(S3 & K3 & T3)]; [by left|]. right. split; [done|]. split; [|auto]. by intros ->%elem_of_list_singleton.
      * exists D. split; [|split; [destruct D2; auto|done]]. intros q Hq. exists r. split; [by apply elem_of_list_singleton|].
        rewrite Hjr. by eapply HDs.
  - intros a y La Ly Hre. destruct (decide (a = r)) as [->|Ha].
    + destruct (decide (y = r)) as [->|Hy]. { exists [], []. by rewrite app_nil_r. }
      rewrite Hjr, Hja by done. apply HRr in Hre; [|by apply HX2, HL1].
      destruct Hre as [Hre|Hre].
      * destruct (l_nest _ _ _ _ _ _ _ _ _ _ _ _ _ HL r y Lr (HL1 y Ly) Hre) as (A & B & ->).
        exists A, (B ++ seg s). by rewrite <-!app_assoc.
      * destruct (l_nest _ _ _ _ _ _ _ _ _ _ _ _ _ HL s y Ls (HL1 y Ly) Hre) as (A & B & ->).
        exists (seg r ++ A), B. by rewrite <-!app_assoc.
    + destruct (decide (y = r)) as [->|Hy].
      { exfalso. destruct Hre as [H1 H2]. apply Ha. symmetry. apply H2; auto; [by apply elem_of_list_singleton|].
        apply (HW1 r r); auto. by apply (o_refl _ _ _ _ _ _ HO). }
      rewrite !Hja by done. apply (HRa y a) in Hre; auto. apply (l_nest _ _ _ _ _ _ _ _ _ _ _ _ _ HL); auto.
  - intros a La Ho. destruct (decide (a = r)) as [->|Ha]; [by rewrite Hjr|]. rewrite Hja by done.
    destruct Ho as [?%elem_of_list_singleton|Ho]; [done|].
    assert (~ W a s) as Hns.
    { intros H. apply Ha. symmetry. apply Ho; auto. apply (HW2 a r); auto. right. by apply (o_refl _ _ _ _ _ _ HO). }
    assert (owner L W [r; s] a) as Oa.
    { right. intros z Lz Hz. destruct (decide (z = s)) as [->|]; [done|]. apply Ho; auto. apply (HW1 a z); auto. }
    apply Df.
    + intros q Qa [Qr|Qs]%elem_of_app.
      * apply Ha. exact (owners_disjoint xy pin labq pg L W g HO _ _ _ _ _ _ _ _ _ HL (HL1 a La) Lr Oa Or Qa Qr).
      * apply Hns. rewrite (owners_disjoint xy pin labq pg L W g HO _ _ _ _ _ _ _ _ _ HL (HL1 a La) Ls Oa Os Qa Qs).
        by apply (o_refl _ _ _ _ _ _ HO).
    + apply (l_chain _ _ _ _ _ _ _ _ _ _ _ _ _ HL); auto.
  - intros q Hpq Hq. rewrite F2, F1 in Hq. destruct (l_ref _ _ _ _ _ _ _ _ _ _ _ _ _ HL q Hpq Hq) as (Hm & k & Hk & Hqk).
    split; [done|]. exists r. split; [by apply elem_of_list_singleton|]. rewrite Hjr. apply elem_of_app.
    apply elem_of_cons in Hk as [->|Hk%elem_of_list_singleton]; [auto|subst; auto].
  - intros q Hq. apply (psame_dom P P2 q S12). by apply (l_marks _ _ _ _ _ _ _ _ _ _ _ _ _ HL).
Qed.
End cut.
