(* Preservation of the flooding invariant, termination, and the final tree. *)
From stdpp Require Import sorting relations functions list.
From Verif Require Import Spec FloodAbs FloodAbsInv.

Section proof.
Context (G : pgraph) (HG : graph_ok G).

Notation InvA := (InvA G).
Notation InvB := (InvB G).
Notation InvC := (InvC G).

Lemma creg_root px cur comps regs c : InvB px cur comps regs -> c ∈ comps -> isroot regs (cr c).
Proof. intros HB Hc. destruct (i_creg _ _ _ _ _ HB c Hc) as (a & ? & ? & ?). exists a; auto. Qed.

Lemma comps_cr_inj px cur comps regs c c' : InvB px cur comps regs ->
  c ∈ comps -> c' ∈ comps -> cr c = cr c' -> c = c'.
Proof.
  intros HB Hc Hc' He. pose proof (i_nodup _ _ _ _ _ HB) as Hnd.
  apply elem_of_list_lookup in Hc as [i Hi]. apply elem_of_list_lookup in Hc' as [j Hj].
  assert (i = j) as ->.
  { eapply NoDup_lookup; [exact Hnd| |]; rewrite list_lookup_fmap.
    - rewrite Hi. reflexivity.
    - rewrite Hj. simpl. by rewrite He. }
  congruence.
Qed.

Lemma below_unique px cur comps regs c c' p : InvB px cur comps regs ->
  c ∈ comps -> c' ∈ comps -> below px regs (cr c) p -> below px regs (cr c') p -> c = c'.
Proof.
  intros HB Hc Hc' (x & Hx & H1) (y & Hy & H2).
  assert (x = y) as <- by congruence.
  eapply comps_cr_inj; [exact HB|exact Hc|exact Hc'|].
  eapply under_root_unique; [by eapply creg_root|by eapply creg_root|exact H1|exact H2].
Qed.

Lemma below_ext px px' regs regs' r p :
  (forall q x, px q = PD x <-> px' q = PD x) ->
  (forall x, under regs x r <-> under regs' x r) ->
  below px regs r p <-> below px' regs' r p.
Proof.
  intros H1 H2. split; intros (x & Hx & Hu); exists x; (split; [by apply H1|by apply H2]).
Qed.

Lemma closed_ext px px' regs regs' r a :
  (forall q x, px q = PD x <-> px' q = PD x) ->
  (forall x, under regs x r <-> under regs' x r) ->
  closed_reg G px regs r a -> closed_reg G px' regs' r a.
Proof.
  intros H1 H2 [(p & Hp) [Hn Hm] Hc]. constructor.
  - exists p. by apply H1.
  - split; auto. intros q. rewrite Hm. by apply below_ext.
  - intros q q' Hq. rewrite <-(below_ext px px' regs regs' r q' H1 H2).
    apply Hc. by apply (below_ext px px' regs regs' r q H1 H2).
Qed.

(* finished pixels unchanged, waiting pixels may grow *)
Lemma invB_px px px' cur comps regs :
  (forall q x, px q = PD x <-> px' q = PD x) ->
  (forall q d, px q = PW d -> exists d', px' q = PW d') ->
  InvB px cur comps regs -> InvB px' cur comps regs.
Proof.
  intros H1 H2 HB.
  assert (forall r p, below px regs r p <-> below px' regs r p) as Hb.
  { intros. apply below_ext; auto. }
  destruct HB as [B1 B2 B3 B4 B5 B6 B7 B8]. constructor; auto.
  - intros p r Hp. apply H1 in Hp. eauto.
  - intros c q p Hc Hq Ha. apply Hb in Hq.
    destruct (B5 c q p Hc Hq Ha) as [H|[(d & Hd) Hg]]; [left; by apply Hb|].
    right; split; auto. by eapply H2.
  - intros c q Hc Hq. apply B6; auto. by apply Hb.
  - intros c Hc. destruct (B7 c Hc) as [Hn Hm]. split; auto. intros p. by rewrite Hm.
  - intros r a Hr Hn. destruct (B8 r a Hr Hn) as [Hcl Hp]. split; auto.
    eapply closed_ext; [..|exact Hcl]; auto.
Qed.

Lemma invB_retarget px cur cur' L comps regs :
  conn G L cur' cur -> (forall c, c ∈ comps -> L <= cg c) ->
  InvB px cur comps regs -> InvB px cur' comps regs.
Proof.
  intros Hc HL [B1 B2 B3 B4 B5 B6 B7 B8]. constructor; auto.
  intros c q Hin Hq. eapply conn_trans; [by apply B6|].
  eapply conn_mono; [by apply HL|]. by apply conn_sym.
Qed.

(* a fresh, empty component may be inserted anywhere the levels allow *)
Lemma invB_insert px cur l1 l2 regs g :
  InvB px cur (l1 ++ l2) regs ->
  StronglySorted lt (map cg (l1 ++ AComp g (length regs) [] :: l2)) ->
  InvB px cur (l1 ++ AComp g (length regs) [] :: l2) (regs ++ [AReg g None []]).
Proof.
  intros HB Hs. destruct HB as [B1 B2 B3 B4 B5 B6 B7 B8].
  set (cn := AComp g (length regs) []). set (rn := AReg g None []).
  assert (forall x y, under (regs ++ [rn]) x y <-> under regs x y) as Hu.
  { intros. by apply under_app. }
  assert (forall p r, px p = PD r -> r < length regs) as Hlen.
  { intros p r Hp. destruct (B4 p r Hp) as [(a & Ha & _) _]. by eapply lookup_lt_Some. }
  assert (forall c, c ∈ l1 ++ l2 -> cr c < length regs) as Hcr.
  { intros c Hc. destruct (B3 c Hc) as (a & Ha & _). by eapply lookup_lt_Some. }
  assert (forall p, ~ below px (regs ++ [rn]) (length regs) p) as Hno.
  { intros p (x & Hx & Hux). apply Hu in Hux. destruct (B4 p x Hx) as [_ (c & Hc & Hxc)].
    pose proof (Hlen _ _ Hx). apply rtc_inv_r in Hux as [->|(y & _ & Hy)]; [lia|].
    destruct Hy as (a & Ha & Hp).
    destruct (decide (y ∈ map cr (l1 ++ l2))) as [Hin|Hin].
    - apply elem_of_list_fmap in Hin as (c' & -> & Hc'). destruct (B3 c' Hc') as (a' & ? & ? & ?).
      congruence.
    - destruct (B8 y a Ha Hin) as [_ (t & b & Ht & Hb & _)]. simplify_eq.
      apply lookup_lt_Some in Hb. lia. }
  assert (forall r p, below px (regs ++ [rn]) r p <-> below px regs r p) as Hb.
  { intros. apply below_ext; [done|auto]. }
  assert (forall c, c ∈ l1 ++ cn :: l2 <-> c = cn \/ c ∈ l1 ++ l2) as Hin.
  { intros c. rewrite !elem_of_app, elem_of_cons. tauto. }
  constructor; auto.
  - rewrite map_app. simpl. rewrite map_app in B2.
    assert (length regs ∉ map cr l1 ++ map cr l2) as Hx.
    { rewrite <-map_app. intros Hi. apply elem_of_list_fmap in Hi as (c & Hc1 & Hc2).
      apply Hcr in Hc2. lia. }
    rewrite elem_of_app in Hx.
    apply NoDup_app in B2 as (N1 & N2 & N3). apply NoDup_app. split; auto. split.
    + intros x Hx1. rewrite elem_of_cons. intros [->|Hx2]; [tauto|]. by eapply N2.
    + constructor; [tauto|auto].
  - intros c Hc. apply Hin in Hc as [->|Hc].
    + exists rn. simpl. rewrite lookup_app_r by lia. by rewrite Nat.sub_diag.
    + destruct (B3 c Hc) as (a & Ha & ?). exists a. split; auto. by apply lookup_app_l_Some.
  - intros p r Hp. destruct (B4 p r Hp) as [(a & Ha & Hg) (c & Hc & Huc)]. split.
    + exists a. split; auto. by apply lookup_app_l_Some.
    + exists c. split; [apply Hin; auto|by apply Hu].
  - intros c q p Hc Hq Ha. apply Hin in Hc as [->|Hc]; [by apply Hno in Hq|].
    apply Hb in Hq. rewrite Hb. by eapply B5.
  - intros c q Hc Hq. apply Hin in Hc as [->|Hc]; [by apply Hno in Hq|].
    apply B6; auto. by apply Hb.
  - intros c Hc. apply Hin in Hc as [->|Hc].
    + split; [constructor|]. intros p. split; [intros H; inversion H|]. intros H; by apply Hno in H.
    + destruct (B7 c Hc) as [Hn Hm]. split; auto. intros p. by rewrite Hm, Hb.
  - intros r a Hr Hni.
    apply lookup_app_Some in Hr as [Hr|[Hr1 Hr2]].
    + destruct (B8 r a Hr) as [Hcl (t & b & Ht & Hbt & Hlt)].
      { intros Hi. apply Hni. apply elem_of_list_fmap in Hi as (c & -> & Hc).
        apply elem_of_list_fmap. exists c; split; auto. by apply Hin; right. }
      split.
      * eapply closed_ext; [..|exact Hcl]; [done|]. intros; by rewrite Hu.
      * exists t, b. split; auto. split; auto. by apply lookup_app_l_Some.
    + destruct (r - length regs) as [|k] eqn:E; simpl in Hr2; simplify_eq.
      exfalso. apply Hni. apply elem_of_list_fmap. exists cn. split; [simpl; lia|]. apply Hin; auto.
Qed.

(* [set_rl] changes nothing but the member list of one region *)
Lemma invB_set_rl px cur comps regs c l :
  c ∈ comps -> InvB px cur comps regs -> InvB px cur comps (set_rl regs (cr c) l).
Proof.
  intros Hc HB. destruct (i_creg _ _ _ _ _ HB c Hc) as (a & Ha & Hpa & Hga).
  destruct HB as [B1 B2 B3 B4 B5 B6 B7 B8].
  pose proof (set_rl_lookup regs (cr c) l a) as Hl.
  assert (forall x y, under (set_rl regs (cr c) l) x y <-> under regs x y) as Hu.
  { intros. apply under_set_rl. }
  assert (forall r p, below px (set_rl regs (cr c) l) r p <-> below px regs r p) as Hb.
  { intros. apply below_ext; [done|auto]. }
  constructor; auto.
  - intros c' Hc'. destruct (B3 c' Hc') as (a' & Ha' & Hp' & Hg').
    rewrite (Hl (cr c') Ha). case_decide as E; [|eauto].
    rewrite E in Ha'. simplify_eq. eexists; split; [done|]. simpl; auto.
  - intros p r Hp. destruct (B4 p r Hp) as [(a' & Ha' & Hg') (c' & Hc' & Hu')]. split.
    + rewrite (Hl r Ha). case_decide as E; [|eauto]. subst. simplify_eq. eexists; split; [done|]. done.
    + exists c'; split; auto. by apply Hu.
  - intros c' q p Hc' Hq Hadj. rewrite Hb in *. by eapply B5.
  - intros c' q Hc' Hq. rewrite Hb in *. by apply B6.
  - intros c' Hc'. destruct (B7 c' Hc') as [Hn Hm]. split; auto. intros p. by rewrite Hm, Hb.
  - intros r a' Hr Hni. rewrite (Hl r Ha) in Hr. case_decide as E.
    { subst. exfalso. apply Hni. apply elem_of_list_fmap. eauto. }
    destruct (B8 r a' Hr Hni) as [Hcl (t & b & Ht & Hbt & Hlt)]. split.
    + eapply closed_ext; [..|exact Hcl]; [done|]. intros; by rewrite Hu.
    + exists t. rewrite (Hl t Ha). case_decide as E2; [|by eauto]. subst. simplify_eq. eexists. simpl. eauto.
Qed.

(* all waiting pixels are above level [cg c]: the component is complete *)
Lemma comp_closed px cur comps regs c p q :
  InvB px cur comps regs -> c ∈ comps ->
  (forall x d, px x = PW d -> cg c < g_gray G x) ->
  below px regs (cr c) p -> (below px regs (cr c) q <-> conn G (cg c) p q).
Proof.
  intros HB Hc Hw Hp. split.
  - intros Hq. eapply conn_trans; [by eapply i_conn|]. apply conn_sym; auto. by eapply i_conn.
  - intros (Hn & _ & _ & _ & Hr). revert Hp.
    induction Hr as [x|x y z (Hx & Hxy & Hgx & Hgy) _ IH]; auto.
    intros Hb. apply IH. { by eapply gok_closed. }
    destruct (i_adj _ _ _ _ _ HB c x y Hc Hb Hxy) as [H|[(d & Hd) _]]; auto.
    apply Hw in Hd. lia.
Qed.

(* merging the completed top component into the next one *)
Lemma invB_merge px cur c c2 rest regs :
  InvB px cur (c :: c2 :: rest) regs ->
  (exists p, px p = PD (cr c)) ->
  (forall a, regs !! cr c = Some a -> rl a = cl c) ->
  (forall x d, px x = PW d -> cg c2 <= g_gray G x) ->
  InvB px cur (AComp (cg c2) (cr c2) (cl c2 ++ cl c) :: rest) (set_par regs (cr c) (cr c2)).
Proof.
  intros HB Hown Hrl Hw.
  assert (c ∈ c :: c2 :: rest) as Hc1 by (apply elem_of_cons; auto).
  assert (c2 ∈ c :: c2 :: rest) as Hc2 by (apply elem_of_cons; right; apply elem_of_cons; auto).
  pose proof (creg_root _ _ _ _ _ HB Hc1) as Ra. pose proof (creg_root _ _ _ _ _ HB Hc2) as Rb.
  assert (cr c <> cr c2) as Hne.
  { pose proof (i_nodup _ _ _ _ _ HB) as H. simpl in H. apply NoDup_cons in H as [H _].
    rewrite elem_of_cons in H. tauto. }
  assert (cg c < cg c2) as Hlt.
  { pose proof (i_sorted _ _ _ _ _ HB) as H. simpl in H. inversion H as [|?? _ H']; subst.
    by inversion H'. }
  destruct (i_creg _ _ _ _ _ HB c Hc1) as (a & Ha & Hpa & Hga).
  destruct (i_creg _ _ _ _ _ HB c2 Hc2) as (b & Hb & Hpb & Hgb).
  set (c' := AComp (cg c2) (cr c2) (cl c2 ++ cl c)).
  set (regs' := set_par regs (cr c) (cr c2)).
  assert (forall x y, under regs' x y <-> under regs x y \/ (under regs x (cr c) /\ y = cr c2)) as Hu.
  { intros. by apply under_set_par. }
  assert (forall p, below px regs' (cr c2) p <-> below px regs (cr c) p \/ below px regs (cr c2) p) as Hbl.
  { intros p. split.
    - intros (x & Hx & Hux). apply Hu in Hux as [Hux|[Hux _]]; [right|left]; exists x; auto.
    - intros [(x & Hx & Hux)|(x & Hx & Hux)]; exists x; (split; [done|]); apply Hu; auto. }
  assert (forall r p, r <> cr c2 -> below px regs' r p <-> below px regs r p) as Hbo.
  { intros r p Hr. split; intros (x & Hx & Hux); exists x; (split; [done|]).
    - apply Hu in Hux as [?|[_ ?]]; [done|congruence].
    - apply Hu; auto. }
  pose proof (fun x => set_par_lookup regs (cr c) (cr c2) a x Ha) as Hl. fold regs' in Hl.
  assert (forall c0, c0 ∈ rest -> cr c0 <> cr c /\ cr c0 <> cr c2) as Hrest.
  { intros c0 H0. pose proof (i_nodup _ _ _ _ _ HB) as H. simpl in H.
    apply NoDup_cons in H as [H1 H2]. apply stdpp.list.NoDup_cons in H2 as [H2 _].
    rewrite elem_of_cons in H1.
    assert (cr c0 ∈ map cr rest) by (apply elem_of_list_fmap; eauto).
    split; intros E; rewrite E in *; tauto. }
  assert (forall c0, c0 ∈ rest -> c0 ∈ c :: c2 :: rest) as Hsub.
  { intros c0 H0. rewrite !elem_of_cons. auto. }
  constructor.
  - pose proof (i_sorted _ _ _ _ _ HB) as H. simpl in *. by inversion H.
  - pose proof (i_nodup _ _ _ _ _ HB) as H. simpl in *. by apply NoDup_cons in H as [_ H].
  - intros c0 H0. rewrite Hl. apply elem_of_cons in H0 as [->|H0].
    + simpl. case_decide; [congruence|]. eauto.
    + destruct (Hrest _ H0). case_decide; [congruence|]. eapply i_creg; eauto.
  - intros p r Hp. destruct (i_lab _ _ _ _ _ HB p r Hp) as [(ar & Har & Hgr) (c0 & H0 & Hu0)]. split.
    + rewrite Hl. case_decide; [|eauto]. subst. simplify_eq. eexists; split; [done|]. done.
    + rewrite !elem_of_cons in H0. destruct H0 as [->|[->|H0]].
      * exists c'. split; [apply elem_of_cons; auto|]. apply Hu. auto.
      * exists c'. split; [apply elem_of_cons; auto|]. apply Hu. auto.
      * exists c0. split; [apply elem_of_cons; auto|]. apply Hu. auto.
  - intros c0 q p H0 Hq Hadj. apply elem_of_cons in H0 as [->|H0].
    + simpl in *. rewrite Hbl in *. destruct Hq as [Hq|Hq].
      * destruct (i_adj _ _ _ _ _ HB c q p Hc1 Hq Hadj) as [?|[(d & Hd) Hg]]; [tauto|].
        right. split; [eauto|]. by eapply Hw.
      * destruct (i_adj _ _ _ _ _ HB c2 q p Hc2 Hq Hadj) as [?|?]; tauto.
    + destruct (Hrest _ H0). rewrite Hbo in * by auto. by eapply i_adj; eauto.
  - intros c0 q H0 Hq. apply elem_of_cons in H0 as [->|H0].
    + simpl in *. rewrite Hbl in *. destruct Hq as [Hq|Hq].
      * apply conn_mono with (cg c); [lia|]. by eapply i_conn.
      * by eapply i_conn.
    + destruct (Hrest _ H0). rewrite Hbo in * by auto. by eapply i_conn; eauto.
  - intros c0 H0. apply elem_of_cons in H0 as [->|H0].
    + simpl. destruct (i_list _ _ _ _ _ HB c Hc1) as [N1 M1]. destruct (i_list _ _ _ _ _ HB c2 Hc2) as [N2 M2].
      split.
      * apply NoDup_app. split; auto. split; auto. intros x Hx1 Hx2.
        apply M1 in Hx2. apply M2 in Hx1.
        assert (c = c2) by (eapply below_unique; eauto). subst. congruence.
      * intros p. rewrite elem_of_app, M1, M2, Hbl. tauto.
    + destruct (Hrest _ H0). destruct (i_list _ _ _ _ _ HB c0 (Hsub _ H0)) as [N1 M1].
      split; auto. intros p. by rewrite M1, Hbo.
  - intros r a0 Hr Hni. rewrite Hl in Hr. simpl in Hni. rewrite elem_of_cons in Hni.
    case_decide as E.
    + subst r. simplify_eq. simpl. split.
      * constructor; auto; simpl.
        -- rewrite (Hrl a Ha). destruct (i_list _ _ _ _ _ HB c Hc1) as [N1 M1]. split; auto.
           intros p. by rewrite Hbo.
        -- intros p q Hp. rewrite Hbo in * by auto. rewrite Hga. eapply comp_closed; eauto.
           intros x d Hx. apply Hw in Hx. lia.
      * exists (cr c2), b. split; auto. rewrite Hl. case_decide; [congruence|]. split; auto. lia.
    + destruct (i_closed _ _ _ _ _ HB r a0 Hr) as [Hcl (t & bt & Ht & Hbt & Hltt)].
      { simpl. rewrite !elem_of_cons. tauto. }
      split.
      * eapply closed_ext; [..|exact Hcl]; [done|]. intros x. rewrite Hu. split; auto.
        intros [?|[_ ->]]; auto. exfalso. tauto.
      * exists t. rewrite Hl. case_decide as E2; [|by eauto]. subst. simplify_eq. eexists. simpl. eauto.
Qed.

(* finishing the current pixel *)
Lemma invB_finish px cur d heap c rest regs :
  InvA px cur d heap -> d >= g_deg G ->
  InvB px cur (c :: rest) regs -> cg c = g_gray G cur ->
  InvB (<[cur := PD (cr c)]> px) cur (AComp (cg c) (cr c) (cur :: cl c) :: rest) regs.
Proof.
  intros HA Hd HB Hg. set (px' := <[cur := PD (cr c)]> px).
  set (c' := AComp (cg c) (cr c) (cur :: cl c)).
  assert (c ∈ c :: rest) as Hc by (apply elem_of_cons; auto).
  pose proof (creg_root _ _ _ _ _ HB Hc) as Hroot.
  destruct (i_cur _ _ _ _ _ HA) as (Hcn & (d0 & Hcur) & _).
  assert (forall q x, q <> cur -> px' q = PD x <-> px q = PD x) as Hpx.
  { intros q x Hq. unfold px'. by rewrite fn_lookup_insert_ne by auto. }
  assert (px' cur = PD (cr c)) as Hpc by (apply fn_lookup_insert).
  assert (forall r, ~ below px regs r cur) as Hnc.
  { intros r (x & Hx & _). congruence. }
  assert (forall r q, below px' regs r q <-> below px regs r q \/ (q = cur /\ r = cr c)) as Hb.
  { intros r q. destruct (decide (q = cur)) as [->|Hq].
    - split.
      + intros (x & Hx & Hu). rewrite Hpc in Hx. simplify_eq. right. split; auto.
        by eapply under_root_inv.
      + intros [H|[_ ->]]; [by apply Hnc in H|]. exists (cr c). split; auto. apply rtc_refl.
    - split; intros H.
      + left. destruct H as (x & Hx & Hu). apply Hpx in Hx; auto. exists x; auto.
      + destruct H as [(x & Hx & Hu)|[? _]]; [|done]. exists x. rewrite Hpx by auto. auto. }
  assert (forall c0, c0 ∈ rest -> cr c0 <> cr c) as Hrest.
  { intros c0 H0 E. pose proof (i_nodup _ _ _ _ _ HB) as H. simpl in H.
    apply NoDup_cons in H as [H _]. apply H. rewrite <-E. apply elem_of_list_fmap; eauto. }
  assert (forall c0, c0 ∈ rest -> cg c < cg c0) as Hsort.
  { intros c0 H0. pose proof (i_sorted _ _ _ _ _ HB) as H. simpl in H.
    inversion H as [|?? _ HF]; subst. rewrite Forall_forall in HF. apply HF.
    apply elem_of_list_fmap; eauto. }
  assert (forall c0, c0 ∈ rest -> c0 ∈ c :: rest) as Hsub.
  { intros c0 H0. rewrite !elem_of_cons. auto. }
  assert (forall p d1, px p = PW d1 -> p <> cur -> px' p = PW d1) as Hpw.
  { intros p d1 Hp Hq. unfold px'. by rewrite fn_lookup_insert_ne by auto. }
  constructor.
  - by pose proof (i_sorted _ _ _ _ _ HB).
  - by pose proof (i_nodup _ _ _ _ _ HB).
  - intros c0 H0. apply elem_of_cons in H0 as [->|H0]; simpl.
    + by apply (i_creg _ _ _ _ _ HB c).
    + apply (i_creg _ _ _ _ _ HB c0); auto.
  - intros p r Hp. destruct (decide (p = cur)) as [->|Hq].
    + rewrite Hpc in Hp. simplify_eq.
      destruct (i_creg _ _ _ _ _ HB c Hc) as (a & Ha & _ & Hga). split.
      * exists a. split; auto. congruence.
      * exists c'. split; [apply elem_of_cons; auto|]. apply rtc_refl.
    + apply Hpx in Hp; auto.
      destruct (i_lab _ _ _ _ _ HB p r Hp) as [H1 (c0 & H0 & Hu)]. split; auto.
      apply elem_of_cons in H0 as [->|H0].
      * exists c'. split; [apply elem_of_cons; auto|done].
      * exists c0. split; [apply elem_of_cons; auto|done].
  - intros c0 q p H0 Hq Hadj. apply elem_of_cons in H0 as [->|H0]; simpl in *.
    + apply Hb in Hq as [Hq|[-> _]].
      * destruct (i_adj _ _ _ _ _ HB c q p Hc Hq Hadj) as [H|[(d1 & Hd1) Hge]].
        { left. apply Hb; auto. }
        destruct (decide (p = cur)) as [->|Hp]; [left; apply Hb; auto|].
        right. eauto.
      * assert (p <> cur) as Hpne. { intros ->. eapply gok_irrefl; eauto. }
        destruct (px p) as [|d1|r] eqn:Hp.
        -- exfalso. destruct Hadj as (d1 & Hd1 & Hn).
           eapply (i_tour _ _ _ _ _ HA d1 p); eauto. lia.
        -- right. split; [eauto|].
           destruct (i_wait _ _ _ _ _ HA p d1 Hp) as [?|Hin]; [done|].
           destruct (le_lt_dec (cg c) (g_gray G p)) as [|Hlt]; auto.
           rewrite (i_low _ _ _ _ _ HA (g_gray G p)) in Hin by lia. inversion Hin.
        -- left. apply Hb. left.
           destruct (i_lab _ _ _ _ _ HB p r Hp) as [_ (c0 & H0 & Hu)].
           assert (below px regs (cr c0) p) as Hbp by (exists r; auto).
           destruct (i_adj _ _ _ _ _ HB c0 p cur H0 Hbp) as [H|[_ Hle]].
           { by eapply gok_sym. }
           { by apply Hnc in H. }
           apply elem_of_cons in H0 as [->|H0]; auto. apply Hsort in H0. lia.
    + pose proof (Hrest _ H0) as Hr0.
      apply Hb in Hq as [Hq|[_ ?]]; [|done].
      destruct (i_adj _ _ _ _ _ HB c0 q p (Hsub _ H0) Hq Hadj) as [H|[(d1 & Hd1) Hge]].
      { left. apply Hb; auto. }
      right. split; auto. exists d1. apply Hpw; auto. intros ->. apply Hsort in H0. lia.
  - intros c0 q H0 Hq. apply elem_of_cons in H0 as [->|H0]; simpl in *.
    + apply Hb in Hq as [Hq|[-> _]].
      * by eapply i_conn.
      * apply conn_refl; auto. lia.
    + pose proof (Hrest _ H0) as Hr0. apply Hb in Hq as [Hq|[_ ?]]; [|done].
      eapply i_conn; eauto.
  - intros c0 H0. apply elem_of_cons in H0 as [->|H0]; simpl.
    + destruct (i_list _ _ _ _ _ HB c Hc) as [N M]. split.
      * constructor; auto. rewrite M. apply Hnc.
      * intros p. rewrite elem_of_cons, M, Hb. naive_solver.
    + pose proof (Hrest _ H0) as Hr0. destruct (i_list _ _ _ _ _ HB c0 (Hsub _ H0)) as [N M].
      split; auto. intros p. rewrite M, Hb. naive_solver.
  - intros r a Hr Hni. simpl in Hni.
    destruct (i_closed _ _ _ _ _ HB r a Hr Hni) as [[(p & Hp) [N M] Hcc] Hpar]. split; auto.
    assert (r <> cr c) as Hrc. { simpl in Hni. rewrite elem_of_cons in Hni. tauto. }
    assert (forall q, below px' regs r q <-> below px regs r q) as Hb'.
    { intros q. rewrite Hb. naive_solver. }
    constructor.
    + exists p. apply Hpx; auto. intros ->. congruence.
    + split; auto. intros q. by rewrite M, Hb'.
    + intros q q' Hq. rewrite Hb' in *. auto.
Qed.

(* taking the next pixel from the lowest non-empty level *)
Lemma invA_pop px cur d heap r g p hs d1 :
  InvA px cur d heap -> d >= g_deg G ->
  heap g = p :: hs -> px p = PW d1 -> (forall g', g' < g -> heap g' = []) ->
  InvA (<[cur := PD r]> px) p d1 (<[g := hs]> heap).
Proof.
  intros HA Hd Hh Hp Hlow. destruct HA as [A1 A2 A3 A4 A5 A6 A7 A8 A9].
  destruct A1 as (Hcn & (d0 & Hcur) & Hdd).
  assert (p ∈ heap g) as Hin. { rewrite Hh. apply elem_of_cons; auto. }
  destruct (A3 g p Hin) as (Hgp & Hpc & (d1' & Hd1 & Hd1le)).
  assert (d1' = d1) as -> by congruence. subst g.
  assert (p ∉ hs) as Hphs. { pose proof (A4 (g_gray G p)) as H. rewrite Hh in H. by apply NoDup_cons in H as [H _]. }
  assert (forall q, q <> cur -> (<[cur := PD r]> px) q = px q) as Hne.
  { intros q Hq. by rewrite fn_lookup_insert_ne. }
  assert (forall q, px q <> PU -> (<[cur := PD r]> px) q <> PU) as Hnu.
  { intros q Hq. destruct (decide (q = cur)) as [->|]; [rewrite fn_lookup_insert; done|by rewrite Hne]. }
  constructor.
  - split; [|split].
    + apply A2. congruence.
    + exists d1. rewrite Hne; auto.
    + auto.
  - intros q Hq. destruct (decide (q = cur)) as [->|]; auto. rewrite Hne in Hq; auto.
  - intros g' q Hq. destruct (decide (g' = g_gray G p)) as [->|Hg'].
    + rewrite fn_lookup_insert in Hq.
      destruct (A3 (g_gray G p) q) as (E1 & E2 & E3). { rewrite Hh. apply elem_of_cons; auto. }
      split; auto. split; [intros ->; done|]. rewrite Hne by auto. auto.
    + rewrite fn_lookup_insert_ne in Hq by auto.
      destruct (A3 g' q Hq) as (E1 & E2 & E3).
      split; auto. split; [intros ->; congruence|]. rewrite Hne by auto. auto.
  - intros g'. destruct (decide (g' = g_gray G p)) as [->|Hg'].
    + rewrite fn_lookup_insert. pose proof (A4 (g_gray G p)) as H. rewrite Hh in H. by apply NoDup_cons in H as [_ H].
    + by rewrite fn_lookup_insert_ne.
  - intros q d2 Hq. destruct (decide (q = cur)) as [->|]; [rewrite fn_lookup_insert in Hq; done|].
    rewrite Hne in Hq by auto. destruct (A5 q d2 Hq) as [?|Hq']; [done|].
    destruct (decide (g_gray G q = g_gray G p)) as [E|E].
    + rewrite E in *. rewrite fn_lookup_insert. rewrite Hh in Hq'. by apply elem_of_cons in Hq'.
    + rewrite fn_lookup_insert_ne by auto. auto.
  - intros g' Hg'. rewrite fn_lookup_insert_ne by lia. auto.
  - intros q d2 Hq. destruct (decide (q = cur)) as [->|]; [rewrite fn_lookup_insert in Hq; done|].
    rewrite Hne in Hq by auto. eapply conn_trans; [by eapply A7|].
    destruct (A5 q d2 Hq) as [?|Hq']; [done|].
    apply conn_sym; auto. eapply conn_mono; [|by eapply A7].
    destruct (le_lt_dec (g_gray G p) (g_gray G q)) as [|Hlt]; auto.
    rewrite Hlow in Hq' by auto. inversion Hq'.
  - intros d2 q Hd2 Hq. apply Hnu. eapply A9; eauto.
  - intros q d2 d3 q' Hqp Hq Hd3 Hn.
    destruct (decide (q = cur)) as [->|]; [rewrite fn_lookup_insert in Hq; done|].
    rewrite Hne in Hq by auto. apply Hnu. eapply A9; eauto.
Qed.

(* advancing the tour *)
Lemma invA_advance px cur d heap :
  InvA px cur d heap -> d < g_deg G ->
  (forall q, g_nbr G cur d = Some q -> px q <> PU) ->
  InvA px cur (S d) heap.
Proof.
  intros [A1 A2 A3 A4 A5 A6 A7 A8 A9] Hd Hq. constructor; auto.
  - naive_solver lia.
  - intros d0 q H1 H2. destruct (decide (d0 = d)) as [->|]; auto. apply (A8 d0); auto. lia.
Qed.

Lemma invA_push px cur d heap q :
  InvA px cur d heap -> d < g_deg G -> g_nbr G cur d = Some q -> px q = PU ->
  g_gray G cur <= g_gray G q ->
  InvA (<[q := PW 0]> px) cur (S d) (<[g_gray G q := q :: heap (g_gray G q)]> heap).
Proof.
  intros HA Hd Hn Hq Hge.
  destruct HA as [A1 A2 A3 A4 A5 A6 A7 A8 A9]. destruct A1 as (Hcn & (d0 & Hcur) & Hdd).
  assert (adj G cur q) as Hadj by (exists d; auto).
  assert (q <> cur) as Hqc. { intros ->. eapply gok_irrefl; eauto. }
  assert (q ∈ g_nodes G) as Hqn by (eapply gok_closed; eauto).
  assert (forall x, x <> q -> (<[q := PW 0]> px) x = px x) as Hne.
  { intros x Hx. by rewrite fn_lookup_insert_ne. }
  assert (forall x, px x <> PU -> (<[q := PW 0]> px) x <> PU) as Hnu.
  { intros x Hx. destruct (decide (x = q)) as [->|]; [rewrite fn_lookup_insert; done|by rewrite Hne]. }
  constructor.
  - split; auto. split; [|lia]. exists d0. rewrite Hne; auto.
  - intros x Hx. destruct (decide (x = q)) as [->|]; auto. rewrite Hne in Hx; auto.
  - intros g x Hx. destruct (decide (g = g_gray G q)) as [->|Hg].
    + rewrite fn_lookup_insert in Hx. apply elem_of_cons in Hx as [->|Hx].
      * split; auto. split; auto. exists 0. rewrite fn_lookup_insert. split; auto. lia.
      * destruct (A3 _ x Hx) as (E1 & E2 & (d2 & E3 & E4)). split; auto. split; auto.
        exists d2. rewrite Hne; auto. congruence.
    + rewrite fn_lookup_insert_ne in Hx by auto.
      destruct (A3 _ x Hx) as (E1 & E2 & (d2 & E3 & E4)). split; auto. split; auto.
      exists d2. rewrite Hne; auto. congruence.
  - intros g. destruct (decide (g = g_gray G q)) as [->|Hg].
    + rewrite fn_lookup_insert. constructor; auto. intros Hin.
      destruct (A3 _ q Hin) as (E1 & E2 & (d2 & E3 & E4)). congruence.
    + by rewrite fn_lookup_insert_ne.
  - intros x d2 Hx. destruct (decide (x = q)) as [->|Hxq].
    + right. rewrite fn_lookup_insert. apply elem_of_cons; auto.
    + rewrite Hne in Hx by auto. destruct (A5 x d2 Hx) as [|Hin]; auto. right.
      destruct (decide (g_gray G x = g_gray G q)) as [E|E].
      * rewrite E in *. rewrite fn_lookup_insert. apply elem_of_cons; auto.
      * by rewrite fn_lookup_insert_ne.
  - intros g Hg. rewrite fn_lookup_insert_ne by lia. auto.
  - intros x d2 Hx. destruct (decide (x = q)) as [->|Hxq].
    + apply conn_sym; auto. apply conn_adj; auto.
    + rewrite Hne in Hx by auto. eauto.
  - intros d2 x Hd2 Hx. destruct (decide (d2 = d)) as [->|].
    + rewrite Hn in Hx. simplify_eq. rewrite fn_lookup_insert. done.
    + apply Hnu. apply (A8 d2); auto. lia.
  - intros x d2 d3 y Hxc Hx Hd3 Hy. destruct (decide (x = q)) as [->|Hxq].
    + rewrite fn_lookup_insert in Hx. simplify_eq. lia.
    + rewrite Hne in Hx by auto. apply Hnu. eauto.
Qed.

Lemma invA_descend px cur d heap q :
  InvA px cur d heap -> d < g_deg G -> g_nbr G cur d = Some q -> px q = PU ->
  g_gray G q < g_gray G cur ->
  InvA (<[q := PW 0]> (<[cur := PW (S d)]> px)) q 0
       (<[g_gray G cur := cur :: heap (g_gray G cur)]> heap).
Proof.
  intros HA Hd Hn Hq Hlt.
  destruct HA as [A1 A2 A3 A4 A5 A6 A7 A8 A9]. destruct A1 as (Hcn & (d0 & Hcur) & Hdd).
  assert (adj G cur q) as Hadj by (exists d; auto).
  assert (q <> cur) as Hqc. { intros ->. eapply gok_irrefl; eauto. }
  assert (q ∈ g_nodes G) as Hqn by (eapply gok_closed; eauto).
  set (px' := <[q := PW 0]> (<[cur := PW (S d)]> px)).
  assert (px' q = PW 0) as Hq' by apply fn_lookup_insert.
  assert (px' cur = PW (S d)) as Hc'.
  { unfold px'. rewrite fn_lookup_insert_ne by auto. apply fn_lookup_insert. }
  assert (forall x, x <> q -> x <> cur -> px' x = px x) as Hne.
  { intros x Hx1 Hx2. unfold px'. by rewrite !fn_lookup_insert_ne by auto. }
  assert (forall x, px x <> PU -> px' x <> PU) as Hnu.
  { intros x Hx. destruct (decide (x = q)) as [->|]; [congruence|].
    destruct (decide (x = cur)) as [->|]; [congruence|]. by rewrite Hne. }
  assert (conn G (g_gray G cur) cur q) as Hcq. { apply conn_adj; auto. lia. }
  assert (cur ∉ heap (g_gray G cur)) as Hcni.
  { intros Hin. destruct (A3 _ cur Hin) as (_ & E & _). done. }
  constructor.
  - split; auto. split; [eauto|lia].
  - intros x Hx. destruct (decide (x = q)) as [->|]; auto.
    destruct (decide (x = cur)) as [->|]; auto. rewrite Hne in Hx; auto.
  - intros g x Hx. destruct (decide (g = g_gray G cur)) as [->|Hg].
    + rewrite fn_lookup_insert in Hx. apply elem_of_cons in Hx as [->|Hx].
      * split; auto. split; auto. exists (S d). split; auto.
      * destruct (A3 _ x Hx) as (E1 & E2 & (d2 & E3 & E4)). assert (x <> q) by congruence.
        split; auto. split; auto. exists d2. rewrite Hne; auto.
    + rewrite fn_lookup_insert_ne in Hx by auto.
      destruct (A3 _ x Hx) as (E1 & E2 & (d2 & E3 & E4)). assert (x <> q) by congruence.
      split; auto. split; auto. exists d2. rewrite Hne; auto.
  - intros g. destruct (decide (g = g_gray G cur)) as [->|Hg].
    + rewrite fn_lookup_insert. constructor; auto.
    + by rewrite fn_lookup_insert_ne.
  - intros x d2 Hx. destruct (decide (x = q)) as [->|Hxq]; auto.
    right. destruct (decide (x = cur)) as [->|Hxc].
    + rewrite fn_lookup_insert. apply elem_of_cons; auto.
    + rewrite Hne in Hx by auto. destruct (A5 x d2 Hx) as [|Hin]; [done|].
      destruct (decide (g_gray G x = g_gray G cur)) as [E|E].
      * rewrite E in *. rewrite fn_lookup_insert. apply elem_of_cons; auto.
      * by rewrite fn_lookup_insert_ne.
  - intros g Hg. rewrite fn_lookup_insert_ne by lia. apply A6. lia.
  - intros x d2 Hx. destruct (decide (x = q)) as [->|Hxq]; [apply conn_refl; auto|].
    destruct (decide (x = cur)) as [->|Hxc]; auto.
    rewrite Hne in Hx by auto. eapply conn_trans; [by eapply A7|].
    eapply conn_mono; [|exact Hcq].
    destruct (A5 x d2 Hx) as [|Hin]; [done|].
    destruct (le_lt_dec (g_gray G cur) (g_gray G x)) as [|Hl]; auto.
    rewrite A6 in Hin by auto. inversion Hin.
  - intros d2 x Hd2. lia.
  - intros x d2 d3 y Hxc Hx Hd3 Hy. destruct (decide (x = cur)) as [->|Hxc'].
    + rewrite Hc' in Hx. simplify_eq. destruct (decide (d3 = d)) as [->|].
      * rewrite Hn in Hy. simplify_eq. congruence.
      * apply Hnu. apply (A8 d3); auto. lia.
    + rewrite Hne in Hx by auto. apply Hnu. eauto.
Qed.

(* ---------- finding the next level ---------- *)
Lemma find_level_some h g n g' : find_level h g n = Some g' ->
  g <= g' < g + n /\ h g' <> [] /\ forall x, g <= x < g' -> h x = [].
Proof.
  revert g. induction n as [|n IH]; intros g; simpl; [done|].
  destruct (h g) eqn:E.
  - intros H. apply IH in H as (H1 & H2 & H3). split; [lia|]. split; auto.
    intros x Hx. destruct (decide (x = g)) as [->|]; auto. apply H3. lia.
  - intros [= <-]. split; [lia|]. split; [congruence|]. intros; lia.
Qed.
Lemma find_level_none h g n : find_level h g n = None -> forall x, g <= x < g + n -> h x = [].
Proof.
  revert g. induction n as [|n IH]; intros g; simpl; [intros; lia|].
  destruct (h g) eqn:E; [|done]. intros H x Hx.
  destruct (decide (x = g)) as [->|]; auto. apply (IH (S g)); auto. lia.
Qed.

(* ---------- one step ---------- *)
Definition gray_bound : Prop := forall p, p ∈ g_nodes G -> g_gray G p <= 255.

Lemma set_par_app regs a n r : a < length regs ->
  set_par regs a n ++ [r] = set_par (regs ++ [r]) a n.
Proof.
  intros Ha. unfold set_par. rewrite lookup_app_l by auto.
  destruct (regs !! a) as [x|] eqn:E; auto.
  by rewrite insert_app_l.
Qed.

(* the state right after the current pixel was finished and its level found empty *)
Lemma mid_exhaust px cur d heap c rest regs :
  InvA px cur d heap -> d >= g_deg G ->
  InvB px cur (c :: rest) regs -> cg c = g_gray G cur ->
  let px' := <[cur := PD (cr c)]> px in
  let c' := AComp (cg c) (cr c) (cur :: cl c) in
  let regs' := set_rl regs (cr c) (cl c') in
  InvB px' cur (c' :: rest) regs' /\ (exists p, px' p = PD (cr c')) /\
  (forall a, regs' !! cr c' = Some a -> rl a = cl c') /\
  cr c < length regs /\
  forall g, (forall g', g' < g -> heap g' = []) -> forall x d, px' x = PW d -> g <= g_gray G x.
Proof.
  intros HA Hd HB Hg px' c' regs'.
  assert (InvB px' cur (c' :: rest) regs) as HB1 by (by eapply invB_finish).
  destruct (i_creg _ _ _ _ _ HB1 c') as (a & Ha & _ & _); [apply elem_of_cons; auto|]. simpl in Ha.
  split.
  { apply (invB_set_rl px' cur (c' :: rest) regs c' (cl c')); auto. apply elem_of_cons; auto. }
  split. { exists cur. apply fn_lookup_insert. }
  split. { intros a'. unfold regs'. simpl. rewrite (set_rl_lookup _ _ _ a) by auto.
           rewrite decide_True by auto. intros [= <-]. done. }
  split. { by eapply lookup_lt_Some. }
  intros g Hlow x d1 Hx. unfold px' in Hx.
  destruct (decide (x = cur)) as [->|Hxc]; [rewrite fn_lookup_insert in Hx; done|].
  rewrite fn_lookup_insert_ne in Hx by auto.
  destruct (i_wait _ _ _ _ _ HA x d1 Hx) as [?|Hin]; [done|].
  destruct (le_lt_dec g (g_gray G x)); auto. rewrite Hlow in Hin by auto. inversion Hin.
Qed.

Theorem astep_inv s : gray_bound -> Inv G s ->
  match astep G s with
  | ANext s' => Inv G s'
  | AHalt s' => True
  | AStuck => False
  end.
Proof.
  intros Hgb [HA HB HC]. destruct s as [px cur d heap comps regs]. simpl in *.
  unfold astep. simpl. destruct (Nat.ltb_spec d (g_deg G)) as [Hd|Hd].
  - destruct (g_nbr G cur d) as [q|] eqn:Hn.
    2: { split; auto; simpl. apply invA_advance; auto. congruence. }
    destruct (px q) as [|d1|r1] eqn:Hq.
    2: { split; auto; simpl. apply invA_advance; auto. congruence. }
    2: { split; auto; simpl. apply invA_advance; auto. congruence. }
    destruct (i_cur _ _ _ _ _ HA) as (Hcn & (d0 & Hcur) & _).
    assert (q <> cur) as Hqc by congruence.
    destruct (Nat.ltb_spec (g_gray G q) (g_gray G cur)) as [Hlt|Hge].
    + destruct HC as (c & rest & -> & Hcg & Hbelow).
      assert (forall c0, c0 ∈ c :: rest -> g_gray G cur <= cg c0) as Hcge.
      { intros c0 H0. apply elem_of_cons in H0 as [->|H0]; [lia|].
        pose proof (i_sorted _ _ _ _ _ HB) as H. simpl in H. inversion H as [|?? _ HF]; subst.
        rewrite Forall_forall in HF. rewrite <-Hcg. apply Nat.lt_le_incl, HF. apply elem_of_list_fmap; eauto. }
      split; simpl.
      * by apply invA_descend.
      * apply (invB_insert _ _ [] (c :: rest)).
        -- eapply invB_px; [| |eapply (invB_retarget px cur q (g_gray G cur)); [|exact Hcge|exact HB]].
           ++ intros x y. destruct (decide (x = q)) as [->|].
              { rewrite fn_lookup_insert. split; congruence. }
              rewrite fn_lookup_insert_ne by auto. destruct (decide (x = cur)) as [->|].
              { rewrite fn_lookup_insert. split; congruence. }
              by rewrite fn_lookup_insert_ne by auto.
           ++ intros x y Hx. destruct (decide (x = q)) as [->|].
              { rewrite fn_lookup_insert. eauto. }
              rewrite fn_lookup_insert_ne by auto. destruct (decide (x = cur)) as [->|].
              { rewrite fn_lookup_insert. eauto. }
              rewrite fn_lookup_insert_ne by auto. eauto.
           ++ apply conn_sym; auto. apply conn_adj; auto; [exists d; auto|lia].
        -- simpl. constructor; [apply (i_sorted _ _ _ _ _ HB)|].
           rewrite Forall_forall. intros x Hx.
           change (cg c :: map cg rest) with (map cg (c :: rest)) in Hx.
           apply elem_of_list_fmap in Hx as (c0 & -> & H0).
           apply Hcge in H0. lia.
      * exists (AComp (g_gray G q) (length regs) []), (c :: rest). split; auto. split; auto.
        intros c0 H0. apply elem_of_cons in H0 as [->|H0].
        -- rewrite Hcg, fn_lookup_insert. done.
        -- destruct (decide (cg c0 = g_gray G cur)) as [->|].
           { rewrite fn_lookup_insert. done. }
           rewrite fn_lookup_insert_ne by auto. auto.
    + split; simpl.
      * by apply invA_push.
      * eapply invB_px; [| |exact HB].
        -- intros x y. destruct (decide (x = q)) as [->|].
           { rewrite fn_lookup_insert. split; congruence. }
           by rewrite fn_lookup_insert_ne by auto.
        -- intros x y Hx. destruct (decide (x = q)) as [->|].
           { rewrite fn_lookup_insert. eauto. }
           rewrite fn_lookup_insert_ne by auto. eauto.
      * destruct HC as (c & rest & -> & Hcg & Hbelow). exists c, rest. split; auto. split; auto.
        intros c0 H0. destruct (decide (cg c0 = g_gray G q)) as [->|].
        { rewrite fn_lookup_insert. done. }
        rewrite fn_lookup_insert_ne by auto. auto.
  - destruct HC as (c & rest & -> & Hcg & Hbelow).
    destruct (heap (g_gray G cur)) as [|p hs] eqn:Hh.
    + assert (forall g', g' < S (g_gray G cur) -> heap g' = []) as Hlow0.
      { intros g' Hg'. destruct (decide (g' = g_gray G cur)) as [->|]; auto.
        apply (i_low _ _ _ _ _ HA). lia. }
      destruct (find_level heap (S (g_gray G cur)) (256 - g_gray G cur)) as [g'|] eqn:Hf; [|done].
      apply find_level_some in Hf as (Hr & Hne & Hemp).
      assert (forall x, x < g' -> heap x = []) as Hlow.
      { intros x Hx. destruct (le_lt_dec (S (g_gray G cur)) x); auto. }
      destruct (heap g') as [|p hs] eqn:Hp; [done|].
      destruct (i_heap _ _ _ _ _ HA g' p) as (Hgp & Hpc & (d1 & Hd1 & _)).
      { rewrite Hp. apply elem_of_cons; auto. }
      destruct (mid_exhaust _ _ _ _ _ _ _ HA Hd HB Hcg) as (HB1 & Hown & Hrl & Hlen & Hwait).
      set (px' := <[cur := PD (cr c)]> px) in *.
      set (c' := AComp (cg c) (cr c) (cur :: cl c)) in *.
      set (regs' := set_rl regs (cr c) (cl c')) in *.
      assert (InvA px' p d1 (<[g' := hs]> heap)) as HA1 by (by eapply invA_pop).
      assert (conn G g' p cur) as Hconn. { rewrite <-Hgp. by eapply i_pend. }
      assert (g' <= 255) as Hg255. { rewrite <-Hgp. apply Hgb. apply (i_dom _ _ _ _ _ HA). congruence. }
      assert (forall c0, c0 ∈ rest -> cg c < cg c0) as Hsort.
      { intros c0 H0. pose proof (i_sorted _ _ _ _ _ HB) as H. simpl in H.
        inversion H as [|?? _ HF]; subst. rewrite Forall_forall in HF. apply HF.
        apply elem_of_list_fmap; eauto. }
      (* raising the top component to level g' *)
      assert ((forall c0, c0 ∈ rest -> g' < cg c0) ->
        Inv G (ASt px' p d1 (<[g' := hs]> heap) (AComp g' (length regs') (cl c') :: rest)
                 (set_par regs' (cr c') (length regs') ++ [AReg g' None []]))) as Hraise.
      { intros Hg'. split; simpl; auto.
        - rewrite set_par_app by (unfold regs'; by rewrite length_set_rl).
          eapply invB_retarget; [exact Hconn| |].
          { intros c0 H0. apply elem_of_cons in H0 as [->|H0]; [done|]. apply Nat.lt_le_incl. auto. }
          change (cl c') with ([] ++ cl c').
          apply (invB_merge px' cur c' (AComp g' (length regs') []) rest); auto.
          + apply (invB_insert px' cur [c'] rest); auto. simpl.
            pose proof (i_sorted _ _ _ _ _ HB1) as Hs. simpl in Hs. inversion Hs as [|?? Hs1 Hs2]; subst.
            constructor.
            * constructor; auto. rewrite Forall_forall. intros x Hx.
              apply elem_of_list_fmap in Hx as (c0 & -> & H0). auto.
            * constructor; auto. simpl. lia.
          + intros a Ha. apply Hrl. rewrite lookup_app_l in Ha; auto.
            unfold regs'. by rewrite length_set_rl.
          + intros x d2 Hx. simpl. by eapply Hwait.
        - eexists _, _. split; [done|]. split; [done|]. intros c0 H0.
          pose proof (Hg' c0 H0). rewrite fn_lookup_insert_ne by lia. auto. }
      unfold amerge. destruct rest as [|c2 rest].
      * destruct (Nat.ltb_spec g' 257) as [_|]; [|lia]. rewrite Hd1. apply Hraise.
        intros c0 H0. inversion H0.
      * assert (c2 ∈ c2 :: rest) as Hc2in by (apply elem_of_cons; auto).
        assert (g' <= cg c2) as Hg2.
        { destruct (le_lt_dec g' (cg c2)) as [|Hl]; auto. exfalso.
          apply (Hbelow c2); auto. }
        assert (forall c0, c0 ∈ rest -> cg c2 < cg c0) as Hsort2.
        { intros c0 H0. pose proof (i_sorted _ _ _ _ _ HB) as H. simpl in H.
          inversion H as [|?? H' _]; subst. inversion H' as [|?? _ HF]; subst.
          rewrite Forall_forall in HF. apply HF. apply elem_of_list_fmap; eauto. }
        destruct (Nat.ltb_spec g' (cg c2)) as [Hl|Hl].
        -- rewrite Hd1. apply Hraise. intros c0 H0. apply elem_of_cons in H0 as [->|H0]; auto.
           apply Hsort2 in H0. lia.
        -- assert (g' = cg c2) as Hgc by lia.
           destruct (Nat.leb_spec g' (cg c2)) as [_|]; [|lia]. rewrite Hd1.
           split; simpl; auto.
           ++ eapply invB_retarget; [exact Hconn| |].
              { intros c0 H0. apply elem_of_cons in H0 as [->|H0]; [simpl; lia|].
                apply Hsort2 in H0. lia. }
              apply (invB_merge px' cur c' c2 rest); auto.
              intros x d2 Hx. rewrite <-Hgc. by eapply Hwait.
           ++ eexists _, _. split; [done|]. simpl. split; [congruence|]. intros c0 H0.
              pose proof (Hsort2 c0 H0). rewrite fn_lookup_insert_ne by lia.
              apply Hbelow. apply elem_of_cons; auto.
    + destruct (i_heap _ _ _ _ _ HA (g_gray G cur) p) as (Hgp & Hpc & (d1 & Hd1 & _)).
      { rewrite Hh. apply elem_of_cons; auto. }
      rewrite Hd1. split; simpl.
      * eapply invA_pop; eauto. apply (i_low _ _ _ _ _ HA).
      * eapply invB_retarget; [|intros c0 H0|by eapply invB_finish].
        -- eapply (i_pend _ _ _ _ _ HA p). eauto.
        -- rewrite Hgp, <-Hcg. apply elem_of_cons in H0 as [->|H0]; [done|].
           pose proof (i_sorted _ _ _ _ _ HB) as H. simpl in H. inversion H as [|?? _ HF]; subst.
           rewrite Forall_forall in HF. apply Nat.lt_le_incl, HF. apply elem_of_list_fmap; eauto.
      * eexists _, _. split; [done|]. simpl. split; [congruence|].
        intros c0 H0. destruct (decide (cg c0 = g_gray G cur)) as [E|E].
        { pose proof (i_sorted _ _ _ _ _ HB) as H. simpl in H. inversion H as [|?? _ HF]; subst.
          rewrite Forall_forall in HF. assert (cg c < cg c0); [|lia]. apply HF. apply elem_of_list_fmap; eauto. }
        rewrite fn_lookup_insert_ne by auto. auto.
Qed.

Lemma ainit_inv p0 : p0 ∈ g_nodes G -> Inv G (ainit G p0).
Proof.
  intros Hp. unfold ainit. split; simpl.
  - constructor; simpl.
    + split; auto. split; [exists 0; apply fn_lookup_insert|lia].
    + intros p. destruct (decide (p = p0)) as [->|]; auto. rewrite fn_lookup_insert_ne by auto. done.
    + intros g p H. inversion H.
    + constructor.
    + intros p d. destruct (decide (p = p0)) as [->|]; auto. rewrite fn_lookup_insert_ne by auto. done.
    + auto.
    + intros p d. destruct (decide (p = p0)) as [->|]; [intros; by apply conn_refl|].
      rewrite fn_lookup_insert_ne by auto. done.
    + intros; lia.
    + intros p d1 d0 q Hne. rewrite fn_lookup_insert_ne by auto. done.
  - assert (forall p r, (<[p0:=PW 0]> (fun _ => PU)) p <> PD r) as Hno.
    { intros p r. destruct (decide (p = p0)) as [->|]; [rewrite fn_lookup_insert; done|].
      rewrite fn_lookup_insert_ne by auto. done. }
    constructor; simpl.
    + repeat constructor.
    + constructor; [inversion 1|constructor].
    + intros c Hc. apply elem_of_list_singleton in Hc as ->. simpl. eauto.
    + intros p r H. by apply Hno in H.
    + intros c q p _ (x & Hx & _). by apply Hno in Hx.
    + intros c q _ (x & Hx & _). by apply Hno in Hx.
    + intros c Hc. apply elem_of_list_singleton in Hc as ->. simpl. split; [constructor|].
      intros p. split; [inversion 1|]. intros (x & Hx & _). by apply Hno in Hx.
    + intros r a Hr Hni. destruct r as [|r]; simpl in Hr; [|done].
      exfalso. apply Hni. apply elem_of_cons; auto.
  - eexists _, _. split; [done|]. split; [done|]. intros c H. inversion H.
Qed.

(* ---------- termination ---------- *)
Definition weight (s : ast) (p : nat) : nat :=
  if decide (p = a_cur s) then
    match a_px s p with PD _ => 0 | _ => S (g_deg G) - a_d s end
  else match a_px s p with
       | PU => S (S (g_deg G))
       | PW d => S (g_deg G) - d
       | PD _ => 0
       end.
Definition measure (s : ast) : nat := sum_list (map (weight s) (g_nodes G)).

Lemma sum_map_le (f g : nat -> nat) l : (forall x, x ∈ l -> f x <= g x) ->
  sum_list (map f l) <= sum_list (map g l).
Proof.
  induction l as [|x l IH]; simpl; [lia|]. intros H.
  pose proof (H x ltac:(apply elem_of_cons; auto)).
  assert (sum_list (map f l) <= sum_list (map g l)); [|lia].
  apply IH. intros y Hy. apply H. apply elem_of_cons; auto.
Qed.
Lemma sum_map_lt (f g : nat -> nat) l z : (forall x, x ∈ l -> f x <= g x) -> z ∈ l -> f z < g z ->
  sum_list (map f l) < sum_list (map g l).
Proof.
  induction l as [|x l IH]; simpl; intros H Hz Hlt; [inversion Hz|].
  assert (forall y, y ∈ l -> f y <= g y) as H'.
  { intros y Hy. apply H. apply elem_of_cons; auto. }
  pose proof (H x ltac:(apply elem_of_cons; auto)).
  pose proof (sum_map_le f g l H').
  apply elem_of_cons in Hz as [->|Hz]; [lia|].
  assert (sum_list (map f l) < sum_list (map g l)) by auto. lia.
Qed.

Lemma astep_measure s s' : Inv G s -> astep G s = ANext s' -> measure s' < measure s.
Proof.
  intros [HA HB HC] Hs. destruct s as [px cur d heap comps regs]. simpl in *.
  destruct (i_cur _ _ _ _ _ HA) as (Hcn & (d0 & Hcur) & Hd0).
  unfold astep in Hs. simpl in Hs. destruct (Nat.ltb_spec d (g_deg G)) as [Hd|Hd].
  - assert (forall heap' comps' regs', measure (ASt px cur (S d) heap' comps' regs') <
       measure (ASt px cur d heap comps regs)) as Hadv.
    { intros. apply (sum_map_lt _ _ _ cur); auto; unfold weight; cbn [a_px a_cur a_d].
      - intros x _. case_decide; subst; [rewrite Hcur; lia|done].
      - rewrite ?decide_True by auto. rewrite Hcur. lia. }
    destruct (g_nbr G cur d) as [q|] eqn:Hn; [|simplify_eq; auto].
    destruct (px q) as [|d1|r1] eqn:Hq; [|simplify_eq; auto..].
    assert (q <> cur) as Hqc by congruence.
    destruct (Nat.ltb_spec (g_gray G q) (g_gray G cur)) as [Hlt|Hge]; simplify_eq.
    + apply (sum_map_lt _ _ _ cur); auto; unfold weight; cbn [a_px a_cur a_d].
      * intros x _. destruct (decide (x = q)) as [->|Hx].
        { rewrite fn_lookup_insert. rewrite ?decide_False by auto. rewrite Hq. lia. }
        rewrite fn_lookup_insert_ne by auto. destruct (decide (x = cur)) as [->|].
        { rewrite fn_lookup_insert. rewrite Hcur. lia. }
        rewrite fn_lookup_insert_ne by auto. done.
      * rewrite ?decide_False by auto. rewrite ?decide_True by auto.
        rewrite fn_lookup_insert_ne, fn_lookup_insert by auto. rewrite Hcur. lia.
    + apply (sum_map_lt _ _ _ cur); auto; unfold weight; cbn [a_px a_cur a_d].
      * intros x _. case_decide; subst.
        { rewrite fn_lookup_insert_ne by auto. rewrite Hcur. lia. }
        destruct (decide (x = q)) as [->|Hx].
        { rewrite fn_lookup_insert. rewrite Hq. lia. }
        by rewrite fn_lookup_insert_ne.
      * rewrite ?decide_True by auto. rewrite fn_lookup_insert_ne by auto. rewrite Hcur. lia.
  - destruct comps as [|c rest]; [done|].
    assert (forall g p hs d1 heap' comps' regs', heap g = p :: hs -> px p = PW d1 ->
      measure (ASt (<[cur:=PD (cr c)]> px) p d1 heap' comps' regs') <
      measure (ASt px cur d heap (c :: rest) regs)) as Hfin.
    { intros g p hs d1 heap' comps' regs' Hh Hp.
      destruct (i_heap _ _ _ _ _ HA g p) as (_ & Hpc & _); [rewrite Hh; apply elem_of_cons; auto|].
      apply (sum_map_lt _ _ _ cur); auto; unfold weight; cbn [a_px a_cur a_d].
      - intros x _. destruct (decide (x = cur)) as [->|Hx].
        { rewrite fn_lookup_insert. case_decide; lia. }
        rewrite fn_lookup_insert_ne by auto. destruct (decide (x = p)) as [->|]; [rewrite Hp; lia|done].
      - rewrite ?decide_False by auto. rewrite fn_lookup_insert. rewrite ?decide_True by auto.
        rewrite Hcur. lia. }
    destruct (heap (g_gray G cur)) as [|p hs] eqn:Hh.
    + destruct (find_level heap (S (g_gray G cur)) (256 - g_gray G cur)) as [g'|] eqn:Hf; [|done].
      destruct (heap g') as [|p hs] eqn:Hh'; [done|].
      destruct (amerge _ _ _ _) as [[comps' regs']|]; [|done].
      destruct (px p) eqn:Hp; simplify_eq. eauto.
    + destruct (px p) eqn:Hp; simplify_eq. eauto.
Qed.

Lemma measure_init p0 : measure (ainit G p0) <= (g_deg G + 2) * length (g_nodes G).
Proof.
  unfold measure. generalize (g_nodes G). induction l as [|x l IH]; simpl; [lia|].
  assert (weight (ainit G p0) x <= S (S (g_deg G))); [|lia].
  unfold weight. simpl. case_decide; subst.
  - rewrite fn_lookup_insert. lia.
  - by rewrite fn_lookup_insert_ne.
Qed.

(* ---------- the final state ---------- *)
Definition labof (px : nat -> pst) (p : nat) : nat := match px p with PD r => r | _ => 0 end.

Record final (s : ast) : Prop := Final {
  f_done : forall p, p ∈ g_nodes G -> exists r, a_px s p = PD r;
  f_out : forall p, p ∉ g_nodes G -> a_px s p = PU;
  f_heap : forall g, a_heap s g = [];
  f_one : exists c, a_comps s = [c];
  f_tree : tree_of G (labof (a_px s)) (a_regs s)
}.

Lemma astep_halt s s' : gray_bound -> graph_connected G -> Inv G s -> astep G s = AHalt s' -> final s'.
Proof.
  intros Hgb Hconn [HA HB HC] Hs. destruct s as [px cur d heap comps regs]. simpl in *.
  destruct (i_cur _ _ _ _ _ HA) as (Hcn & (d0 & Hcur) & Hd0).
  unfold astep in Hs. simpl in Hs. destruct (Nat.ltb_spec d (g_deg G)) as [Hd|Hd].
  { destruct (g_nbr G cur d) as [q|]; [|done]. destruct (px q); try done. destruct (_ <? _); done. }
  destruct HC as (c & rest & -> & Hcg & Hbelow).
  destruct (heap (g_gray G cur)) as [|p hs] eqn:Hh; [|destruct (px p); done].
  destruct (find_level heap (S (g_gray G cur)) (256 - g_gray G cur)) as [g'|] eqn:Hf.
  { destruct (heap g'); [done|]. destruct (amerge _ _ _ _) as [[? ?]|]; [|done]. destruct (px n); done. }
  injection Hs as <-.
  destruct (mid_exhaust _ _ _ _ _ _ _ HA Hd HB Hcg) as (HB1 & Hown & Hrl & Hlen & Hwait).
  set (px' := <[cur := PD (cr c)]> px) in *.
  set (c' := AComp (cg c) (cr c) (cur :: cl c)) in *.
  set (regs' := set_rl regs (cr c) (cl c')) in *.
  assert (forall g, heap g = []) as Hemp.
  { intros g. destruct (heap g) as [|p l] eqn:E; auto. exfalso.
    assert (heap g <> []) as Hne by congruence.
    destruct (i_heap _ _ _ _ _ HA g p) as (Hgp & _ & (d1 & Hd1 & _)).
    { rewrite E. apply elem_of_cons; auto. }
    assert (g_gray G p <= 255). { apply Hgb. apply (i_dom _ _ _ _ _ HA). congruence. }
    destruct (lt_eq_lt_dec g (g_gray G cur)) as [[Hl|Hl]|Hl].
    - apply Hne. by apply (i_low _ _ _ _ _ HA).
    - rewrite Hl in Hne. congruence.
    - apply Hne. eapply find_level_none; eauto. lia. }
  assert (rest = []) as ->.
  { destruct rest as [|c2 rest]; auto. exfalso. apply (Hbelow c2); auto. apply elem_of_cons; auto. }
  assert (forall p dd, px' p <> PW dd) as Hnw.
  { intros p dd Hp. unfold px' in Hp. destruct (decide (p = cur)) as [->|Hpc].
    - rewrite fn_lookup_insert in Hp. done.
    - rewrite fn_lookup_insert_ne in Hp by auto.
      destruct (i_wait _ _ _ _ _ HA p dd Hp) as [?|Hin]; [done|]. rewrite Hemp in Hin. inversion Hin. }
  assert (c' ∈ [c']) as Hc' by (apply elem_of_cons; auto).
  assert (px' cur = PD (cr c)) as Hpc by apply fn_lookup_insert.
  assert (forall p, p ∈ g_nodes G -> below px' regs' (cr c') p) as Hall.
  { intros p Hp. pose proof (Hconn cur p Hcn Hp) as Hr.
    assert (below px' regs' (cr c') cur) as Hb0. { exists (cr c). split; auto. apply rtc_refl. }
    clearbody px' c' regs'. clear - Hr Hb0 HB1 Hc' Hnw. revert HB1. generalize cur at 1 as t. intros t HB1.
    revert Hr Hb0. generalize cur as u. intros u Hr Hb0. induction Hr as [x|x y z Hxy _ IH]; auto. apply IH.
    destruct (i_adj _ _ _ _ _ HB1 c' x y Hc' Hb0 Hxy) as [|[(dd & Hdd) _]]; auto.
    by apply Hnw in Hdd. }
  assert (forall p, px' p <> PU -> p ∈ g_nodes G) as Hdom.
  { intros p Hp. destruct (decide (p = cur)) as [->|]; auto.
    unfold px' in Hp. rewrite fn_lookup_insert_ne in Hp by auto. by apply (i_dom _ _ _ _ _ HA). }
  assert (forall p r, px' p = PD r -> p ∈ g_nodes G) as Hdom2.
  { intros p r Hp. apply Hdom. congruence. }
  assert (forall p r, p ∈ g_nodes G -> below px' regs' r p <-> under regs' (labof px' p) r) as Hbl.
  { intros p r Hp. destruct (Hall p Hp) as (x & Hx & _). unfold below, labof. rewrite Hx. naive_solver. }
  assert (forall r a, regs' !! r = Some a -> closed_reg G px' regs' r a) as Hclosed.
  { intros r a Hr. destruct (decide (r = cr c')) as [->|Hne].
    - constructor; auto.
      + rewrite (Hrl a Hr). by apply (i_list _ _ _ _ _ HB1).
      + intros p q Hp. destruct (i_creg _ _ _ _ _ HB1 c' Hc') as (a' & Ha' & _ & Hga). simplify_eq.
        rewrite Hga. eapply comp_closed; try done. intros x dd Hx. by apply Hnw in Hx.
    - destruct (i_closed _ _ _ _ _ HB1 r a Hr); auto. simpl. rewrite elem_of_list_singleton. done. }
  change (set_rl regs (cr c) (cur :: cl c)) with regs'.
  constructor; cbn [a_px a_heap a_comps a_regs]; auto.
  - intros p Hp. destruct (Hall p Hp) as (x & Hx & _). eauto.
  - intros p Hp. destruct (px' p) eqn:E; auto; exfalso; apply Hp, Hdom; congruence.
  - eauto.
  - constructor.
    + intros p Hp. destruct (Hall p Hp) as (x & Hx & _). unfold labof. rewrite Hx.
      by destruct (i_lab _ _ _ _ _ HB1 p x Hx).
    + intros r a Hr. destruct (Hclosed r a Hr) as [(p & Hp) _ _]. exists p. split; [eauto|].
      unfold labof. by rewrite Hp.
    + intros r a t Hr Ht. destruct (decide (r = cr c')) as [->|Hne].
      * destruct (i_creg _ _ _ _ _ HB1 c' Hc') as (a' & Ha' & ? & _). congruence.
      * destruct (i_closed _ _ _ _ _ HB1 r a Hr) as [_ (t' & b & ? & ? & ?)].
        { simpl. rewrite elem_of_list_singleton. done. }
        simplify_eq. eauto.
    + intros r a p q Hr Hp Hq. rewrite <-!Hbl by auto. apply (cl_comp _ _ _ _ _ (Hclosed r a Hr)).
    + intros r a Hr. destruct (cl_mem _ _ _ _ _ (Hclosed r a Hr)) as [N M]. split; auto.
      intros p. rewrite M. split.
      * intros Hb. assert (p ∈ g_nodes G) by (destruct Hb as (x & Hx & _); eauto).
        split; auto. by apply Hbl.
      * intros [Hp Hu]. by apply Hbl.
    + exists (cr c'). destruct (i_creg _ _ _ _ _ HB1 c' Hc') as (a' & Ha' & Hp' & _). split; eauto.
      intros r' a Hr Hp. destruct (decide (r' = cr c')) as [->|Hne]; auto.
      destruct (i_closed _ _ _ _ _ HB1 r' a Hr) as [_ (t' & b & ? & ? & ?)]; [|congruence].
      simpl. rewrite elem_of_list_singleton. done.
Qed.

Lemma arun_final n s : gray_bound -> graph_connected G -> Inv G s -> measure s < n ->
  exists s', arun G n s = AHalt s' /\ final s'.
Proof.
  intros Hgb Hc. revert s. induction n as [|n IH]; intros s HI Hm; [lia|].
  simpl. pose proof (astep_inv s Hgb HI) as Hs. destruct (astep G s) as [s'|s'|] eqn:E; [| |done].
  - apply IH; auto. apply astep_measure in E; auto. lia.
  - exists s'. split; auto. by eapply astep_halt.
Qed.

(* flooding a connected graph from any pixel produces its component tree *)
Theorem flood_abs_correct p0 n :
  gray_bound -> graph_connected G -> p0 ∈ g_nodes G ->
  (g_deg G + 2) * length (g_nodes G) < n ->
  exists s, arun G n (ainit G p0) = AHalt s /\ final s.
Proof.
  intros Hgb Hc Hp Hn. apply arun_final; auto; [by apply ainit_inv|].
  pose proof (measure_init p0). lia.
Qed.
End proof.
