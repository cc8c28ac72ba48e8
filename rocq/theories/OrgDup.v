(* Removal of duplicates of the original implementation and its whole recognition. *)
From stdpp Require Import sorting relations functions list_numbers list.
From Coq Require Import NArith ZArith SpecFloat.
From Verif Require Import Spec TreeSpec TreeFacts JoinMath JoinCorrect FloodModel ConnectModel ConnectProof FloatModel FloatFacts RecogModel RecogSpec RecogStatic RecogWorkers
  RecogSched RecogNms RecogSerial RecogOrder DupAbs RecogDup RecogTree RecogCompose RecogFinal RecogResults V1RecogModel V1Recog V1BuildModel V1Sort WholeProof OrgModel OrgTree OrgLink OrgRecog.
Local Open Scope nat_scope.

Section dup.
Context (V : view) (lab : nat -> nat) (regs0 : list oreg) (HO : ostart V lab regs0) (P : rparam) (Hd : delta_ok P).
Notation F := (ofo regs0). Notation OP := (OP regs0). Notation olive := (olive regs0).
Notation lab2 := (fun p => (0, lab p)).
Notation oinv := (oinv regs0 P).
Let HI := ostart_input V lab regs0 HO.
Let H0 := input_start V _ F HI.
Let Hsz := size_lt V _ F HI.
Notation RP := (RP F). Notation size0 := (size0 F). Notation gray0 := (gray0 F). Notation live0 := (live0 F).
Notation big := (fun x => too_big P (size0 x)). Notation near := (nearf P).
Notation gr i := (gray0 (0%nat, i)).
Notation awalk := (awalk RP size0 big near).
Notation adup := (adup RP size0 big near (NN F)). Notation amid := (amid RP size0 big near (NN F)).
Notation akeep := (akeep RP size0 big near (NN F)). Notation aend := (aend RP size0 big near (NN F)).
Notation amore := (amore RP size0 big near (NN F)). Notation amarked := (amarked RP size0 big near (NN F)).
Notation astep := (astep RP size0 big near (NN F)).
Notation anc := (rtc (up RP)). Notation sanc := (tc (up RP)).

Lemma OP_up i y : olive i -> OP i = Some y -> olive y /\ gr i < gr y /\ size0 (0, i) < size0 (0, y) /\ RP (0, i) = Some (0, y) /\ dp F (Some (0, y)) < dp F (Some (0, i)).
Proof using HO.
  intros Hi E. destruct (OP_some V lab regs0 HO i Hi) as [ER H]. rewrite E in ER. cbn in ER. split; [by apply H|].
  pose proof (proj1 (olive_live regs0 i) Hi) as Li. destruct (HLd F H0 Hsz (0, i) (0, y) Li ER) as (_ & ? & ? & ?). auto.
Qed.

Definition up_of (o : option nat) (z : nat) : Prop := match o with Some y => gr y <= gr z | None => False end.
Lemma odup_gen fl vr regs st n o : oinv fl vr regs -> (forall y, o = Some y -> olive y /\ dp F (Some (0, y)) < n) -> 0 < n ->
  exists l, o_duplicated n P regs st o = Some l /\ Forall (fun z => olive z /\ fl z <> 1 /\ up_of o z) l /\
    StronglySorted (fun x y => gr x < gr y) l.
Proof using HO.
  intros HV. revert o. induction n as [|n IH]; intros o Ho Hn; [lia|]. cbn [o_duplicated].
  destruct o as [y|]; [|exists []; repeat constructor]. destruct (Ho y eq_refl) as [Hy Hdy].
  destruct (oi_live V lab regs0 HO P fl vr regs y HV Hy) as (b & Hb & _ & Hs & Hf & _ & Hp & _). rewrite Hb, Hp, Hf.
  destruct (p_max P <? _)%Z; [exists []; repeat constructor|]. destruct (fgt _ _); [exists []; repeat constructor|].
  destruct (IH (OP y)) as (l & -> & I1 & I2).
  { intros z Hz. destruct (OP_up y z Hy Hz) as (? & _ & _ & _ & ?). split; auto. lia. }
  { pose proof (proj1 (olive_live regs0 y) Hy) as (a & Ha & _). destruct (dp_some F H0 (0, y) a Ha). lia. }
  assert (Forall (fun z => olive z /\ fl z <> 1 /\ gr y < gr z) l) as I3.
  { eapply Forall_impl; [exact I1|]. cbn. intros z (? & ? & Hz). split; auto. split; auto. unfold up_of in Hz.
    destruct (OP y) as [u|] eqn:Eu; [|done]. destruct (OP_up y u Hy Eu) as (_ & ? & _). lia. }
  destruct (Nat.eqb_spec (fl y) 1) as [E1|E1].
  - exists l. split; auto. split; auto. eapply Forall_impl; [exact I3|]. cbn. intros z (? & ? & ?). split; auto. split; auto. lia.
  - exists (y :: l). split; auto. split; [constructor; [cbn; auto|]|constructor; auto].
    + eapply Forall_impl; [exact I3|]. cbn. intros z (? & ? & ?). split; auto. split; auto. lia.
    + eapply Forall_impl; [exact I3|]. cbn. by intros z (_ & _ & ?).
Qed.
Lemma odup_walk fl vr regs st n o l m : oinv (fun i => fl (0, i)) vr regs -> (forall z, live0 z -> fl z <= 2) ->
  (forall y, o = Some y -> olive y /\ dp F (Some (0, y)) <= m) ->
  (forall y z, o = Some y -> anc (0, y) z -> fl z = 2 -> near st (size0 z) = false) ->
  o_duplicated n P regs st o = Some l -> pair 0 <$> l = awalk m fl st (pair 0 <$> o).
Proof using HO.
  intros HV Hfl. revert o l m. induction n as [|n IH]; intros o l m Ho Hv E; [done|]. cbn [o_duplicated] in E.
  destruct o as [y|]; [|injection E as <-; by destruct m]. destruct (Ho y eq_refl) as [Hy Hm].
  pose proof (proj1 (olive_live regs0 y) Hy) as Ly.
  destruct (oi_live V lab regs0 HO P _ vr regs y HV Hy) as (b & Hb & _ & Hs & Hf & _ & Hp & _). rewrite Hb, Hp, Hf, Hs in E.
  destruct m as [|m].
  { exfalso. destruct Ly as (a & Ha & _). destruct (dp_some F H0 (0, y) a Ha) as [H _]. lia. }
  cbn [fmap option_fmap option_map DupAbs.awalk]. unfold too_big at 1. destruct (Z.ltb_spec (p_max P) (Z.of_nat (size0 (0%nat, y)))) as [|Hle]; [by injection E as <-|].
  destruct (near st (size0 (0, y))) eqn:En; unfold nearf in En; cbn [negb].
  2: { apply negb_false_iff in En. rewrite En in E. by injection E as <-. }
  apply negb_true_iff in En. rewrite En in E. destruct (o_duplicated n P regs st (OP y)) as [l1|] eqn:E1; [|done].
  destruct (OP_some V lab regs0 HO y Hy) as [ER _]. rewrite ER, <-(IH (OP y) l1 m); auto.
  - injection E as <-. assert (fl (0, y) <> 2) as H2.
    { intros H2. assert (near st (size0 (0, y)) = false) as Hc by (apply (Hv y (0, y)); auto; reflexivity). unfold nearf in Hc. by rewrite En in Hc. }
    specialize (Hfl _ Ly). destruct (fl (0, y)) as [|[|[|]]]; auto; lia.
  - intros z Hz. destruct (OP_up y z Hy Hz) as (? & _ & _ & _ & ?). split; auto. lia.
  - intros u z Hu Huz. apply (Hv y); auto. eapply rtc_l; [|exact Huz]. by destruct (OP_up y u Hy Hu) as (_ & _ & _ & ? & _).
Qed.

Lemma omark_ok l : forall fl vr regs j mid, oinv fl vr regs -> (forall z, z ∈ l -> olive z /\ fl z <> 1) -> NoDup l -> exists regs',
  o_mark (regs, ninv regs) j mid l = Some (regs', ninv regs') /\
  oinv (fun z => if decide (z ∈ l) then (if decide (j <= mid /\ l !! (mid - j) = Some z) then 2 else 1) else fl z) vr regs'.
Proof using HO.
  induction l as [|x l IH]; intros fl vr regs j mid HV Hl Hnd; cbn [o_mark].
  - exists regs. split; auto.
  - apply NoDup_cons in Hnd as [Hx Hnd]. destruct (Hl x) as [Lx Fx]; [apply elem_of_list_here|].
    destruct (oi_live V lab regs0 HO P _ vr regs x HV Lx) as (c & Hc & _ & _ & Hf & Hv & _ & Hsh). rewrite Hc.
    set (f := if j =? mid then 2 else 1).
    assert ((if j =? mid then (<[x := oset_flag c 2]> regs, ninv regs) else (<[x := oset_flag c 1]> regs, S (ninv regs))) =
      (<[x := oset_flag c f]> regs, ninv (<[x := oset_flag c f]> regs))) as ->.
    { subst f. pose proof (ninv_set regs x c (oset_flag c (if j =? mid then 2 else 1)) Hc) as E. rewrite Hf in E.
      destruct (Nat.eqb_spec (fl x) 1); [done|]. destruct (j =? mid); cbn [Nat.eqb oset_flag o_flag] in E; f_equal; lia. }
    assert (oinv (<[x := f]> fl) vr (<[x := oset_flag c f]> regs)) as HV1.
    { eapply oinv_ext; [|apply (oinv_set regs0 P fl vr regs x c (oset_flag c f) HV Lx Hc)]; cbn [oset_flag o_flag o_var o_short]; auto; [|done].
      intros i _. split; [done|]. rewrite Hv. destruct (decide (i = x)) as [->|]; [by rewrite fn_lookup_insert|by rewrite fn_lookup_insert_ne]. }
    destruct (IH _ vr _ (S j) mid HV1) as (regs' & E2 & HF2); auto.
    { intros y Hy. destruct (Hl y) as [? ?]; [by apply elem_of_list_further|]. split; auto. rewrite fn_lookup_insert_ne; [done|]. intros ->. done. }
    exists regs'. split; auto. eapply oinv_ext; [|exact HF2]. intros z _. split; [|done]. cbn beta.
    destruct (decide (z ∈ l)) as [Hin|Hin].
    + assert (z <> x) as Hne by (intros ->; done). rewrite (decide_True (P := z ∈ x :: l)) by (by apply elem_of_list_further).
      destruct (decide (S j <= mid /\ l !! (mid - S j) = Some z)) as [[H1 H2]|Hn].
      * rewrite decide_True; auto. split; [lia|]. replace (mid - j) with (S (mid - S j)) by lia. done.
      * destruct (decide (j <= mid /\ (x :: l) !! (mid - j) = Some z)) as [[H1 H2]|]; auto. exfalso. apply Hn.
        destruct (decide (j = mid)) as [->|]; [rewrite Nat.sub_diag in H2; injection H2 as ->; done|]. split; [lia|].
        replace (mid - j) with (S (mid - S j)) in H2 by lia. done.
    + destruct (decide (z = x)) as [->|Hne].
      * rewrite fn_lookup_insert, decide_True by apply elem_of_list_here. subst f. destruct (Nat.eqb_spec j mid) as [->|Hj].
        -- rewrite decide_True; auto. by rewrite Nat.sub_diag.
        -- rewrite decide_False; auto. intros [H1 H2]. apply Hin. replace (mid - j) with (S (mid - S j)) in H2 by lia.
           cbn in H2. by eapply elem_of_list_lookup_2.
      * rewrite fn_lookup_insert_ne by done. rewrite decide_False; auto. by intros [?|?]%elem_of_cons.
Qed.

Lemma last_nth2 {A} (l : list A) (x : A) : last (x :: l) = Some (List.last (x :: l) x).
Proof. by apply last_nth. Qed.
Lemma sorted_last_le (l : list nat) e : StronglySorted (fun x y => gr x < gr y) l -> last l = Some e -> Forall (fun z => gr z <= gr e) l.
Proof.
  clear. induction l as [|x l IH]; intros Hs He; [constructor|]. inversion Hs as [|? ? Hs' Hx]; subst. rewrite last_cons in He.
  destruct (last l) as [e'|] eqn:E.
  - injection He as ->. constructor; [|by apply IH]. rewrite Forall_forall in Hx. apply Nat.lt_le_incl, Hx. by apply last_Some_elem_of.
  - injection He as ->. apply last_None in E as ->. repeat constructor.
Qed.
Lemma sorted_nd (l : list nat) : StronglySorted (fun x y => gr x < gr y) l -> NoDup l.
Proof.
  clear. induction 1 as [|x l Hl IH Hx]; constructor; auto. intros Hin. rewrite Forall_forall in Hx. specialize (Hx x Hin). lia.
Qed.

(* one candidate: the list built and marked *)
Lemma dedup_step n fl vr regs k : length regs0 < n -> oinv fl vr regs -> olive k -> fl k = 0 ->
  exists l1 l2 regs' m e, o_duplicated n P regs (size0 (0, k)) (OP k) = Some l1 /\ (k :: l1) !! (length (k :: l1) / 2) = Some m /\
    last (k :: l1) = Some e /\
    (if 0 <? length (k :: l1) / 2 then o_duplicated n P regs (size0 (0, m)) (OP e) = Some l2 else l2 = []) /\
    o_dedup n P (regs, ninv regs) k = Some (regs', ninv regs') /\ olive m /\ olive e /\ m ∈ k :: l1 /\ e ∈ k :: l1 /\
    oinv (fun z => if decide (z ∈ (k :: l1) ++ l2) then (if decide (z = m) then 2 else 1) else fl z) vr regs' /\
    (forall z, z ∈ (k :: l1) ++ l2 -> fl z <> 1).
Proof using HO.
  intros Hn HV Hk Hf0. destruct (oi_live V lab regs0 HO P fl vr regs k HV Hk) as (a & Ha & _ & Hs & Hf & _ & Hp & _).
  assert (forall z, olive z -> forall y, OP z = Some y -> olive y /\ dp F (Some (0, y)) < n) as Hpre.
  { intros z Hz y Hy. destruct (OP_up z y Hz Hy) as (Hly & _). split; auto. pose proof (dp_le F H0 _ (proj1 (olive_live regs0 y) Hly)) as H.
    rewrite ofo_nregs in H. lia. }
  destruct (odup_gen fl vr regs (size0 (0, k)) n (OP k) HV (Hpre k Hk)) as (l1 & E1 & A1 & S1); [lia|].
  assert (StronglySorted (fun x y => gr x < gr y) (k :: l1)) as Sd.
  { constructor; auto. eapply Forall_impl; [exact A1|]. cbn. intros z (_ & _ & Hz). unfold up_of in Hz. destruct (OP k) as [y|] eqn:Ey; [|done].
    destruct (OP_up k y Hk Ey) as (_ & ? & _). lia. }
  assert (forall z, z ∈ k :: l1 -> olive z /\ fl z <> 1) as Hin.
  { intros z [->|Hz]%elem_of_cons; [rewrite Hf0; auto|]. rewrite Forall_forall in A1. by destruct (A1 z Hz) as (? & ? & _). }
  assert (length (k :: l1) / 2 < length (k :: l1)) as Hmid by (apply Nat.div_lt; cbn [length]; lia).
  destruct (lookup_lt_is_Some_2 _ _ Hmid) as [m Em]. pose proof (last_nth2 l1 k) as Ee. set (e := List.last (k :: l1) k) in *. clearbody e.
  pose proof (elem_of_list_lookup_2 _ _ _ Em) as Hmin. assert (e ∈ k :: l1) as Hein by (by apply last_Some_elem_of).
  destruct (Hin m Hmin) as [Lm _]. destruct (Hin e Hein) as [Le _].
  assert (exists l2, (if 0 <? length (k :: l1) / 2 then o_duplicated n P regs (size0 (0, m)) (OP e) = Some l2 else l2 = []) /\
    Forall (fun z => olive z /\ fl z <> 1 /\ gr e < gr z) l2 /\ StronglySorted (fun x y => gr x < gr y) l2) as (l2 & E2 & A2 & S2).
  { destruct (0 <? length (k :: l1) / 2); [|exists []; repeat constructor].
    destruct (odup_gen fl vr regs (size0 (0, m)) n (OP e) HV (Hpre e Le)) as (l2 & E2 & A2 & S2); [lia|]. exists l2. split; auto. split; auto.
    eapply Forall_impl; [exact A2|]. cbn. intros z (? & ? & Hz). split; auto. split; auto. unfold up_of in Hz. destruct (OP e) as [y|] eqn:Ey; [|done].
    destruct (OP_up e y Le Ey) as (_ & ? & _). lia. }
  assert (forall z, z ∈ (k :: l1) ++ l2 -> olive z /\ fl z <> 1) as Hall.
  { intros z [Hz|Hz]%elem_of_app; [by apply Hin|]. rewrite Forall_forall in A2. by destruct (A2 z Hz) as (? & ? & _). }
  destruct (omark_ok ((k :: l1) ++ l2) fl vr regs 0 (length (k :: l1) / 2) HV Hall) as (regs' & E3 & HV3).
  { apply NoDup_app. split; [by apply sorted_nd|]. split; [|by apply sorted_nd]. intros z Hz Hz2.
    pose proof (sorted_last_le _ _ Sd Ee) as Hle. rewrite Forall_forall in Hle, A2. specialize (Hle z Hz). destruct (A2 z Hz2) as (_ & _ & ?). lia. }
  exists l1, l2, regs', m, e. split; auto. split; auto. split; auto. split; auto. split.
  - unfold o_dedup. rewrite Ha, Hf, Hf0, Hs, Hp. cbn [Nat.eqb negb]. rewrite E1. cbv zeta.
    destruct (0 <? length (k :: l1) / 2); [|subst l2; exact E3]. rewrite Em, Ee.
    destruct (oi_live V lab regs0 HO P fl vr regs m HV Lm) as (cm & Hcm & _ & Hsm & _). destruct (oi_live V lab regs0 HO P fl vr regs e HV Le) as (ce & Hce & _ & _ & _ & _ & Hpe & _).
    by rewrite Hcm, Hce, Hsm, Hpe, E2.
  - split; auto. split; auto. split; auto. split; auto. split; [|intros z Hz; by apply Hall]. eapply oinv_ext; [|exact HV3]. intros z _. split; [|done]. cbn beta.
    destruct (decide (z ∈ _)) as [Hz|]; auto. rewrite Nat.sub_0_r. rewrite lookup_app_l, Em by done.
    destruct (decide (z = m)) as [->|Hne]; [by rewrite decide_True by (split; [lia|done])|]. rewrite decide_False; auto. intros [_ [=]]. congruence.
Qed.

(* whatever the parameters: every region ends up with flag 1 or 2 *)
Lemma dedup_any n regs fl0 vr : length regs0 < n -> oinv fl0 vr regs -> (forall i, fl0 i <= 1) ->
  exists regs' fl, sweep (o_dedup n P) (seq 0 (length regs0)) (regs, ninv regs) = Some (regs', ninv regs') /\ oinv fl vr regs' /\
    (forall i, olive i -> fl i = 1 \/ fl i = 2) /\ (forall i, fl0 i = 1 -> fl i = 1).
Proof using HO.
  intros Hn HV Hle. destruct (sweep_inv (o_dedup n P) (fun pre t => exists fl, oinv fl vr (fst t) /\ snd t = ninv (fst t) /\
    (forall i, fl i <= 2) /\ (forall i, i ∈ pre -> olive i -> fl i <> 0) /\ (forall i, fl0 i = 1 -> fl i = 1))
    (seq 0 (length regs0)) (regs, ninv regs)) as ([regs' c] & E & fl & I1 & I2 & I3 & I4 & I5).
  - exists fl0. cbn [fst snd]. split; auto. split; auto. split; [intros i; specialize (Hle i); lia|]. split; auto. intros i Hi. by apply elem_of_nil in Hi.
  - intros pre x suf [r m] El (fl & I1 & I2 & I3 & I4 & I5). cbn [fst snd] in *. subst m. apply seq_pre in El as (_ & _ & Hx).
    assert (forall a, r !! x = Some a -> o_flag a <> 0 -> (olive x -> fl x <> 0) -> exists t, o_dedup n P (r, ninv r) x = Some t /\
      exists fl', oinv fl' vr (fst t) /\ snd t = ninv (fst t) /\ (forall i, fl' i <= 2) /\ (forall i, i ∈ pre ++ [x] -> olive i -> fl' i <> 0) /\
        (forall i, fl0 i = 1 -> fl' i = 1)) as Hskip.
    { intros a Ha Hfa Hfx. exists (r, ninv r). unfold o_dedup. rewrite Ha. destruct (Nat.eqb_spec (o_flag a) 0); [done|]. split; auto.
      exists fl. cbn [fst snd]. split; auto. split; auto. split; auto. split; auto. intros i [Hi|Hi]%elem_of_app; auto.
      apply elem_of_list_singleton in Hi as ->. auto. }
    destruct (lookup_lt_is_Some_2 _ _ Hx) as [a0 Ha0]. destruct (oi_reg _ _ _ _ _ I1 x a0 Ha0) as (a & Ha & _ & Hm & Hl).
    destruct (o_merged a0) eqn:Em.
    { apply (Hskip a Ha); [destruct (Hm eq_refl) as [-> _]; lia|]. intros (c & Hc & Hmc). congruence. }
    destruct (Hl eq_refl) as (Hfa & _). assert (olive x) as Lx by (by exists a0). destruct (decide (fl x = 0)) as [Hz|Hz].
    2: { apply (Hskip a Ha); [congruence|done]. }
    destruct (dedup_step n fl vr r x Hn I1 Lx Hz) as (l1 & l2 & r' & mm & e & _ & _ & _ & _ & E & _ & _ & _ & _ & HV' & Hne).
    exists (r', ninv r'). split; auto. eexists. cbn [fst snd]. split; [exact HV'|]. split; auto. split; [|split].
    + intros i. destruct (decide (i ∈ _)); [destruct (decide (i = mm)); lia|auto].
    + intros i Hi Li. destruct (decide (i ∈ _)) as [|Hni]; [by destruct (decide (i = mm))|]. apply elem_of_app in Hi as [Hi|Hi]; [by apply I4|].
      apply elem_of_list_singleton in Hi as ->. exfalso. apply Hni. apply elem_of_list_here.
    + intros i Hi. destruct (decide (i ∈ _)) as [Hini|]; auto. exfalso. by apply (Hne i Hini), I5.
  - cbn [fst snd] in *. subst c. exists regs', fl. split; auto. split; auto. split; auto. intros i Li. specialize (I3 i).
    assert (i ∈ seq 0 (length regs0)) as Hin. { destruct Li as (a & Ha & _). apply lookup_lt_Some in Ha. apply elem_of_seq. lia. }
    specialize (I4 i Hin Li). lia.
Qed.

(* with a threshold below 1: the abstract run *)
Lemma dedup_abs n fl vr regs k : length regs0 < n -> oinv (fun i => fl (0, i)) vr regs -> (forall z, live0 z -> fl z <= 2) -> olive k -> big (0, k) = false ->
  (forall a b, live0 a -> fl a = 0 -> fl b = 2 -> sanc a b -> near (size0 a) (size0 b) = false) ->
  exists regs', o_dedup n P (regs, ninv regs) k = Some (regs', ninv regs') /\ oinv (fun i => astep fl (0, k) (0, i)) vr regs'.
Proof using HO.
  intros Hn HV Hfl Hk Hb Huv. destruct (decide (fl (0, k) = 0)) as [Hf|Hf].
  2: { exists regs. destruct (oi_live V lab regs0 HO P _ vr regs k HV Hk) as (a & Ha & _ & _ & Hfa & _). unfold o_dedup. rewrite Ha, Hfa.
    destruct (Nat.eqb_spec (fl (0, k)) 0); [done|]. split; auto. by rewrite astep_skip. }
  destruct (dedup_step n _ vr regs k Hn HV Hk Hf) as (l1 & l2 & regs' & m & e & E1 & Em & Ee & E2 & E & Lm & Le & Hm & He & HV' & _).
  exists regs'. split; auto. pose proof (proj1 (olive_live regs0 k) Hk) as Lk.
  pose proof (Hmono V lab2 F HI P) as Hmono.
  destruct (adup_spec RP size0 gray0 big near (NN F) live0 (fun x => dp F (Some x)) (HLd F H0 Hsz) (HNd F H0) (Hbigd F P) Hmono fl (0, k) Lk Hf Hb) as [D1 D2].
  pose proof (mspec_ok RP size0 gray0 big near (NN F) live0 (fun x => dp F (Some x)) (HLd F H0 Hsz) (HNd F H0) (Hbigd F P) Hmono fl (0, k) Lk Hf Hb) as HM.
  assert (forall z, olive z -> forall y, OP z = Some y -> olive y /\ dp F (Some (0, y)) <= NN F) as Hpre.
  { intros z Hz y Hy. destruct (OP_up z y Hz Hy) as (Hly & _). split; auto. apply (HNd F H0). by apply olive_live. }
  assert (forall z u w, olive z -> fl (0, z) = 0 -> OP z = Some u -> anc (0, u) w -> fl w = 2 -> near (size0 (0, z)) (size0 w) = false) as Hup.
  { intros z u w Hz Hfz Hu Hw H2. apply Huv; auto; [by apply olive_live|]. eapply tc_rtc_r; [apply tc_once|exact Hw].
    by destruct (OP_up z u Hz Hu) as (_ & _ & _ & ? & _). }
  assert (pair 0 <$> k :: l1 = adup fl (0, k)) as EA.
  { unfold DupAbs.adup. change (pair 0 <$> k :: l1) with ((0, k) :: (pair 0 <$> l1)). f_equal. destruct (OP_some V lab regs0 HO k Hk) as [-> _].
    apply (odup_walk fl vr regs _ n (OP k) l1 (NN F) HV Hfl (Hpre k Hk)); [|exact E1]. intros y z Hy Hyz H2. by apply (Hup k y z). }
  assert (forall z : nat, z ∈ k :: l1 -> (0, z) ∈ adup fl (0, k)) as Hin. { intros z Hz. rewrite <-EA. by apply elem_of_list_fmap_1. }
  assert (forall z, z ∈ adup fl (0, k) -> fl z = 0) as Hz0. { intros z [->|(_ & ? & _)]%D1; auto. }
  assert (length (adup fl (0, k)) = length (k :: l1)) as EL by (by rewrite <-EA, fmap_length).
  assert (akeep fl (0, k) = (0, m)) as EK.
  { unfold DupAbs.akeep, DupAbs.amid. rewrite EL. apply nth_lookup_Some. by rewrite <-EA, list_lookup_fmap, Em. }
  assert (aend fl (0, k) = (0, e)) as EE.
  { unfold DupAbs.aend. pose proof (last_nth2 (awalk (NN F) fl (size0 (0, k)) (RP (0, k))) (0, k)) as H. fold (adup fl (0, k)) in H.
    rewrite <-EA in H at 1. rewrite fmap_last, Ee in H. change (pair 0 <$> Some e) with (Some (0, e)) in H. congruence. }
  assert (pair 0 <$> l2 = amore fl (0, k)) as EM.
  { unfold DupAbs.amore, DupAbs.amid. rewrite EL, EK, EE. destruct (0 <? length (k :: l1) / 2); [|by subst l2].
    destruct (OP_some V lab regs0 HO e Le) as [-> _]. apply (odup_walk fl vr regs _ n (OP e) l2 (NN F) HV Hfl (Hpre e Le)); [|exact E2].
    intros y z Hy Hyz H2. apply Huv; auto; [by apply olive_live|].
    assert (anc (0, m) (0, e)) as Hme.
    { assert (forall (l : list rref) i u w, StronglySorted sanc l -> l !! i = Some u -> last l = Some w -> anc u w) as HL.
      { clear. induction l as [|v l IH]; intros i u w Hs Hi Hw; [done|]. inversion Hs as [|? ? Hs' Hall]; subst.
        destruct i as [|i].
        - injection Hi as ->. rewrite last_cons in Hw. destruct (last l) as [w'|] eqn:E.
          + injection Hw as ->. rewrite Forall_forall in Hall. apply tc_rtc, Hall. by apply last_Some_elem_of.
          + injection Hw as ->. reflexivity.
        - cbn in Hi. apply (IH i u w Hs' Hi). destruct l as [|v2 l]; [done|]. exact Hw. }
      apply (HL (adup fl (0, k)) (length (k :: l1) / 2)); auto; rewrite <-EA; [by rewrite list_lookup_fmap, Em|by rewrite fmap_last, Ee]. }
    eapply tc_rtc_l; [exact Hme|]. eapply tc_rtc_r; [apply tc_once|exact Hyz]. by destruct (OP_up e y Le Hy) as (_ & _ & _ & ? & _). }
  assert (pair 0 <$> (k :: l1) ++ l2 = amarked fl (0, k)) as EMM. { unfold DupAbs.amarked. by rewrite fmap_app, EA, EM. }
  eapply oinv_ext; [|exact HV']. intros i _. split; [|done]. cbn beta. rewrite astep_spec, EK by done.
  assert ((0, i) ∈ amarked fl (0, k) <-> i ∈ (k :: l1) ++ l2) as Hiff.
  { rewrite <-EMM, elem_of_list_fmap. split; [intros (j & [= ->] & ?); done|eauto]. }
  destruct (decide (i = m)) as [->|Hne].
  - rewrite (decide_True (P := (0, m) = (0, m))) by done. rewrite decide_True; auto. apply elem_of_app; auto.
  - rewrite (decide_False (P := (0, i) = (0, m))) by congruence. destruct (decide (i ∈ _)) as [H|H].
    + rewrite decide_True; auto. by apply Hiff.
    + rewrite decide_False; auto. by rewrite Hiff.
Qed.
End dup.
