(* Recognition of the original implementation, loop by loop. *)
From stdpp Require Import sorting relations functions list_numbers list.
From Coq Require Import NArith ZArith SpecFloat.
From Verif Require Import Spec TreeSpec TreeFacts JoinMath FloodModel ConnectModel ConnectProof FloatModel FloatFacts RecogModel RecogSpec RecogStatic RecogWorkers
  RecogSched RecogNms RecogSerial RecogOrder DupAbs RecogDup RecogTree RecogCompose RecogFinal RecogResults V1RecogModel V1Recog V1BuildModel V1Sort OrgModel OrgTree OrgLink.
Local Open Scope nat_scope.

Section rec.
Context (V : view) (lab : nat -> nat) (regs0 : list oreg) (HO : ostart V lab regs0) (P : rparam) (Hd : delta_ok P).
Notation F := (ofo regs0). Notation OP := (OP regs0). Notation olive := (olive regs0).
Notation lab2 := (fun p => (0, lab p)).
Let HI := ostart_input V lab regs0 HO.
Let H0 := input_start V _ F HI.
Notation thr i := (Z.of_nat (gray0 F (0%nat, i)) + p_delta P)%Z.

Lemma top_top t t' x : live0 F x -> (t' <= t)%Z -> top F t (top F t' x) = top F t x.
Proof using HO.
  intros Hx Ht. revert x Hx. apply (live0_ind F H0 (fun x => top F t (top F t' x) = top F t x)). intros x Hx IH.
  destruct (RP F x) as [y|] eqn:E.
  - destruct (Z.leb_spec (Z.of_nat (gray0 F y)) t') as [Hle|Hlt].
    + rewrite (top_up F H0 t' x y), (top_up F H0 t x y) by (auto; lia). by apply IH.
    + rewrite (top_stop F t' x); auto. intros y' Hy'. assert (y' = y) as -> by congruence. lia.
  - rewrite (top_stop F t' x); auto. intros y' Hy'. congruence.
Qed.

(* a short cut the climb may start from *)
Definition shok (i s : nat) : Prop := olive s /\ ((0 < p_delta P)%Z -> top F (thr i) (0, s) = top F (thr i) (0, i)).

(* the regions between the loops: flags and variations of the surviving ones *)
Record oinv (fl : nat -> nat) (vr : nat -> flt) (regs : list oreg) : Prop := {
  oi_len : length regs = length regs0;
  oi_reg : forall i a0, regs0 !! i = Some a0 -> exists a, regs !! i = Some a /\ osame a0 a /\
    (o_merged a0 = true -> o_flag a = 1 /\ o_var a = fminus1 /\ o_par a = o_par a0) /\
    (o_merged a0 = false -> o_flag a = fl i /\ o_var a = vr i /\ o_par a = OP i /\ shok i (o_short a))
}.
Lemma oi_live fl vr regs i : oinv fl vr regs -> olive i -> exists a, regs !! i = Some a /\ o_gray a = gray0 F (0%nat, i) /\ o_size a = size0 F (0%nat, i) /\
  o_flag a = fl i /\ o_var a = vr i /\ o_par a = OP i /\ shok i (o_short a).
Proof using HO.
  intros HV (a0 & Ha0 & Hm). destruct (oi_reg _ _ _ HV i a0 Ha0) as (a & Ha & (_ & _ & _ & S4 & S5) & _ & H). exists a. split; auto.
  unfold gray0, size0. rewrite ofo_get, Ha0. cbn. destruct (H Hm) as (? & ? & ? & ?). auto 10.
Qed.
Lemma oinv_ext fl vr fl' vr' regs : (forall i, olive i -> fl i = fl' i /\ vr i = vr' i) -> oinv fl vr regs -> oinv fl' vr' regs.
Proof.
  intros He [H1 H2]. constructor; auto. intros i a0 Ha0. destruct (H2 i a0 Ha0) as (a & ? & ? & ? & H). exists a. split; auto. split; auto. split; auto.
  intros Hm. destruct (He i) as [<- <-]; [by exists a0|]. auto.
Qed.
Lemma oinv_set fl vr regs i a b : oinv fl vr regs -> olive i -> regs !! i = Some a -> osame a b -> o_par b = o_par a ->
  shok i (o_short b) -> oinv (<[i := o_flag b]> fl) (<[i := o_var b]> vr) (<[i := b]> regs).
Proof.
  intros [H1 H2] (c & Hc & Hm) Ha Hs Hp Hsh. constructor; [by rewrite insert_length|]. intros j a0 Ha0. destruct (decide (j = i)) as [->|Hne].
  - assert (c = a0) as -> by congruence. destruct (H2 i a0 Ha0) as (a' & Ha' & S1 & _ & S2). assert (a' = a) as -> by congruence.
    exists b. rewrite list_lookup_insert by (by eapply lookup_lt_Some). split; auto. split.
    { destruct S1 as (? & ? & ? & ? & ?), Hs as (? & ? & ? & ? & ?). unfold osame. split_and!; congruence. }
    split; [congruence|]. intros _. rewrite !fn_lookup_insert. destruct (S2 Hm) as (_ & _ & ? & _). split; auto. split; auto. split; [congruence|done].
  - rewrite list_lookup_insert_ne, !fn_lookup_insert_ne by done. by apply H2.
Qed.
Lemma oinv_start regs : linked regs0 (length regs0) regs -> oinv (fun _ => 0) (fun _ => fminus1) regs.
Proof using HO.
  intros [L1 L2]. constructor; auto. intros i a0 Ha0. pose proof (lookup_lt_Some _ _ _ Ha0) as Hi.
  destruct (L2 i a0 Ha0) as (a & Ha & Hs & Hv & Hmer & Hl & Hsh). exists a. split; auto. split; auto. split.
  - intros Hm. destruct (Hmer Hm) as [Hp Hf]. rewrite decide_True in Hf by done. auto.
  - intros Hm. destruct (Hl Hm) as (Hf & _ & Hp). split; auto. split; auto. split; auto. rewrite (Hsh Hi). split; auto. by exists a0.
Qed.

(* ---------- variations and limits ---------- *)
Lemma climb_org fl vr regs t n i : oinv fl vr regs -> olive i -> dp F (Some (0, i)) <= n ->
  exists k, olive k /\ top F t (0, i) = (0, k) /\ o_climb n regs t i (OP i) = Some (k, OP k).
Proof using HO.
  intros HV. revert i. induction n as [|n IH]; intros i Hi Hn.
  - apply olive_live in Hi as (a & Ha & _). destruct (dp_some F H0 (0, i) a Ha) as [E _]. lia.
  - cbn [o_climb]. destruct (OP_some V lab regs0 HO i Hi) as [ER HOP]. pose proof (proj1 (olive_live regs0 i) Hi) as Li.
    destruct (OP i) as [y|] eqn:Ey.
    + pose proof (HOP y eq_refl) as Hy. destruct (oi_live fl vr regs y HV Hy) as (b & Hb & Hg & _ & _ & _ & Hp & _). rewrite Hb, Hg, Hp.
      destruct (Z.leb_spec (Z.of_nat (gray0 F (0%nat, y))) t) as [Hle|Hlt].
      * rewrite (top_up F H0 t (0, i) (0, y)) by auto. apply IH; auto.
        pose proof Li as (a & Ha & _). pose proof (dp_RP F H0 (0, i) a (0, y) Ha ER). lia.
      * exists i. split; auto. rewrite (top_stop F t (0, i)); [by rewrite Ey|done|]. intros z Hz. rewrite ER in Hz. injection Hz as <-. lia.
    + exists i. split; auto. rewrite (top_stop F t (0, i)); [by rewrite Ey|done|]. intros z Hz. rewrite ER in Hz. done.
Qed.

Definition VARo (i : nat) : flt := if (0 <? p_delta P)%Z then VAR F P (0, i) else fminus1.
Lemma variation_org n fl vr regs i : length regs0 < n -> (0 < p_delta P)%Z -> oinv fl vr regs -> olive i -> vr i = fminus1 ->
  exists regs', o_variation n P regs i = Some regs' /\ oinv fl (<[i := VAR F P (0, i)]> vr) regs' /\ ninv regs' = ninv regs.
Proof using HO Hd.
  intros Hn Hpos HV Hi Hv. destruct (oi_live fl vr regs i HV Hi) as (a & Ha & Hg & Hsz & Hf & Hva & Hp & Hs1 & Hs2).
  unfold o_variation. rewrite Ha, Hg. pose proof (proj1 (olive_live regs0 i) Hi) as Li.
  rewrite (add_z_ok P Hd) by (by apply gray_byte).
  destruct (oi_live fl vr regs _ HV Hs1) as (s & Hs & _ & _ & _ & _ & Hps & _). rewrite Hs, Hps.
  destruct (climb_org fl vr regs (thr i) n (o_short a) HV Hs1) as (t & Ht & Et & ->).
  { apply olive_live in Hs1. pose proof (dp_le F H0 _ Hs1) as H. rewrite ofo_nregs in H. lia. }
  rewrite (Hs2 Hpos) in Et. destruct (oi_live fl vr regs t HV Ht) as (b & Hb & Hgb & Hszb & _). rewrite Hb, Hgb.
  destruct (OP_some V lab regs0 HO t Ht) as [ERt _].
  assert (VAR F P (0, i) = if (match OP t with Some _ => true | None => false end) || (Z.of_nat (gray0 F (0%nat, t)) =? thr i)%Z
    then f32_growth (o_size b) (o_size a) else fminus1) as EV.
  { unfold VAR. rewrite Et, ERt, Hszb, Hsz. by destruct (OP t). }
  destruct (_ || _) eqn:Ec.
  - destruct (OP_some V lab regs0 HO i Hi) as [ERi HOP]. rewrite Hp. destruct (OP i) as [y|] eqn:Ey.
    2: { exfalso. rewrite (top_stop F (thr i) (0, i)) in Et; auto; [|intros z Hz; rewrite ERi in Hz; done]. injection Et as <-.
      rewrite Ey in Ec. cbn [orb] in Ec. apply Z.eqb_eq in Ec. lia. }
    pose proof (HOP y eq_refl) as Hy. destruct (oi_live fl vr regs y HV Hy) as (c & Hc & _ & _ & Hfc & Hvc & _ & _). rewrite Hc.
    destruct (live0_RP F H0 (0, i) (0, y) Li ERi) as [Ly Hgy].
    assert (oinv fl vr (<[y := oset_short c t]> regs)) as HV1.
    { eapply oinv_ext; [|apply (oinv_set fl vr regs y c (oset_short c t) HV Hy Hc)]; cbn; auto.
      - intros j _. rewrite Hfc, Hvc. destruct (decide (j = y)) as [->|]; [by rewrite !fn_lookup_insert|by rewrite !fn_lookup_insert_ne].
      - done.
      - split; auto. intros _. rewrite <-Et. rewrite (top_top (thr y) (thr i)) by (auto; lia). apply (top_up F H0); auto. lia. }
    destruct (oi_live fl vr _ i HV1 Hi) as (a1 & Ha1 & _ & Hsz1 & Hf1 & Hv1 & Hp1 & Hsh1). rewrite Ha1, <-EV. eexists. split; [done|]. split.
    + eapply oinv_ext; [|apply (oinv_set fl vr _ i a1 (oset_var a1 (VAR F P (0, i))) HV1 Hi Ha1)]; cbn; auto.
      * intros j _. split; [|done]. rewrite Hf1. destruct (decide (j = i)) as [->|]; [by rewrite !fn_lookup_insert|by rewrite !fn_lookup_insert_ne].
      * done.
    + rewrite (ninv_same _ i a1) by done. by rewrite (ninv_same _ y c).
  - exists regs. split; [done|]. split; [|done]. eapply oinv_ext; [|exact HV]. intros j _. split; [done|].
    rewrite EV. destruct (decide (j = i)) as [->|]; [by rewrite fn_lookup_insert|by rewrite fn_lookup_insert_ne].
Qed.

(* SPEC: the region passes variation and size limits *)
Definition OKo (i : nat) : bool :=
  negb ((0 <? p_delta P)%Z && fgt (VAR F P (0, i)) (p_stable P)) &&
  negb ((Z.of_nat (size0 F (0%nat, i)) <? p_min P)%Z || (p_max P <? Z.of_nat (size0 F (0%nat, i)))%Z).
Definition B1 (k i : nat) : nat := if decide (i < k) then (if OKo i then 0 else 1) else 0.
Definition V1 (k i : nat) : flt := if decide (i < k) then VARo i else fminus1.

Lemma base_one n k regs : length regs0 < n -> k < length regs0 -> oinv (B1 k) (V1 k) regs ->
  exists regs', o_base n P (regs, ninv regs) k = Some (regs', ninv regs') /\ oinv (B1 (S k)) (V1 (S k)) regs'.
Proof using HO Hd.
  intros Hn Hk HV. destruct (lookup_lt_is_Some_2 _ _ Hk) as [a0 Ha0]. unfold o_base.
  assert (forall i, i <> k -> B1 (S k) i = B1 k i /\ V1 (S k) i = V1 k i) as Hoth.
  { intros i Hne. unfold B1, V1. destruct (decide (i < S k)), (decide (i < k)); auto; lia. }
  destruct (o_merged a0) eqn:Em.
  - destruct (oi_reg _ _ _ HV k a0 Ha0) as (a & Ha & _ & Hm & _). destruct (Hm Em) as [Hf _]. rewrite Ha, Hf. cbn [Nat.eqb].
    exists regs. split; auto. eapply oinv_ext; [|exact HV]. intros i Hi. assert (i <> k) as Hne. { intros ->. destruct Hi as (c & Hc & Hm'). congruence. }
    destruct (Hoth i Hne). auto.
  - assert (olive k) as Lk by (by exists a0). destruct (oi_live _ _ _ k HV Lk) as (a & Ha & _ & _ & Hf & Hv & _).
    assert (B1 k k = 0 /\ V1 k k = fminus1) as [Eb Ev] by (unfold B1, V1; rewrite !decide_False by lia; auto).
    rewrite Ha, Hf, Eb. cbn [Nat.eqb].
    assert (exists regs1, (if (0 <? p_delta P)%Z then o_variation n P regs k else Some regs) = Some regs1 /\
      oinv (B1 k) (<[k := VARo k]> (V1 k)) regs1 /\ ninv regs1 = ninv regs) as (regs1 & -> & HV1 & En).
    { unfold VARo. destruct (Z.ltb_spec 0 (p_delta P)) as [Hp|Hp]; [by apply variation_org|]. exists regs. split; auto. split; auto.
      eapply oinv_ext; [|exact HV]. intros i _. split; auto. destruct (decide (i = k)) as [->|]; [by rewrite fn_lookup_insert|by rewrite fn_lookup_insert_ne]. }
    destruct (oi_live _ _ _ k HV1 Lk) as (a1 & Ha1 & _ & Hsz & Hf1 & Hv1 & _ & Hsh). rewrite Ha1, Hsz, Hv1, fn_lookup_insert.
    assert (OKo k = negb ((0 <? p_delta P)%Z && fgt (VARo k) (p_stable P)) &&
      negb ((Z.of_nat (size0 F (0%nat, k)) <? p_min P)%Z || (p_max P <? Z.of_nat (size0 F (0%nat, k)))%Z)) as EO.
    { unfold OKo, VARo. by destruct (0 <? p_delta P)%Z. }
    assert (OKo k = true -> exists regs', Some (regs1, ninv regs) = Some (regs', ninv regs') /\ oinv (B1 (S k)) (V1 (S k)) regs') as Hyes.
    { intros Ho. exists regs1. rewrite En. split; auto. eapply oinv_ext; [|exact HV1]. intros i _. destruct (decide (i = k)) as [->|Hne].
      - rewrite fn_lookup_insert. unfold B1, V1. rewrite (decide_False (P := k < k)), !decide_True by lia. by rewrite Ho.
      - rewrite fn_lookup_insert_ne by done. destruct (Hoth i Hne). auto. }
    assert (OKo k = false -> exists regs', Some (<[k := oset_flag a1 1]> regs1, S (ninv regs)) = Some (regs', ninv regs') /\
      oinv (B1 (S k)) (V1 (S k)) regs') as Hno.
    { intros Ho. eexists. split.
      { f_equal. f_equal. pose proof (ninv_set regs1 k a1 (oset_flag a1 1) Ha1) as E. rewrite Hf1, Eb in E. cbn [Nat.eqb oset_flag o_flag] in E. lia. }
      eapply oinv_ext; [|apply (oinv_set _ _ regs1 k a1 (oset_flag a1 1) HV1 Lk Ha1)]; cbn [oset_flag o_flag o_var o_short]; auto.
      - intros i _. destruct (decide (i = k)) as [->|Hne].
        + rewrite !fn_lookup_insert, Hv1, fn_lookup_insert. unfold B1, V1. rewrite !decide_True by lia. by rewrite Ho.
        + rewrite !fn_lookup_insert_ne by done. destruct (Hoth i Hne). auto.
      - done. }
    destruct ((0 <? p_delta P)%Z && fgt (VARo k) (p_stable P)); cbn [negb andb] in EO; [by apply Hno|].
    destruct (_ || _); cbn [negb] in EO; [by apply Hno|by apply Hyes].
Qed.

Lemma base_ok n regs : length regs0 < n -> oinv (fun _ => 0) (fun _ => fminus1) regs ->
  exists regs', sweep (o_base n P) (seq 0 (length regs0)) (regs, ninv regs) = Some (regs', ninv regs') /\
    oinv (fun i => if OKo i then 0 else 1) VARo regs'.
Proof using HO Hd.
  intros Hn HV. destruct (sweep_inv (o_base n P) (fun pre t => oinv (B1 (length pre)) (V1 (length pre)) (fst t) /\ snd t = ninv (fst t))
    (seq 0 (length regs0)) (regs, ninv regs)) as ([regs' k] & E & I1 & I2).
  - cbn [length fst snd]. split; [|done]. eapply oinv_ext; [|exact HV]. intros i _. unfold B1, V1. by rewrite !decide_False by lia.
  - intros pre x suf [r m] El [I1 I2]. cbn [fst snd] in *. subst m. apply seq_pre in El as (-> & _ & Hx).
    destruct (base_one n _ r Hn Hx I1) as (r' & E & H). exists (r', ninv r'). split; auto. cbn [fst snd]. rewrite app_length, Nat.add_1_r. auto.
  - cbn [fst snd] in *. subst k. exists regs'. split; auto. rewrite seq_length in I1. eapply oinv_ext; [|exact I1]. intros i (a & Ha & _).
    apply lookup_lt_Some in Ha. unfold B1, V1. by rewrite !decide_True.
Qed.

(* ---------- suppression ---------- *)
Definition FLo (xs : list rref) (i : nat) : nat := if OKo i && negb (kills F P xs (0, i)) then 0 else 1.
Lemma FLo_app xs x i : FLo (xs ++ [x]) i = if bool_decide (vic F P x = Some (0, i)) then 1 else FLo xs i.
Proof.
  unfold FLo. rewrite kills_app. unfold kills at 2. cbn [existsb]. rewrite orb_false_r.
  case_bool_decide; [by rewrite orb_true_r, andb_false_r|by rewrite orb_false_r].
Qed.
Lemma kill_org xs x z regs : oinv (FLo xs) VARo regs -> olive z -> vic F P x = Some (0, z) ->
  exists regs', o_kill (regs, ninv regs) z = Some (regs', ninv regs') /\ oinv (FLo (xs ++ [x])) VARo regs'.
Proof using HO.
  intros HV Hz Hv. destruct (oi_live _ _ _ z HV Hz) as (c & Hc & _ & _ & Hf & Hvc & _ & Hsh). unfold o_kill. rewrite Hc.
  assert (forall i, i <> z -> FLo (xs ++ [x]) i = FLo xs i) as Hoth.
  { intros i Hne. rewrite FLo_app, bool_decide_eq_false_2; [done|]. rewrite Hv. congruence. }
  assert (FLo (xs ++ [x]) z = 1) as Ez by (by rewrite FLo_app, bool_decide_eq_true_2).
  destruct (Nat.eqb_spec (o_flag c) 1) as [E1|E1].
  - exists regs. split; auto. eapply oinv_ext; [|exact HV]. intros i _. split; auto. destruct (decide (i = z)) as [->|]; [congruence|symmetry; auto].
  - eexists. split.
    { f_equal. f_equal. pose proof (ninv_set regs z c (oset_flag c 1) Hc) as E. destruct (Nat.eqb_spec (o_flag c) 1); [done|]. cbn [Nat.eqb oset_flag o_flag] in E. lia. }
    eapply oinv_ext; [|apply (oinv_set _ _ regs z c (oset_flag c 1) HV Hz Hc)]; cbn [oset_flag o_flag o_var o_short]; auto; [|done].
    intros i _. destruct (decide (i = z)) as [->|Hne]; [by rewrite !fn_lookup_insert|]. rewrite !fn_lookup_insert_ne by done. split; auto. symmetry. auto.
Qed.
Lemma nms_one k regs : (0 < p_delta P)%Z -> fge (p_nms P) fzero = true -> k < length regs0 -> oinv (FLo (pair 0 <$> seq 0 k)) VARo regs ->
  exists regs', o_nms P (regs, ninv regs) k = Some (regs', ninv regs') /\ oinv (FLo (pair 0 <$> seq 0 (S k))) VARo regs'.
Proof using HO.
  intros Hp Hn Hk HV. rewrite seq_S, fmap_app. cbn [fmap list_fmap plus]. set (xs := pair 0 <$> seq 0 k) in *.
  assert (vic F P (0, k) = None -> exists regs', Some (regs, ninv regs) = Some (regs', ninv regs') /\ oinv (FLo (xs ++ [(0, k)])) VARo regs') as Hnone.
  { intros Hv. exists regs. split; auto. eapply oinv_ext; [|exact HV]. intros i _. split; auto. by rewrite FLo_app, Hv. }
  destruct (lookup_lt_is_Some_2 _ _ Hk) as [a0 Ha0]. unfold o_nms. destruct (o_merged a0) eqn:Em.
  - destruct (oi_reg _ _ _ HV k a0 Ha0) as (a & Ha & _ & Hm & _). destruct (Hm Em) as (_ & Hv & _). rewrite Ha, Hv.
    assert (vic F P (0, k) = None) as Hvn. { apply vic_dead. intros (c & Hc & Hfc). rewrite ofo_get, Ha0 in Hc. injection Hc as <-. cbn in Hfc. by rewrite Em in Hfc. }
    destruct (o_par a); [change (fge fminus1 fzero) with false; cbn match|]; by apply Hnone.
  - assert (olive k) as Lk by (by exists a0). pose proof (proj1 (olive_live regs0 k) Lk) as LL.
    assert (forall i, olive i -> VARo i = VAR F P (0, i) /\ fge (VARo i) fzero = has_var F P (0, i)) as HVo.
    { intros i Hi%olive_live. unfold VARo. destruct (Z.ltb_spec 0 (p_delta P)); [|lia]. split; auto. by apply (var_defined V lab2 F HI P). }
    destruct (oi_live _ _ _ k HV Lk) as (a & Ha & Hg & _ & _ & Hv & Hpa & _). destruct (HVo k Lk) as [EV Ehv]. rewrite Ha, Hv, Hpa, Hg, Ehv.
    destruct (OP_some V lab regs0 HO k Lk) as [ER HOP]. destruct (OP k) as [y|] eqn:Ey.
    2: { apply Hnone. unfold vic. by rewrite ER. }
    cbn [fmap option_fmap option_map] in ER.
    pose proof (HOP y eq_refl) as Ly. destruct (has_var F P (0, k)) eqn:Ehk.
    2: { apply Hnone. unfold vic. rewrite ER, Ehk, andb_false_r. done. }
    destruct (oi_live _ _ _ y HV Ly) as (b & Hb & Hgb & _ & _ & Hvb & _ & _). destruct (HVo y Ly) as [EVy Ehy]. rewrite Hb, Hvb, Ehy, Hgb.
    assert (vic F P (0, k) = if has_var F P (0, y) && (gray0 F (0%nat, y) =? gray0 F (0%nat, k) + 1) then
        if fgt (var_diff (VARo y) (VARo k)) (f64_of_f32 (p_nms P)) then Some (0, y)
        else if fgt (SFopp (var_diff (VARo y) (VARo k))) (f64_of_f32 (p_nms P)) then Some (0, k) else None else None) as Ev.
    { unfold vic. rewrite ER, Ehk, Hn, (proj2 (lv_live F (0, k)) LL), EVy, EV. cbn [andb]. done. }
    destruct (_ && _); [|by apply Hnone]. cbv zeta.
    destruct (fgt (var_diff _ _) _); [by apply kill_org|]. destruct (fgt (SFopp _) _); [by apply kill_org|by apply Hnone].
Qed.
Lemma nms_ok regs : (0 < p_delta P)%Z -> fge (p_nms P) fzero = true -> oinv (FLo []) VARo regs ->
  exists regs', sweep (o_nms P) (seq 0 (length regs0)) (regs, ninv regs) = Some (regs', ninv regs') /\
    oinv (FLo (pair 0 <$> seq 0 (length regs0))) VARo regs'.
Proof using HO.
  intros Hp Hn HV. destruct (sweep_inv (o_nms P) (fun pre t => oinv (FLo (pair 0 <$> pre)) VARo (fst t) /\ snd t = ninv (fst t))
    (seq 0 (length regs0)) (regs, ninv regs)) as ([regs' k] & E & I1 & I2).
  - split; auto.
  - intros pre x suf [r m] El [I1 I2]. cbn [fst snd] in *. subst m. apply seq_pre in El as (_ & -> & Hx).
    destruct (nms_one x r Hp Hn Hx I1) as (r' & E & H). exists (r', ninv r'). split; auto. cbn [fst snd]. rewrite seq_S in H. auto.
  - cbn [fst snd] in *. subst k. eauto.
Qed.

(* SPEC: the flags before duplicates are removed *)
Definition FL1 (i : nat) : nat :=
  if (0 <? p_delta P)%Z && fge (p_nms P) fzero then FLo (pair 0 <$> seq 0 (length regs0)) i else if OKo i then 0 else 1.
Lemma upto_dedup n : length regs0 < n -> exists regs t1 t2, sweep (o_link n) (seq 0 (length regs0)) (regs0, 0) = Some t1 /\
  sweep (o_base n P) (seq 0 (length regs0)) t1 = Some t2 /\
  (if (0 <? p_delta P)%Z && fge (p_nms P) fzero then sweep (o_nms P) (seq 0 (length regs0)) t2 else Some t2) = Some (regs, ninv regs) /\
  oinv FL1 VARo regs.
Proof using HO Hd.
  intros Hn. destruct (link_ok V lab regs0 HO n Hn) as (r1 & E1 & L1). destruct (base_ok n r1 Hn (oinv_start r1 L1)) as (r2 & E2 & L2).
  unfold FL1. destruct (Z.ltb_spec 0 (p_delta P)) as [Hp|Hp]; cbn [andb]; [|by exists r2, (r1, ninv r1), (r2, ninv r2)].
  destruct (fge (p_nms P) fzero) eqn:En; [|by exists r2, (r1, ninv r1), (r2, ninv r2)].
  destruct (nms_ok r2 Hp En) as (r3 & E3 & L3).
  { eapply oinv_ext; [|exact L2]. intros i _. split; auto. unfold FLo. cbn. by destruct (OKo i). }
  exists r3, (r1, ninv r1), (r2, ninv r2). auto.
Qed.
End rec.
