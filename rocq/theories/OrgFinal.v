(* Recognition of the original implementation as a whole. *)
From stdpp Require Import sorting relations functions list_numbers list.
From Coq Require Import NArith ZArith SpecFloat.
From Verif Require Import Spec TreeSpec TreeFacts JoinMath JoinCorrect FloodModel ConnectModel ConnectProof FloatModel FloatFacts RecogModel RecogSpec RecogStatic RecogWorkers
  RecogSched RecogNms RecogSerial RecogOrder DupAbs RecogDup RecogTree RecogPixels RecogCompose RecogFinal RecogResults V1RecogModel V1Recog V1BuildModel V1Sort WholeProof OrgModel OrgTree OrgLink OrgRecog OrgDup.
Local Open Scope nat_scope.

Section fin.
Context (V : view) (lab : nat -> nat) (regs0 : list oreg) (HO : ostart V lab regs0) (P : rparam) (Hd : delta_ok P).
Notation F := (ofo regs0). Notation OP := (OP regs0). Notation olive := (olive regs0).
Notation lab2 := (fun p => (0, lab p)).
Notation oinv := (oinv regs0 P).
Let HI := ostart_input V lab regs0 HO.
Let H0 := input_start V _ F HI.
Let Hsz := size_lt V _ F HI.
Notation RP := (RP F). Notation size0 := (size0 F). Notation gray0 := (gray0 F). Notation live0 := (live0 F).
Notation big := (fun x => too_big P (size0 x)). Notation near := (nearf P).
Notation astep := (astep RP size0 big near (NN F)).
Notation fl0 := (flags F P One).
Notation ids := (pair 0 <$> seq 0 (length regs0)).

Lemma allvis_org : allvis F = ids.
Proof. unfold allvis, vis, len0. cbn. by rewrite app_nil_r, imap_length. Qed.

Lemma FL1_le i : FL1 regs0 P i <= 1.
Proof. unfold FL1, FLo. destruct (_ && fge _ _); [by destruct (OKo _ _ _ && _); lia|]. destruct (OKo _ _ _); lia. Qed.
Lemma FL1_ok i : FL1 regs0 P i = 0 -> OKo regs0 P i = true.
Proof. unfold FL1, FLo. destruct (OKo regs0 P i); [done|]. cbn. by destruct (_ && _). Qed.

Lemma org_any n : length regs0 < n -> exists regs fl, o_recognize n P regs0 = Some (regs, ninv regs) /\ oinv fl (VARo regs0 P) regs /\
  (forall i, olive i -> fl i = 1 \/ fl i = 2) /\ (forall i, fl i = 2 -> OKo regs0 P i = true).
Proof using HO Hd.
  intros Hn. destruct (upto_dedup V lab regs0 HO P Hd n Hn) as (regs & t1 & t2 & E1 & E2 & E3 & HV).
  destruct (dedup_any V lab regs0 HO P n regs (FL1 regs0 P) _ Hn HV FL1_le) as (regs' & fl & E4 & HV' & H1 & H2).
  exists regs', fl. unfold o_recognize. rewrite E1, E2, E3, E4. split; auto. split; auto. split; auto.
  intros i Hi. apply FL1_ok. pose proof (FL1_le i). destruct (decide (FL1 regs0 P i = 1)) as [E|]; [|lia]. apply H2 in E. lia.
Qed.

Lemma CL_org : CL F fl0 = List.filter (fun z => lv F z && (fl0 z =? 0)) ids.
Proof using HO.
  assert (StronglySorted (clt F) (List.filter (fun z => lv F z && (fl0 z =? 0)) ids)) as Hs.
  { assert (StronglySorted (clt F) ids) as H; [|by apply sorted_filter].
    assert (forall k b, b + k <= length regs0 -> StronglySorted (clt F) (pair 0 <$> seq b k)) as H; [|by apply H].
    induction k as [|k IH]; intros b Hb; cbn [seq fmap list_fmap]; constructor; [apply IH; lia|].
    apply Forall_forall. intros z Hz. change (z ∈ pair 0 <$> seq (S b) k) in Hz. apply elem_of_list_fmap in Hz as (j & -> & Hj%elem_of_seq).
    destruct (lookup_lt_is_Some_2 regs0 b) as [a Ha]; [lia|]. destruct (lookup_lt_is_Some_2 regs0 j) as [c Hc]; [lia|].
    pose proof (os_sort _ _ _ HO b j a c ltac:(lia) Ha Hc) as Hg. unfold clt. unfold RecogStatic.gray0. rewrite !ofo_get, Ha, Hc. cbn.
    destruct (decide (o_gray a = o_gray c)); [right|left; lia]. split; auto. right. cbn. lia. }
  assert (forall l l' : list rref, StronglySorted (clt F) l -> StronglySorted (clt F) l' -> (forall z, z ∈ l <-> z ∈ l') -> l = l') as Hu.
  { assert (forall x, ~ clt F x x) as Hirr. { intros x [?|[_ Hr]]; [lia|]. unfold rlt in Hr. lia. }
    assert (forall x y, clt F x y -> ~ clt F y x) as Has. { intros x y [?|[? Hr]] [?|[? Hr']]; try lia. unfold rlt in *. lia. }
    induction l as [|x l IH]; intros l' S1 S2 He.
    - destruct l' as [|y l']; auto. exfalso. apply (not_elem_of_nil y), He, elem_of_list_here.
    - destruct l' as [|y l']. { exfalso. apply (not_elem_of_nil x), He, elem_of_list_here. }
      inversion S1 as [|? ? S1' X1]; inversion S2 as [|? ? S2' X2]; subst. rewrite Forall_forall in X1, X2.
      assert (x = y) as ->.
      { assert (x ∈ y :: l') as Hx by (apply He, elem_of_list_here). assert (y ∈ x :: l) as Hy by (apply He, elem_of_list_here).
        apply elem_of_cons in Hx as [?|Hx]; auto. apply elem_of_cons in Hy as [?|Hy]; auto. exfalso. by apply (Has x y); auto. }
      f_equal. apply IH; auto. intros z. specialize (He z). rewrite !elem_of_cons in He. split; intros Hz.
      + destruct (proj1 He) as [->|]; auto. by apply X1, Hirr in Hz.
      + destruct (proj2 He) as [->|]; auto. by apply X2, Hirr in Hz. }
  apply Hu; [apply CL_sorted|exact Hs|]. intros z. rewrite (elem_CL V lab2 F HI P), elem_of_list_In, filter_In, andb_true_iff, Nat.eqb_eq, lv_live, <-elem_of_list_In.
  split; [|tauto]. intros [Hl ?]. split; auto. rewrite <-allvis_org. apply elem_allvis. destruct Hl as (a & ? & _). eauto.
Qed.

Context (N : nat) (HN : card_is (vw_in V) N) (Hroot : (p_max P < Z.of_nat N)%Z).

Lemma root_whole i : olive i -> RP (0, i) = None -> size0 (0, i) = N.
Proof using HO HN Hroot.
  intros Hi E. pose proof (proj1 (olive_live regs0 i) Hi) as Li.
  destruct (card_diff (vw_in V) (region_pixels V lab2 (tab F) (0, i)) N (size0 (0, i)) HN (pix_card V lab2 F HI (0, i) Li)) as (k & -> & Hk).
  { by intros p [? _]. }
  destruct Hk as (l & _ & Hl & <-). destruct l as [|p l]; [cbn; lia|]. exfalso.
  destruct (Hl p) as [Hp1 _]. destruct Hp1 as [Hp1 Hp2]; [apply elem_of_list_here|].
  apply (proj2 (whole_RP V lab2 F HI 0 _ Li)); eauto.
Qed.

Lemma OKo_ok1 i : olive i -> OKo regs0 P i = OK1 F P (0, i).
Proof using HO HN Hroot.
  intros Hi. unfold OKo, OK1, LIM, BASE.
  assert (bad_limits P (size0 (0, i)) (RP (0, i)) =
    (Z.of_nat (size0 (0%nat, i)) <? p_min P)%Z || (p_max P <? Z.of_nat (size0 (0%nat, i)))%Z) as ->.
  { unfold bad_limits. destruct (RP (0, i)) eqn:E; [by rewrite orb_false_r|]. rewrite (root_whole i Hi E).
    rewrite (proj2 (Z.ltb_lt _ _) Hroot). by rewrite !orb_true_r. }
  destruct (0 <? p_delta P)%Z; cbn [andb negb]; [|done]. symmetry. apply negb_orb.
Qed.
Lemma FL1_flags i : olive i -> FL1 regs0 P i = fl0 (0, i).
Proof using HO HN Hroot.
  intros Hi. unfold FL1, FLo. rewrite (OKo_ok1 i Hi). unfold flags, OK1. destruct (0 <? p_delta P)%Z; cbn [andb]; [|done].
  rewrite allvis_org. destruct (fge (p_nms P) fzero) eqn:En; [done|]. rewrite <-allvis_org, <-(no_nms F P [] (0, i) En). unfold FLAG. cbn [kills existsb negb]. by rewrite andb_true_r.
Qed.

Context (Hb1 : below1 (p_dup P)).
Lemma dedup_nice n regs : length regs0 < n -> oinv (FL1 regs0 P) (VARo regs0 P) regs ->
  exists regs', sweep (o_dedup n P) (seq 0 (length regs0)) (regs, ninv regs) = Some (regs', ninv regs') /\
    oinv (fun i => final F P One (0, i)) (VARo regs0 P) regs'.
Proof using HO HN Hroot Hb1.
  intros Hn HV. set (q := fun z => lv F z && (fl0 z =? 0)).
  assert (forall z, z ∈ CL F fl0 <-> live0 z /\ fl0 z = 0) as Hl by (intros z; by apply (elem_CL V lab2 F HI P)).
  assert (forall z, z ∈ CL F fl0 -> big z = false) as Hbig.
  { intros z [Hz1 Hz2]%Hl. unfold too_big. apply Z.ltb_ge. by apply (flags_limits V lab2 F HI P One z). }
  pose proof (flags_le F P One) as Hle1. pose proof (Hmono V lab2 F HI P) as Hm.
  destruct (sweep_inv (o_dedup n P) (fun pre t => let fl := foldl astep fl0 (List.filter q (pair 0 <$> pre)) in
      oinv (fun i => fl (0, i)) (VARo regs0 P) (fst t) /\ snd t = ninv (fst t) /\
      binv RP size0 near live0 fl0 fl (List.filter q (pair 0 <$> pre)))
    (seq 0 (length regs0)) (regs, ninv regs)) as ([regs' c] & E & I1 & I2 & _).
  - cbn [fmap list_fmap List.filter foldl fst snd]. cbv zeta. split.
    { eapply oinv_ext; [|exact HV]. intros i Hi. split; auto. by apply FL1_flags. }
    split; auto. constructor.
    + apply ainv_start. intros z. specialize (Hle1 z). lia.
    + intros a b Ha. specialize (Hle1 a). lia.
    + intros a b _ _ Hb. specialize (Hle1 b). lia.
  - intros pre x suf [r m] El (I1 & I2 & I3). cbn [fst snd] in *. subst m. cbv zeta in *.
    pose proof El as El0. apply seq_pre in El0 as (_ & _ & Hx).
    rewrite fmap_app, List.filter_app, foldl_app. cbn [fmap list_fmap].
    set (fx := foldl astep fl0 (List.filter q (pair 0 <$> pre))) in *.
    assert (forall z, live0 z -> fx z <= 2) as Hle. { intros z _. apply (foldl_le F P). intros u. specialize (Hle1 u). lia. }
    destruct (q (0, x)) eqn:Eq; cbn [List.filter]; rewrite Eq.
    + unfold q in Eq. apply andb_true_iff in Eq as [Lx%lv_live Fx%Nat.eqb_eq].
      assert (CL F fl0 = List.filter q (pair 0 <$> pre) ++ (0, x) :: List.filter q (pair 0 <$> suf)) as EC.
      { rewrite CL_org, El, fmap_app, List.filter_app. f_equal. change (pair 0 <$> x :: suf) with ((0, x) :: (pair 0 <$> suf)).
        cbn [List.filter]. rewrite (proj2 (lv_live F (0, x)) Lx), Fx. done. }
      assert ((0, x) ∈ CL F fl0) as Hin by (by apply Hl).
      destruct (dedup_abs V lab regs0 HO P n fx (VARo regs0 P) r x Hn I1 Hle) as (r' & E & HV').
      { by apply olive_live. } { by apply Hbig. } { apply I3. }
      exists (r', ninv r'). split; auto. cbn [fst snd foldl]. split; auto. split; auto.
      apply (binv_step RP size0 gray0 big near (NN F) live0 (fun z => dp F (Some z))) with (l := CL F fl0) (suf := List.filter q (pair 0 <$> suf)); auto.
      * intros u w. apply (HLd F H0 Hsz). * intros u. apply (HNd F H0). * intros u w. apply (Hbigd F P).
      * intros u v w. by apply (RecogTree.dis_size V lab2 F HI). * by apply (Hhalf V lab2 F HI P). * apply CL_gray.
    + rewrite app_nil_r. cbn [foldl]. exists (r, ninv r). split; [|auto].
      destruct (lookup_lt_is_Some_2 _ _ Hx) as [a0 Ha0]. destruct (oi_reg _ _ _ _ _ I1 x a0 Ha0) as (a & Ha & _ & Hmer & Hlv).
      unfold o_dedup. rewrite Ha. destruct (o_merged a0) eqn:Em; [by destruct (Hmer eq_refl) as [-> _]|].
      destruct (Hlv eq_refl) as (-> & _). assert (olive x) as Lx by (by exists a0). apply olive_live in Lx.
      unfold q in Eq. rewrite (proj2 (lv_live F (0, x)) Lx) in Eq. cbn [andb] in Eq. apply Nat.eqb_neq in Eq.
      rewrite (ai_out _ _ _ _ _ _ _ (bi_a _ _ _ _ _ _ _ I3) (0, x) Eq). destruct (Nat.eqb_spec (fl0 (0, x)) 0); done.
  - cbn [fst snd] in *. subst c. cbv zeta in I1. exists regs'. split; auto. change (oinv (fun i => foldl astep fl0 (CL F fl0) (0, i)) (VARo regs0 P) regs'). rewrite CL_org. exact I1.
Qed.

Lemma org_stable n : length regs0 < n -> exists regs, o_recognize n P regs0 = Some (regs, ninv regs) /\
  oinv (fun i => final F P One (0, i)) (VARo regs0 P) regs.
Proof using HO Hd HN Hroot Hb1.
  intros Hn. destruct (upto_dedup V lab regs0 HO P Hd n Hn) as (regs & t1 & t2 & E1 & E2 & E3 & HV).
  destruct (dedup_nice n regs Hn HV) as (regs' & E4 & HV'). exists regs'. unfold o_recognize. by rewrite E1, E2, E3, E4.
Qed.
End fin.
