(* Recognition in MS-MSER does what recognition with one thread in Fast MSER V2 does on
   the same region table, and leaves the flags extraction needs. *)
From stdpp Require Import sorting relations functions list_numbers list.
From Coq Require Import NArith ZArith SpecFloat.
From Verif Require Import Spec TreeSpec TreeFacts JoinMath JoinCorrect FloodModel FloodRefine FloodCorrect ConnectModel ConnectProof FloatModel RecogModel RecogSpec RecogStatic
  RecogSerial RecogOrder DupAbs RecogDup RecogTree RecogCompose RecogFinal RecogResults LinkedModel LinkedGrid LinkedCorrect CvModel CvRecog CvCorrect MsModel.
Local Open Scope nat_scope.

Lemma ms_recognize_sim P fuel regs var0 s : 0 < fuel -> wfr regs -> (forall i a, regs !! i = Some a -> n_flag a = 0) ->
  s_F s = fo regs -> (forall i, s_var s (0, i) = var0 i) -> forall s2 l b2 s3 l3 n3,
  candidates_serial fuel P (CBuf 0 0) s = Some (s2, l, b2) -> (forall x, (0, x) ∈ l -> x < length regs) ->
  (if fgt (p_dup P) fzero then dedup fuel P s2 l else no_dedup s2 l) = Some (s3, l3, n3) -> n3 = length l3 ->
  exists regs' l' ks, ms_recognize fuel P regs var0 = Some (regs', l', (N.of_nat (sum_list ks) mod 2 ^ 32)%N) /\
    l3 = pair 0 <$> l' /\ same_but regs regs' /\ s_F s3 = fo regs'.
Proof.
  intros Hfuel HW H0 HF HV s2 l b2 s3 l3 n3 Hc Hdom Hd Hn3. unfold candidates_serial in Hc. rewrite HF, fo_refs in Hc. unfold ms_recognize, ms_candidates.
  destruct (each (serial_base fuel P) _ _) as [t1|] eqn:E1; [|done].
  destruct (base_all P fuel Hfuel (seq 0 (length regs)) s 0 lvl0 (CvSt regs var0 lvl0) t1) as (u1 & -> & R1 & L1 & C1 & G1 & B1).
  { by constructor. } { done. } { split; [done|]. by vm_compute. } { apply NoDup_seq. } { intros i a Ha. left. eauto. } { cbn. eauto. } { done. }
  cbn [cs_regs] in B1. destruct t1 as [[s1 tot1] lvl1]. cbn [fst snd] in *.
  destruct (if (0 <? p_delta P)%Z && fge (p_nms P) fzero then each (serial_nms P) (all_refs (s_F s1)) (s1, tot1, lvl1) else Some (s1, tot1, lvl1))
    as [[[s2' tot2] lvl2]|] eqn:E2; [|done].
  assert (exists u2,
    (if (0 <? p_delta P)%Z && fge (p_nms P) fzero then cv_each (cv_nms P) (seq 0 (length (cs_regs u1))) u1 else Some u1) = Some u2 /\
    rel s2' u2 /\ cs_lvl u2 = lvl2 /\ counted tot2 lvl2 /\ flags01 (cs_regs u2) /\ same_but regs (cs_regs u2)) as (u2 & -> & R2 & L2 & C2 & G2 & B2).
  { destruct ((0 <? p_delta P)%Z && fge (p_nms P) fzero).
    - rewrite (rl_F _ _ R1), fo_refs in E2.
      destruct (nms_all P fuel Hfuel (seq 0 (length (cs_regs u1))) s1 tot1 lvl1 u1 _ R1 L1 C1 G1 E2) as (u2 & ? & ? & ? & ? & ? & ?). cbn [fst snd] in *.
      exists u2. eauto 10 using same_trans.
    - injection E2 as -> -> ->. exists u1. auto 10. }
  destruct (order_regions s2' (CBuf 0 0) lvl2 tot2) as [[l0 b0]|] eqn:E3; [|done]. injection Hc as -> -> ->. subst lvl2.
  assert (tot2 = length l) as Htot.
  { unfold order_regions in E3. destruct (each (scatter s2) _ _) as [[out st]|]; [|done]. destruct (written _) as [q|]; [|done].
    destruct (Nat.eqb_spec (length q) tot2); [|done]. injection E3 as -> _. done. }
  destruct (order_sim fuel Hfuel s2 u2 tot2 (sum_list (take 256 (cs_lvl u2))) l b2 R2 C2 G2 ltac:(destruct C2 as [_ ->]; done) E3) as (l' & -> & ->).
  destruct R2 as [F2 W2 V2]. unfold cv_dedup.
  assert (exists regs' lx, (if fgt (p_dup P) fzero then
       match cv_each (cv_dedup_one fuel P) l' (cs_regs u2, 0) with
       | None => None
       | Some (regs', count) =>
           if length (List.filter (cv_valid regs') l') =? count then Some (regs', List.filter (cv_valid regs') l') else None
       end
     else match cv_each cv_mark2 l' (cs_regs u2) with
          | None => None
          | Some regs' => Some (regs', l')
          end) = Some (regs', lx) /\ l3 = pair 0 <$> lx /\ same_but regs regs' /\ wfr regs' /\ s_F s3 = fo regs' /\ forall x, x ∈ lx -> x < length regs) as
    (regs' & lx & -> & -> & B3 & W3 & HF3 & Hin).
  { assert (forall x, x ∈ l' -> x < length regs) as Hl'.
    { intros x Hx. apply Hdom. apply elem_of_list_fmap. eauto. }
    destruct (fgt (p_dup P) fzero).
    - unfold dedup in Hd. destruct (each (dedup_one fuel P) _ _) as [[s3' cnt]|] eqn:E4; [|done].
      destruct (dedup_all P fuel l' s2 (cs_regs u2) 0 _ F2 W2 E4) as (r3 & -> & F3 & W3 & B3). cbn [fst snd] in *. cbv zeta.
      injection Hd as -> <- ->. rewrite (filter_sim s3 r3 l' F3) in Hn3 |- *. rewrite fmap_length in Hn3. rewrite Hn3, Nat.eqb_refl.
      eexists r3, _. split; [done|]. split; [done|]. split; [by eapply same_trans|]. split; [done|]. split; [done|].
      intros x Hx. apply elem_of_list_In, List.filter_In in Hx as [Hx _]. apply elem_of_list_In in Hx. auto.
    - unfold no_dedup in Hd. destruct (each (mark 2) _ _) as [s3'|] eqn:E4; [|done].
      destruct (nodedup_all l' s2 (cs_regs u2) _ F2 W2 E4) as (r3 & -> & F3 & W3 & B3).
      injection Hd as -> <- _. exists r3, l'. split; [done|]. split; [done|]. split; [by eapply same_trans|]. split; [done|]. split; [done|]. done. }
  destruct (total_ok fuel Hfuel regs' lx) with (acc := 0%N) as (ks & H2 & E5).
  { intros x Hx. destruct (lookup_lt_is_Some_2 regs' x) as [a Ha]. { destruct B3 as [-> _]. auto. }
    unfold cv_size. rewrite Ha. destruct (wr_size _ W3 x a Ha) as [k ->]. eauto. }
  unfold cv_total. change 0%N with (0 mod 2 ^ 32)%N at 1. rewrite E5. exists regs', lx, ks. split; [done|]. split; [done|]. done.
Qed.

Section ms.
Context (src : list N) (gm : N) (w h : nat).
Context (HF : limg_fits src w w h) (Hgm : gm = 0%N \/ gm = 255%N) (Hmod : cv_modest w h).
Notation lv := (level src gm).
Notation V := (lview false w w h lv).
Context (regs : list lreg) (lab : nat -> nat).
Context (HT : ctree V lab (ltable regs)) (H0 : forall i a, regs !! i = Some a -> n_flag a = 0 /\ n_gray a < 256).
Context (Hlen : length regs <= w * h) (Hsz : forall i a, regs !! i = Some a -> is_Some (n_size a)).
Notation F := (fo regs).
Notation lab2 := (fun p => (0, lab p)).

Lemma ms_recog_ok P fuel var0 : delta_ok P -> fgt (p_dup P) fzero = true \/ fge fzero (p_dup P) = true -> length regs < fuel ->
  exists regs' l' ks s3, ms_recognize fuel P regs var0 = Some (regs', l', ks) /\
    reported F P One = pair 0 <$> l' /\ same_but regs regs' /\ s_F s3 = fo regs' /\ flagged F P (final F P One) s3.
Proof.
  intros Hd Hor Hf. pose proof (input_fo false src gm w w h HF Hgm Hmod regs lab HT H0 Hlen Hsz) as HI.
  set (s0 := RSt F (fun z => var0 (snd z)) (fun _ => false)).
  assert (nregs F < fuel) as Hnf by (by rewrite fo_nregs).
  destruct (candidates_ok V lab2 F HI P Hd fuel One (CBuf 0 0) s0 Hnf I eq_refl (fun _ => eq_refl)) as (s1 & l & b' & Hc & (G1 & -> & ->) & _).
  pose proof (cvl_reported false src gm w w h HF Hgm Hmod regs lab HT H0 Hlen Hsz P Hor) as Hcr.
  assert (exists s3, (if fgt (p_dup P) fzero then dedup fuel P s1 (CL F (flags F P One)) else no_dedup s1 (CL F (flags F P One))) =
    Some (s3, reported F P One, length (reported F P One)) /\ flagged F P (final F P One) s3) as (s3 & Hdd & HG).
  { unfold cvl in Hcr. destruct (fgt (p_dup P) fzero) eqn:Eg.
    - destruct (recognize_ok V lab2 F HI P Hd fuel One (CBuf 0 0) s0 Hnf I eq_refl (fun _ => eq_refl)) as (s & Hr & HG).
      cbn [recognize] in Hr. unfold recognize_serial in Hr. cbn [candidates] in Hc. rewrite Hc in Hr.
      destruct (dedup _ _ _ _) as [[[s3 l3] n3]|]; [|done]. injection Hr as <- <- <-. eauto.
    - destruct Hor as [|Hge]; [done|].
      destruct (no_dedup_ok F P (flags F P One) s1 (CL F (flags F P One)) G1) as (s3 & E & HG).
      { intros z Hz. by apply (elem_CL V lab2 F HI P) in Hz as [? _]. }
      exists s3. rewrite <-Hcr. split; [done|]. eapply flagged_ext; [|exact HG]. intros z Hz. cbn beta. cbn [final].
      assert (forall z, live0 F z -> flags F P One z = 0 -> (p_min P <= Z.of_nat (size0 F z) <= p_max P)%Z) as Hlim.
      { intros y Hy Hfy. by apply (flags_limits V lab2 F HI P One y Hy Hfy). }
      destruct (decide (z ∈ CL F (flags F P One))) as [Hin|Hin].
      + apply (elem_CL V lab2 F HI P) in Hin as [_ Hf0]. symmetry. apply (keep_nonpos V lab2 F HI P (flags F P One)); auto. apply flags_le.
      + symmetry. apply (ai_out _ _ _ _ _ _ _ (keep_inv V lab2 F HI P (flags F P One) (flags_le F P One) Hlim)).
        intros E0. apply Hin. by apply (elem_CL V lab2 F HI P). }
  edestruct (ms_recognize_sim P fuel regs var0 s0) as (regs' & l' & ks & E & R1 & R2 & R3); [| | | | |exact Hc| |exact Hdd|done|].
  - lia.
  - by eapply wfr_fo.
  - intros i a Ha. by apply (H0 i a).
  - done.
  - done.
  - intros x Hx. apply (elem_CL V lab2 F HI P) in Hx as [Hx _]. apply (live_fo regs H0) in Hx as (i & [= <-] & Hi). done.
  - by eauto 10.
Qed.
End ms.
