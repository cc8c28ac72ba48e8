(* Extraction of the original implementation: records of one channel. *)
From stdpp Require Import sorting relations functions list_numbers list.
From Coq Require Import NArith ZArith SpecFloat.
From Verif Require Import Spec TreeSpec TreeFacts JoinMath JoinCorrect Grid WordBits FloodModel FloodInit FloodCorrect ConnectModel ConnectProof FloatModel FloatFacts RectModel RecogModel RecogSpec RecogStatic RecogWorkers
  RecogSched RecogNms RecogSerial RecogOrder DupAbs RecogDup RecogTree RecogPixels RecogCompose RecogFinal RecogResults V1RecogModel V1Recog V1BuildModel V1Sort WholeProof
  ExtractTop LinkedModel LinkedGrid LinkedCorrect CvExtract CvCorrect OrgModel OrgBuild OrgTree OrgPad OrgPass OrgLink OrgRecog OrgDup OrgFinal.
Local Open Scope nat_scope.

Lemma read_seg next l : (forall i x y, l !! i = Some x -> l !! S i = Some y -> next !! x = Some (Some y)) ->
  (forall x, x ∈ l -> x < length next) -> o_read next (length l) (head l) = Some l.
Proof.
  induction l as [|x l IH]; intros Hl Hb; [done|]. cbn [length head o_read].
  destruct (lookup_lt_is_Some_2 next x) as [p Hp]; [apply Hb, elem_of_list_here|]. rewrite Hp.
  assert (o_read next (length l) p = Some l) as ->; [|done].
  destruct l as [|y l]; [done|]. assert (p = Some y) as ->. { specialize (Hl 0 x y eq_refl eq_refl). congruence. }
  apply IH; [intros i u v Hu Hv; by apply (Hl (S i))|]. intros u Hu. apply Hb. by apply elem_of_list_further.
Qed.

Lemma append_bounding L r q : bounding L r -> bounding (L ++ [q]) (append_point r (fst q) (snd q)).
Proof.
  intros (H & (a & Ha & Ea) & (b & Hb & Eb) & (c & Hc & Ec) & (d & Hd & Ed)). unfold append_point.
  assert (is_empty r = false) as ->.
  { unfold is_empty. destruct (H a Ha) as [H1 _]. destruct (Z.eqb_spec 0 (x_w r)); [lia|done]. }
  assert (forall z, z ∈ L -> z ∈ L ++ [q]) as Hin by (intros z Hz; apply elem_of_app; auto).
  assert (q ∈ L ++ [q]) as Hq by (apply elem_of_app; right; by apply elem_of_list_singleton).
  pose proof (H a Ha). unfold right_of, bottom_of.
  destruct (Z.ltb_spec (x_left r + x_w r - 1) (fst q)); [|destruct (Z.ltb_spec (fst q) (x_left r))];
  (destruct (Z.ltb_spec (x_top r + x_h r - 1) (snd q)); [|destruct (Z.ltb_spec (snd q) (x_top r))]);
  (split; cbn [x_left x_top x_w x_h]; [intros z [Hz|Hz%elem_of_list_singleton]%elem_of_app; [pose proof (H z Hz)|subst z]; lia|];
   split; [first [exists a; split; [by auto|lia]|exists q; split; [by auto|lia]]|];
   split; [first [exists b; split; [by auto|lia]|exists q; split; [by auto|lia]]|];
   split; [first [exists c; split; [by auto|lia]|exists q; split; [by auto|lia]]|
           first [exists d; split; [by auto|lia]|exists q; split; [by auto|lia]]]).
Qed.
Lemma fold_bounding L : L <> [] -> bounding L (fold_left (fun r q => append_point r (fst q) (snd q)) L rect0).
Proof.
  assert (forall K L r, bounding L r -> bounding (L ++ K) (fold_left (fun r q => append_point r (fst q) (snd q)) K r)) as H.
  { induction K as [|q K IH]; intros M r Hr; cbn [fold_left]; [by rewrite app_nil_r|].
    replace (M ++ q :: K) with ((M ++ [q]) ++ K) by (by rewrite <-app_assoc). by apply IH, append_bounding. }
  destruct L as [|q L]; [done|]. intros _. cbn [fold_left]. apply (H L [q]). unfold append_point. cbn.
  split; cbn [x_left x_top x_w x_h].
  - intros z ->%elem_of_list_singleton. lia.
  - split_and!; exists q; (split; [apply elem_of_list_here|lia]).
Qed.

(* the records of the regions zs *)
Definition orecs (e : bool) (src : list N) (gm : N) (step w h : nat) (F : forest) (lab : nat -> rref) (zs : list rref) (l : list orec) : Prop :=
  length l = length zs /\ forall j z, zs !! j = Some z -> exists rc, l !! j = Some rc /\
    lists_set step (region_pixels (lview e step w h (level src gm)) lab (tab F) z) (q_pts rc) /\ q_size rc = size0 F z /\
    q_gray rc = N.lxor (N.of_nat (gray0 F z)) gm /\ bounding (q_pts rc) (q_rect rc).

Section chan.
Context (e : bool) (src : list N) (step w h : nat) (HF : limg_fits src step w h) (gm : N) (Hgm : gm = 0%N \/ gm = 255%N) (Hmod : cv_modest w h).
Context (P : rparam) (Hd : delta_ok P).
Notation V := (lview e step w h (level src gm)). Notation W := (w + 2).
Notation img := (gimg src step w h gm).

Lemma point_pixel p : inner w h p -> o_point w p = pixel step (opix step w p).
Proof.
  intros [H1 H2]. unfold o_point, pixel, opix. pose proof (lf_step _ _ _ _ HF).
  destruct (dm step (p / W - 1) (p mod W - 1)) as [-> ->]; [lia|]. f_equal; lia.
Qed.

Lemma mapM_len {A B} (f : A -> option B) l k : mapM f l = Some k -> length k = length l /\
  forall j x, l !! j = Some x -> exists y, k !! j = Some y /\ f x = Some y.
Proof.
  intros E. apply mapM_Some in E. split; [symmetry; by eapply Forall2_length|]. intros j x Hx.
  destruct (Forall2_lookup_l _ _ _ _ _ E Hx) as (y & ? & ?). eauto.
Qed.

Lemma ostart_pass g st sg : pinv img (o_offs e w) g st sg -> (forall p, inP img p -> exists x, os_own st !! p = Some (Some x)) ->
  ctree V (fun j => olab (os_own st) (framed step w j)) (otable (os_regs st)) -> length (os_regs st) <= w * h ->
  ostart V (fun j => olab (os_own st) (framed step w j)) (os_regs st).
Proof using HF Hgm Hmod.
  intros HP Hall HT Hlen. pose proof (p_core _ _ _ _ _ HP) as HC. constructor; auto.
  - by apply (lview_sym e src gm step w h Hgm).
  - by apply (lview_connected e src gm step w h HF).
  - exists (w * h). split; [by apply (lview_card e src gm step w h HF)|]. split; auto. unfold cv_modest in Hmod. lia.
  - intros i a Ha. pose proof (k_gray _ _ _ _ _ _ _ _ HC i (strip a)) as H. rewrite list_lookup_fmap, Ha in H.
    destruct (H eq_refl) as (_ & Hl & Hf & Hv). cbn in Hl, Hf, Hv. split; auto.
    pose proof (k_head _ _ _ _ _ _ _ _ HC i (strip a)) as Hh. rewrite list_lookup_fmap, Ha in Hh. specialize (Hh eq_refl). cbn in Hh.
    apply (k_lab _ _ _ _ _ _ _ _ HC) in Hh as (Hin & _). apply (inP_inner src step w h HF gm Hgm) in Hin.
    rewrite (lev_inner src step w h HF gm Hgm) in Hl by done. destruct (opix_in src step w h HF _ Hin) as [Hlt _].
    destruct (level_flip src step w h HF _ Hlt) as [L1 L2]. rewrite <-Hl. destruct Hgm as [->| ->]; lia.
  - intros i j a b Hij Ha Hb. apply (k_sort _ _ _ _ _ _ _ _ HC i j (strip a) (strip b) Hij); by rewrite list_lookup_fmap, ?Ha, ?Hb.
Qed.

Lemma idx_filter (f : oreg -> bool) (g : nat -> bool) l : forall b, (forall k, g (b + k) = match l !! k with Some a => f a | None => false end) ->
  Forall2 (fun i a => b <= i /\ l !! (i - b) = Some a /\ f a = true) (List.filter g (seq b (length l))) (List.filter f l).
Proof.
  clear. induction l as [|a l IH]; intros b Hg; cbn [length seq List.filter]; [constructor|].
  assert (Forall2 (fun i c => b <= i /\ (a :: l) !! (i - b) = Some c /\ f c = true) (List.filter g (seq (S b) (length l))) (List.filter f l)) as H.
  { eapply Forall2_impl; [apply (IH (S b))|].
    - intros k. replace (S b + k) with (b + S k) by lia. rewrite Hg. done.
    - cbn beta. intros i c (H1 & H2 & H3). split; [lia|]. split; [|done]. replace (i - b) with (S (i - S b)) by lia. done. }
  specialize (Hg 0). rewrite Nat.add_0_r in Hg. cbn in Hg. rewrite Hg. destruct (f a) eqn:E; [|done]. constructor; auto. split; [lia|]. by rewrite Nat.sub_diag.
Qed.
Lemma flags_count (l : list oreg) : (forall a, a ∈ l -> o_flag a = 1 \/ o_flag a = 2) ->
  length (List.filter (fun a => o_flag a =? 2) l) + ninv l = length l.
Proof.
  clear. unfold ninv. induction l as [|a l IH]; intros H; [done|]. cbn [List.filter length]. specialize (IH (fun b Hb => H b (elem_of_list_further _ _ _ Hb))).
  destruct (H a (elem_of_list_here _ _)) as [-> | ->]; cbn [Nat.eqb length]; lia.
Qed.

Section recs.
Context (g : nat) (st : ost) (sg : nat -> list nat) (HP : pinv img (o_offs e w) g st sg).
Context (Hall : forall p, inP img p -> exists x, os_own st !! p = Some (Some x)).
Notation regs0 := (os_regs st). Notation lab := (fun j => olab (os_own st) (framed step w j)).
Notation F := (ofo (os_regs st)).
Context (HO : ostart V lab regs0).
Lemma chan_record i a fl vr regs : OrgRecog.oinv regs0 P fl vr regs -> olive regs0 i -> regs !! i = Some a ->
  exists rc, o_record w gm (os_next st) a = Some rc /\ lists_set step (region_pixels V (fun p => (0, lab p)) (tab F) (0, i)) (q_pts rc) /\
    q_size rc = size0 F (0, i) /\ q_gray rc = N.lxor (N.of_nat (gray0 F (0, i))) gm /\ bounding (q_pts rc) (q_rect rc).
Proof using HF Hgm HP Hall HO.
  intros HV (a0 & Ha0 & Hm) Ha. destruct (oi_reg _ _ _ _ _ HV i a0 Ha0) as (a' & Ha' & (S1 & S2 & S3 & S4 & S5) & _ & _). assert (a' = a) as -> by congruence.
  pose proof (p_core _ _ _ _ _ HP) as HC. pose proof (HI := pad_in e src step w h HF gm Hgm). pose proof (HS := pad_sym e src step w h HF gm Hgm).
  assert (length (gpts src step w h gm) <= w * h) as M1 by (rewrite gpts_len; [done|exact HF]).
  assert ((strip <$> regs0) !! i = Some (strip a0)) as Hs by (by rewrite list_lookup_fmap, Ha0).
  destruct (k_seg _ _ _ _ _ _ _ _ HC i _ Hs) as [G1 G2 G3 G4 G5]. cbn in G2, G3, G4.
  assert (forall p, p ∈ sg i <-> inner w h p /\ vunder (otable regs0) (olab (os_own st) p) i) as Hmem.
  { intros p. rewrite (seg_under img (o_offs e w) (gpts src step w h gm) (w * h) (w * h) HI HS (gpts_nd src step w h HF gm) (gpts_in src step w h HF gm Hgm) M1 M1 g st sg HP Hall i p) by eauto.
    by rewrite (inP_inner src step w h HF gm Hgm), otable_under. }
  assert (o_read (os_next st) (o_size a) (Some (o_head a)) = Some (sg i)) as Er.
  { rewrite S5, S1, <-G2, <-G3. apply read_seg; auto. intros x [Hx _]%Hmem. rewrite (k_next _ _ _ _ _ _ _ _ HC), gimg_len. by apply inner_lt. }
  unfold o_record. rewrite Er. eexists. split; [done|]. cbn [q_pts q_size q_gray q_rect]. change (map (o_point w) (sg i)) with (o_point w <$> sg i).
  assert (gray0 F (0, i) = o_gray a0 /\ size0 F (0, i) = o_size a0) as [Eg Es].
  { unfold gray0, size0. rewrite ofo_get, Ha0. done. }
  split; [|split; [congruence|split]].
  - split.
    + apply NoDup_fmap_2_strong; auto. intros x y [Hx _]%Hmem [Hy _]%Hmem E. rewrite !point_pixel in E by done.
      rewrite <-(framed_opix src step w h HF gm Hgm x Hx), <-(framed_opix src step w h HF gm Hgm y Hy). f_equal.
      pose proof (lf_step _ _ _ _ HF). pose proof (lf_w _ _ _ _ HF). unfold pixel in E. injection E as E1 E2.
      rewrite (Nat.div_mod (opix step w x) step), (Nat.div_mod (opix step w y) step) by lia. lia.
    + intros q. rewrite elem_of_list_fmap. split.
      * intros (p & -> & [Hp Hu]%Hmem). exists (opix step w p). split; [|by apply point_pixel]. apply (pix_ofo V lab). split.
        -- by apply (opix_in src step w h HF).
        -- by rewrite (framed_opix src step w h HF gm Hgm).
      * intros (j & Hj & ->). apply (pix_ofo V lab) in Hj as [Hj Hu]. destruct (framed_in src step w h HF gm Hgm j Hj) as (H1 & H2 & _).
        exists (framed step w j). split; [by rewrite point_pixel, H2|]. by apply Hmem.
  - rewrite Eg, <-S4. destruct (os_fresh _ _ _ HO i a0 Ha0) as (Hle & _). rewrite <-S4 in Hle. destruct Hgm as [->| ->]; cbn [N.eqb].
    + rewrite N.lxor_0_r, N.mod_small; [done|]. lia.
    + apply N2Nat.inj. rewrite lxor_byte by lia. rewrite Z.mod_small by lia. rewrite N.mod_small by lia. lia.
  - apply fold_bounding. intros E. apply fmap_nil_inv in E. rewrite E in G3. done.
Qed.
End recs.

(* one channel of a call on an object without old regions *)
Theorem chan_any n rcap : w * h + 1 < n -> w * h <= rcap -> exists F lab zs l regs s0,
  o_channel n (w * h) rcap w gm img (o_offs e w) (gpts src step w h gm) [] P = Some (l, regs) /\
  ready V lab F P (S (nregs F)) One s0 /\ NoDup zs /\
  (forall z, z ∈ zs -> live0 F z /\ (p_min P <= Z.of_nat (size0 F z) <= p_max P)%Z) /\ orecs e src gm step w h F lab zs l /\
  ((p_max P < Z.of_nat (w * h))%Z -> below1 (p_dup P) -> zs = reported F P One).
Proof using HF Hgm Hmod Hd.
  intros Hn Hr. destruct (org_pass e src step w h HF gm Hgm n rcap Hn Hr) as (g & st & sg & E & HP & Hall & HT & Hlen).
  pose proof (ostart_pass g st sg HP Hall HT Hlen) as HO. set (regs0 := os_regs st) in *. set (lab := fun j => olab (os_own st) (framed step w j)) in *.
  pose proof (ostart_input V lab regs0 HO) as HI. assert (length regs0 < n) as Hln by lia.
  assert (exists regs fl, o_recognize n P regs0 = Some (regs, ninv regs) /\ OrgRecog.oinv regs0 P fl (VARo regs0 P) regs /\
    (forall i, olive regs0 i -> fl i = 1 \/ fl i = 2) /\ (forall i, fl i = 2 -> olive regs0 i -> OKo regs0 P i = true) /\
    ((p_max P < Z.of_nat (w * h))%Z -> below1 (p_dup P) -> forall i, olive regs0 i -> fl i = final (ofo regs0) P One (0, i)))
    as (regs & fl & Er & HV & F1 & F2 & F3).
  { destruct (org_any V lab regs0 HO P Hd n Hln) as (regs & fl & Er & HV & F1 & F2). exists regs, fl. split; auto. split; auto. split; auto. split; auto.
    intros Hmax Hb i Hi. destruct (org_stable V lab regs0 HO P Hd (w * h) (lview_card e src gm step w h HF) Hmax Hb n Hln) as (regs' & Er' & HV').
    assert (regs' = regs) as -> by congruence. destruct (oi_live V lab regs0 HO P _ _ _ i HV Hi) as (a & Ha & _ & _ & Hf & _).
    destruct (oi_live V lab regs0 HO P _ _ _ i HV' Hi) as (a' & Ha' & _ & _ & Hf' & _). congruence. }
  set (gg := fun i => match regs !! i with Some a => o_flag a =? 2 | None => false end).
  pose proof (idx_filter (fun a => o_flag a =? 2) gg regs 0 (fun k => eq_refl)) as HX.
  set (idx := List.filter gg (seq 0 (length regs))) in *.
  assert (forall i a, regs !! i = Some a -> o_flag a = 2 -> olive regs0 i) as Hliv.
  { intros i a Ha H2. pose proof (lookup_lt_Some _ _ _ Ha) as Hi. rewrite (oi_len _ _ _ _ _ HV) in Hi. destruct (lookup_lt_is_Some_2 _ _ Hi) as [a0 Ha0].
    exists a0. split; auto. destruct (oi_reg _ _ _ _ _ HV i a0 Ha0) as (a' & Ha' & _ & Hm & _). assert (a' = a) as -> by congruence.
    destruct (o_merged a0); auto. destruct (Hm eq_refl) as [? _]. lia. }
  assert (forall i, i ∈ idx -> olive regs0 i /\ fl i = 2) as Hidx.
  { intros i Hi. apply elem_of_list_lookup in Hi as [j Hj]. destruct (Forall2_lookup_l _ _ _ _ _ HX Hj) as (a & _ & _ & Ha & H2). rewrite Nat.sub_0_r in Ha.
    apply Nat.eqb_eq in H2. pose proof (Hliv i a Ha H2) as Li. split; auto. destruct (oi_live V lab regs0 HO P _ _ _ i HV Li) as (a' & Ha' & _ & _ & Hf & _). congruence. }
  assert (exists l, mapM (o_record w gm (os_next st)) (List.filter (fun a => o_flag a =? 2) regs) = Some l) as [l El].
  { apply mapM_is_Some_2. apply Forall_forall. intros a Ha. apply elem_of_list_lookup in Ha as [j Hj]. destruct (Forall2_lookup_r _ _ _ _ _ HX Hj) as (i & _ & _ & Ha & H2).
    rewrite Nat.sub_0_r in Ha. apply Nat.eqb_eq in H2. destruct (chan_record g st sg HP Hall HO i a fl _ regs HV (Hliv i a Ha H2) Ha) as (rc & Erc & _). exists rc. exact Erc. }
  destruct (mapM_len _ _ _ El) as [L1 L2].
  assert (length l + ninv regs = length regs) as Hcnt.
  { rewrite L1. apply flags_count. intros a Ha. apply elem_of_list_lookup in Ha as [i Ha]. pose proof (lookup_lt_Some _ _ _ Ha) as Hi.
    rewrite (oi_len _ _ _ _ _ HV) in Hi. destruct (lookup_lt_is_Some_2 _ _ Hi) as [a0 Ha0]. destruct (oi_reg _ _ _ _ _ HV i a0 Ha0) as (a' & Ha' & _ & Hm & Hl).
    assert (a' = a) as -> by congruence. destruct (o_merged a0) eqn:Em; [left; by destruct (Hm eq_refl)|]. destruct (Hl eq_refl) as [-> _]. apply F1. by exists a0. }
  exists (ofo regs0), (fun p => (0, lab p)), (pair 0 <$> idx), l, regs, (RSt (ofo regs0) (fun _ => fzero) (fun _ => false)). split; [|split; [|split; [|split; [|split]]]].
  - unfold o_channel. rewrite E. fold regs0. rewrite Er. unfold o_extract_pixel. rewrite El.
    rewrite (proj2 (Nat.leb_le _ _)) by lia. replace (length regs - ninv regs - length l) with 0 by lia. cbn [replicate]. by rewrite app_nil_r.
  - by constructor; auto.
  - apply NoDup_fmap_2; [by intros x y [=]|]. unfold idx. apply NoDup_ListNoDup, List.NoDup_filter, NoDup_ListNoDup, NoDup_seq.
  - intros z Hz. apply elem_of_list_fmap in Hz as (i & -> & Hi). destruct (Hidx i Hi) as [Li H2]. split; [by apply olive_live|].
    specialize (F2 i H2 Li). unfold OKo in F2. apply andb_true_iff in F2 as [_ F2]. apply negb_true_iff, orb_false_iff in F2 as [A1 A2].
    apply Z.ltb_ge in A1, A2. lia.
  - split; [rewrite fmap_length, L1; symmetry; by eapply Forall2_length|]. intros j z Hz. apply list_lookup_fmap_inv in Hz as (i & -> & Hj).
    destruct (Forall2_lookup_l _ _ _ _ _ HX Hj) as (a & Hja & _ & Ha & H2). rewrite Nat.sub_0_r in Ha. apply Nat.eqb_eq in H2.
    destruct (L2 j a Hja) as (rc & Hrc & Erc). destruct (chan_record g st sg HP Hall HO i a fl _ regs HV (Hliv i a Ha H2) Ha) as (rc' & Erc' & HR).
    assert (rc' = rc) as -> by congruence. eauto.
  - intros Hmax Hb. specialize (F3 Hmax Hb). unfold reported. rewrite (CL_org V lab regs0 HO P).
    assert (forall (f g : rref -> bool) l, List.filter f (List.filter g l) = List.filter (fun z => g z && f z) l) as Hff.
    { clear. intros f g l. induction l as [|x l IH]; cbn [List.filter]; [done|]. destruct (g x); cbn [List.filter andb]; [destruct (f x); by rewrite IH|done]. }
    assert (forall (f : rref -> bool) l, List.filter f (pair 0 <$> l) = pair 0 <$> List.filter (fun i => f (0, i)) l) as Hfm.
    { clear. intros f l. induction l as [|x l IH]; [done|]. change (pair 0 <$> x :: l) with ((0, x) :: (pair 0 <$> l)). cbn [List.filter]. rewrite IH. by destruct (f (0, x)). }
    rewrite Hff, Hfm. f_equal. unfold idx. rewrite (oi_len _ _ _ _ _ HV). apply filter_ext_in. intros i Hi%elem_of_list_In%elem_of_seq.
    unfold gg. destruct (lookup_lt_is_Some_2 regs0 i) as [a0 Ha0]; [lia|]. destruct (oi_reg _ _ _ _ _ HV i a0 Ha0) as (a & Ha & _ & Hm & Hl). rewrite Ha.
    destruct (o_merged a0) eqn:Em.
    + destruct (Hm eq_refl) as [-> _]. cbn [Nat.eqb]. symmetry. assert (lv (ofo regs0) (0, i) = false) as ->; [|done].
      destruct (lv (ofo regs0) (0, i)) eqn:Elv; auto. exfalso. apply lv_live in Elv. apply (olive_live regs0 i) in Elv as (c & Hc & Hmc). congruence.
    + destruct (Hl eq_refl) as [-> _]. assert (olive regs0 i) as Li by (by exists a0). rewrite (F3 i Li). apply olive_live in Li.
      rewrite (proj2 (lv_live _ _) Li). cbn [andb]. destruct (Nat.eqb_spec (final (ofo regs0) P One (0, i)) 2) as [E2|E2]; [|by rewrite andb_false_r].
      apply (final_two V _ _ HI P One (0, i) Li) in E2. apply (elem_reported V _ _ HI P One) in E2 as (_ & -> & _). done.
Qed.
End chan.
