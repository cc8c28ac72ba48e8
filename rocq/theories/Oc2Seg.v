(* The lists of points that have been returned: each is a segment of the list of one
   component, so that later records contain them or are disjoint from them. *)
From stdpp Require Import sorting relations functions list_numbers list.
From Coq Require Import NArith ZArith SpecFloat.
From Verif Require Import FloodAbs FloodModel FloatModel RectModel RecogModel OcvModel Oc2Model Oc2Hist Oc2Comp Oc2Join.
Local Open Scope nat_scope.

(* the test of the diversity for a region of size z after one of size s *)
Definition diverse (P : rparam) (z s : nat) : bool :=
  fgt (SFdiv 53 1024 (f64_of_int (Z.of_nat z - Z.of_nat s)) (f64_of_int (Z.of_nat z))) (f64_of_f32 (p_dup P)).
(* an earlier record and a later one *)
Definition pairok (P : rparam) (R R' : list nat) : Prop := (forall k, k ∈ R -> k ∉ R') \/
  ((forall k, k ∈ R -> k ∈ R') /\ exists st, length R <= st <= length R' /\ diverse P (length R') st = true).

Definition same (hs hs' : list ghist) (h : nat) : Prop :=
  forall a, hs !! h = Some a -> exists a', hs' !! h = Some a' /\ gh_size a' = gh_size a /\ gh_stable a' = gh_stable a.
Definition stok (hs : list ghist) (oc : wcomp) : Prop := match w_hist oc with None => True | Some h => exists a, hs !! h = Some a /\ gh_stable a <= gh_size a end.
Definition seg_in (hs : list ghist) (oc : wcomp) (L R : list nat) : Prop := exists h a o, w_hist oc = Some h /\ hs !! h = Some a /\
  R = take (length R) (drop o L) /\ (o + length R <= gh_size a \/ gh_size a <= o) /\ length R <= gh_stable a.
Record SG (P : rparam) (hs : list ghist) (ocs : list wcomp) (Ls : list (list nat)) (RL : list (list nat)) : Prop := MkSG {
  sg_st : Forall (stok hs) ocs;
  sg_seg : forall R, R ∈ RL -> R <> [] /\ exists i oc L, ocs !! i = Some oc /\ Ls !! i = Some L /\ seg_in hs oc L R;
  sg_pair : forall i j R R', RL !! i = Some R -> RL !! j = Some R' -> i < j -> pairok P R R'
}.

Lemma same_refl hs h : same hs hs h.
Proof. intros a Ha. eauto. Qed.
Lemma same_trans hs hs' hs'' h : same hs hs' h -> same hs' hs'' h -> same hs hs'' h.
Proof. intros H1 H2 a Ha. destruct (H1 a Ha) as (b & Hb & E1 & E2). destruct (H2 b Hb) as (c & Hc & E3 & E4). exists c. split; [done|]. split; congruence. Qed.
Lemma same_app hs e h : same hs (hs ++ e) h.
Proof. intros a Ha. exists a. split; [by apply lookup_app_l_Some|done]. Qed.
Lemma same_insert hs x a b h : hs !! x = Some a -> gh_size b = gh_size a -> gh_stable b = gh_stable a -> same hs (<[x := b]> hs) h.
Proof.
  intros Hx E1 E2 c Hc. destruct (decide (h = x)) as [->|Hne].
  - rewrite list_lookup_insert by (by eapply lookup_lt_Some). rewrite Hx in Hc. injection Hc as <-. eauto.
  - rewrite list_lookup_insert_ne by done. eauto.
Qed.
Lemma stok_same hs hs' oc : stok hs oc -> (forall h, w_hist oc = Some h -> same hs hs' h) -> stok hs' oc.
Proof. unfold stok. destruct (w_hist oc) as [h|]; [|done]. intros (a & Ha & Hs) H. destruct (H h eq_refl a Ha) as (a' & Ha' & E1 & E2). exists a'. split; [done|]. lia. Qed.
Lemma seg_same hs hs' oc L R : seg_in hs oc L R -> (forall h, w_hist oc = Some h -> same hs hs' h) -> seg_in hs' oc L R.
Proof.
  intros (h & a & o & Hh & Ha & H1 & H2 & H3) H. destruct (H h Hh a Ha) as (a' & Ha' & E1 & E2). exists h, a', o. split; [done|]. split; [done|]. split; [done|].
  rewrite E1, E2. done.
Qed.
Lemma seg_length hs oc L R : seg_in hs oc L R -> forall o, R = take (length R) (drop o L) -> R <> [] -> o + length R <= length L.
Proof.
  intros _ o E Hne. assert (length R = length (take (length R) (drop o L))) as Hl by (by rewrite <-E). rewrite take_length, drop_length in Hl.
  destruct R; [done|]. cbn [length] in *. lia.
Qed.
Lemma seg_app o (L L2 R : list nat) : R = take (length R) (drop o L) -> R <> [] -> R = take (length R) (drop o (L ++ L2)).
Proof.
  intros E Hne. assert (length R = length (take (length R) (drop o L))) as Hl by (by rewrite <-E). rewrite take_length, drop_length in Hl.
  destruct R as [|x R]; [done|]. set (n := length (x :: R)) in *. assert (0 < n) by (unfold n; cbn; lia).
  rewrite drop_app_le by lia. rewrite take_app_le by (rewrite drop_length; lia). done.
Qed.

Section seg.
Context (P : rparam).

Lemma SG_new hs ocs Ls RL g : SG P hs ocs Ls RL -> SG P hs (wcomp0 g :: ocs) ([] :: Ls) RL.
Proof.
  intros [H1 H2 H3]. constructor; [constructor; done| |done]. intros R HR. destruct (H2 R HR) as (Hne & i & oc & L & E1 & E2 & E3). split; [done|].
  exists (S i), oc, L. done.
Qed.

Lemma SG_top hs hs' oc oc' orest L L' Ls RL : SG P hs (oc :: orest) (L :: Ls) RL -> (forall h, h ∈ omap w_hist orest -> same hs hs' h) ->
  stok hs' oc' -> (forall R, R <> [] -> seg_in hs oc L R -> seg_in hs' oc' L' R) -> SG P hs' (oc' :: orest) (L' :: Ls) RL.
Proof.
  intros [H1 H2 H3] Hs Hst Hseg. apply Forall_cons in H1 as [_ H1]. constructor; [|  |done].
  - constructor; [done|]. apply Forall_forall. intros o Ho. rewrite Forall_forall in H1. eapply stok_same; [by apply H1|]. intros h Hh. apply Hs. apply elem_of_list_omap. eauto.
  - intros R HR. destruct (H2 R HR) as (Hne & i & o & Lo & E1 & E2 & E3). split; [done|]. destruct i as [|i].
    + injection E1 as <-. injection E2 as <-. exists 0, oc', L'. auto.
    + exists (S i), o, Lo. split; [done|]. split; [done|]. eapply seg_same; [done|]. intros h Hh. apply Hs. apply elem_of_list_omap. exists o. split; [|done].
      by eapply elem_of_list_lookup_2.
Qed.

Lemma SG_add hs oc oc1 orest L Ls RL x : SG P hs (oc :: orest) (L :: Ls) RL -> w_hist oc1 = w_hist oc -> SG P hs (oc1 :: orest) ((L ++ [x]) :: Ls) RL.
Proof.
  intros H Hh. eapply SG_top; [exact H| | |].
  - intros h _. apply same_refl.
  - destruct H as [H _ _]. apply Forall_cons in H as [H _]. unfold stok in *. by rewrite Hh.
  - intros R Hne (h & a & o & E1 & E2 & E3 & E4 & E5). exists h, a, o. rewrite Hh. split; [done|]. split; [done|]. split; [|done]. by apply seg_app.
Qed.

(* ---------- the test of the stability ---------- *)
Lemma wstable_eff c hs st c' hs' : wstable P c hs = Some (st, c', hs') -> w_hist c' = w_hist c /\ w_head c' = w_head c /\
  (st = false -> forall h, same hs hs' h) /\
  (st = true -> exists h a a', w_hist c = Some h /\ hs !! h = Some a /\ hs' !! h = Some a' /\ gh_size a' = gh_size a /\ gh_stable a' = gh_size a /\
     diverse P (gh_size a) (gh_stable a) = true /\ forall x, x <> h -> same hs hs' x).
Proof.
  unfold wstable. destruct (w_hist c) as [h|] eqn:Hh.
  2:{ intros [= <- <- <-]. split; [done|]. split; [done|]. split; [intros _ h; apply same_refl|done]. }
  destruct (hs !! h) as [a|] eqn:Ha; [|done].
  destruct (_ || _). { intros [= <- <- <-]. split; [done|]. split; [done|]. split; [intros _ x; apply same_refl|done]. }
  destruct (wvariation (p_delta P) c hs) as [[var hs1]|] eqn:Ev; [|done].
  assert (exists s, hs1 = <[h := gset_short a s]> hs) as (s & ->).
  { unfold wvariation in Ev. rewrite Hh, Ha in Ev. destruct (wback _ _ _ _ _) as [s0|]; [|done]. destruct (hs !! s0) as [b|]; [|done].
    destruct (wforth _ _ _ _ _ _) as [s|]; [|done]. destruct (hs !! s); [|done]. injection Ev as _ <-. eauto. }
  pose proof (lookup_lt_Some _ _ _ Ha) as Hlt. rewrite list_lookup_insert by done.
  intros H. injection H as Est <- <-. rewrite Est. cbn [w_hist w_head]. split; [done|]. split; [done|].
  assert (forall x, same hs (<[h := gset_short a s]> hs) x) as Hsame by (intros x; by eapply same_insert).
  destruct st.
  - split; [done|]. intros _. exists h, a, (gset_stable (gset_short a s) (gh_size (gset_short a s))). split; [done|]. split; [done|].
    rewrite list_lookup_insert by (by rewrite insert_length). split; [done|]. split; [done|]. split; [done|]. split.
    + rewrite !andb_true_iff in Est. unfold diverse. tauto.
    + intros x Hx b Hb. rewrite !list_lookup_insert_ne by done. eauto.
  - split; [|done]. intros _. exact Hsame.
Qed.

Lemma wnew_eff area c hs c' hs' : wnew area c hs = Some (c', hs') -> exists e, w_hist c' = Some (length hs) /\ hs' !! length hs = Some e /\ gh_size e = w_size c /\
  gh_stable e = match w_hist c with None => 0 | Some h => match hs !! h with Some a => gh_stable a | None => 0 end end /\ forall x, same hs hs' x.
Proof.
  unfold wnew. destruct (area <=? length hs); [done|]. unfold wchain. destruct (w_hist c) as [h|].
  - destruct (hs !! h) as [a|] eqn:Ha; [|done]. intros [= <- <-]. eexists. split; [done|].
    split; [rewrite lookup_app_r by (rewrite insert_length; lia); rewrite insert_length, Nat.sub_diag; done|]. split; [done|]. split; [done|].
    intros x. eapply same_trans; [|apply same_app]. by eapply same_insert.
  - intros [= <- <-]. eexists. split; [done|]. split; [rewrite lookup_app_r by lia; rewrite Nat.sub_diag; done|]. split; [done|]. split; [done|].
    intros x. apply same_app.
Qed.

Definition recpts (pt : nat -> Z * Z) (pn : list nat) (R : list nat) (rc : wmser) : Prop := wm_pts rc = map pt (map (nd pn) R).

Lemma seg_prefix_pair hs oc L R h a R' : NoDup L -> seg_in hs oc L R -> w_hist oc = Some h -> hs !! h = Some a -> gh_stable a <= gh_size a ->
  R' = take (gh_size a) L -> gh_size a <= length L -> diverse P (gh_size a) (gh_stable a) = true -> pairok P R R'.
Proof.
  intros Hnd (h' & a' & o & E1 & E2 & E3 & E4 & E5) Hh Ha Hle -> Hl Hd. rewrite Hh in E1. injection E1 as <-. rewrite Ha in E2. injection E2 as <-.
  unfold pairok. rewrite take_length_le by done. destruct E4 as [E4|E4].
  - right. split; [|exists (gh_stable a); split; [lia|done]].
    intros k Hk. rewrite E3 in Hk. apply elem_of_list_lookup in Hk as (i & Hi). apply lookup_take_Some in Hi as [Hi Hlt]. rewrite lookup_drop in Hi.
    apply elem_of_list_lookup. exists (o + i). apply lookup_take_Some. split; [done|lia].
  - left. intros k Hk Hk'. rewrite E3 in Hk. apply elem_of_list_lookup in Hk as (i & Hi). apply lookup_take_Some in Hi as [Hi _]. rewrite lookup_drop in Hi.
    apply elem_of_list_lookup in Hk' as (j & Hj). apply lookup_take_Some in Hj as [Hj Hlt]. pose proof (NoDup_lookup _ _ _ _ Hnd Hi Hj). lia.
Qed.
Lemma take_elem (n : nat) (L : list nat) k : k ∈ take n L -> k ∈ L.
Proof. intros H. rewrite <-(take_drop n L). apply elem_of_app. by left. Qed.

Lemma SG_raise pt gm area v pn next hs hs' c rest oc oc' orest L Ls RL out out' :
  CS pn next hs (c :: rest) (oc :: orest) (L :: Ls) -> SG P hs (oc :: orest) (L :: Ls) RL -> Forall2 (recpts pt pn) RL out ->
  wraise P gm area v oc (WMem (map pt pn) next hs out) = Some (oc', WMem (map pt pn) next hs' out') ->
  exists RL', SG P hs' (oc' :: orest) (L :: Ls) RL' /\ Forall2 (recpts pt pn) RL' out'.
Proof.
  intros HC HS HF. unfold wraise. cbn [wm_hist wm_xy wm_next wm_out].
  destruct (wstable P oc hs) as [[[st c1] hs1]|] eqn:Est; [|done].
  destruct (wstable_eff _ _ _ _ _ Est) as (Hh1 & Hhd1 & Hf & Ht).
  assert (forall h, w_hist oc = Some h -> h ∉ omap w_hist orest) as Hown.
  { intros h Hh. pose proof (cs_hnd _ _ _ _ _ _ HC) as Hnd. cbn [omap list_omap] in Hnd. rewrite Hh in Hnd. by apply NoDup_cons in Hnd as [? _]. }
  pose proof (cs_rel _ _ _ _ _ _ HC) as HR. inversion HR as [|? ? ? ? ? ? Hcw HRr]; subst.
  assert (NoDup L) as HndL. { pose proof (cs_nd _ _ _ _ _ _ HC) as Hnd. cbn [concat] in Hnd. by apply NoDup_app in Hnd as (? & _). }
  assert (w_size c1 = length L) as Hsz1.
  { rewrite <-(cw_size _ _ _ _ _ _ Hcw). unfold wstable in Est. repeat (case_match; try done); by injection Est as <- <- <-. }
  (* after the test *)
  assert (forall m2, (if st then winfo gm c1 (WMem (map pt pn) next hs1 out) else Some (WMem (map pt pn) next hs1 out)) = Some m2 ->
    wm_hist m2 = hs1 /\ exists RL', SG P hs1 (c1 :: orest) (L :: Ls) RL' /\ Forall2 (recpts pt pn) RL' (wm_out m2)) as Hmid.
  { intros m2. destruct st.
    - destruct (Ht eq_refl) as (h & a & a' & Hh & Ha & Ha' & E1 & E2 & Hd & Hsame). clear Hf Ht.
      unfold winfo. rewrite Hh1, Hh. cbn [wm_hist wm_xy wm_next wm_out]. rewrite Ha'.
      pose proof (cw_hist _ _ _ _ _ _ Hcw) as Hhist. rewrite Hh in Hhist. destruct Hhist as (a0 & Ha0 & _ & Hsz). rewrite Ha in Ha0. injection Ha0 as <-.
      assert (1 <= gh_size a) as Hpos by (by apply (cs_hok _ _ _ _ _ _ HC h)).
      assert (gh_stable a <= gh_size a) as Hstl. { destruct HS as [Hst _ _]. apply Forall_cons in Hst as [Hst _]. unfold stok in Hst. rewrite Hh in Hst. destruct Hst as (b & Hb & Hle). congruence. }
      assert (w_head c1 = head L) as Hhd. { rewrite Hhd1. apply (cw_ends _ _ _ _ _ _ Hcw). destruct L; [cbn in Hsz; lia|done]. }
      rewrite Hhd, E1, (wwalk_ok pt pn next L (gh_size a)).
      2:{ apply (cw_link _ _ _ _ _ _ Hcw). } 2:{ intros x Hx. by eapply sub_lt. } 2:{ apply (cs_next _ _ _ _ _ _ HC). } 2:{ done. }
      destruct (wbox _) as [[[x0 y0] x1] y1]. intros [= <-]. cbn [wm_hist wm_out]. split; [done|].
      set (R := take (gh_size a) L). exists (RL ++ [R]). split; [|apply Forall2_app; [done|]; constructor; [done|constructor]].
      assert (length R = gh_size a) as HlR by (unfold R; by rewrite take_length_le).
      assert (SG P hs1 (c1 :: orest) (L :: Ls) RL) as HS1.
      { eapply SG_top; [exact HS| | |].
        - intros x Hx. apply Hsame. intros ->. by apply (Hown h).
        - unfold stok. rewrite Hh1, Hh. exists a'. split; [done|]. lia.
        - intros R0 _ (h0 & b & o & B1 & B2 & B3 & B4 & B5). rewrite Hh in B1. injection B1 as <-. rewrite Ha in B2. injection B2 as <-.
          exists h, a', o. rewrite Hh1. split; [done|]. split; [done|]. split; [done|]. rewrite E1, E2. split; [done|]. lia. }
      destruct HS1 as [G1 G2 G3]. constructor; [done| |].
      + intros R0 HR0. apply elem_of_app in HR0 as [HR0|HR0]; [auto|]. apply elem_of_list_singleton in HR0 as ->. split.
        { intros E. rewrite E in HlR. cbn in HlR. lia. }
        exists 0, c1, L. split; [done|]. split; [done|]. exists h, a', 0. rewrite Hh1. split; [done|]. split; [done|]. rewrite drop_0, HlR. split; [done|]. rewrite E1, E2. lia.
      + intros i j R0 R1 Hi Hj Hij. apply lookup_app_Some in Hj as [Hj|[Hge Hj]].
        { rewrite lookup_app_l in Hi by (apply lookup_lt_Some in Hj; lia). by eapply (G3 i j). }
        destruct (j - length RL) as [|j'] eqn:Ej; [|done]. cbn in Hj. injection Hj as <-. assert (i < length RL) as Hil by lia.
        rewrite lookup_app_l in Hi by done. assert (R0 ∈ RL) as HR0 by (by eapply elem_of_list_lookup_2).
        destruct (sg_seg _ _ _ _ _ HS R0 HR0) as (Hne & k & o & Lo & K1 & K2 & K3). destruct k as [|k].
        * injection K1 as <-. injection K2 as <-. eapply (seg_prefix_pair hs oc L R0 h a); eauto.
        * left. intros x Hx Hx'. destruct K3 as (_ & _ & oo & _ & _ & K3 & _). rewrite K3 in Hx. apply take_elem in Hx. apply take_elem in Hx'.
          assert (x ∈ Lo) as HxLo. { rewrite <-(take_drop oo Lo). apply elem_of_app. by right. }
          pose proof (cs_nd _ _ _ _ _ _ HC) as Hnd. cbn [concat] in Hnd. apply NoDup_app in Hnd as (_ & Hnd & _). apply (Hnd x Hx').
          apply elem_of_list_In, in_concat. exists Lo. split; [apply elem_of_list_In; by eapply elem_of_list_lookup_2|by apply elem_of_list_In].
    - intros [= <-]. cbn [wm_hist wm_out]. split; [done|]. exists RL. split; [|done]. specialize (Hf eq_refl). eapply SG_top; [exact HS|auto| |].
      + destruct HS as [Hst _ _]. apply Forall_cons in Hst as [Hst _]. eapply stok_same in Hst; [|intros h _; exact (Hf h)]. unfold stok in *. by rewrite Hh1.
      + intros R Hne Hseg. eapply seg_same in Hseg; [|intros h _; exact (Hf h)]. destruct Hseg as (h & a & o & Hs). exists h, a, o. by rewrite Hh1. }
  destruct (if st then _ else _) as [m2|] eqn:E2; [|done]. destruct (Hmid m2 eq_refl) as (Hm2 & RL' & HS' & HF').
  destruct (wnew area c1 (wm_hist m2)) as [[c2 hs2]|] eqn:En; [|done]. intros [= <- _ _ <- <-]. rewrite Hm2 in En.
  destruct (wnew_eff _ _ _ _ _ En) as (e & N1 & N2 & N3 & N4 & N5). exists RL'. split; [|done].
  assert (forall h a, w_hist c1 = Some h -> hs1 !! h = Some a -> gh_stable a <= length L) as HstL.
  { intros h a Hh Ha. destruct HS' as [Hst _ _]. apply Forall_cons in Hst as [Hst _]. unfold stok in Hst. rewrite Hh in Hst. destruct Hst as (b & Hb & Hle).
    rewrite Ha in Hb. injection Hb as <-. pose proof (cw_hist _ _ _ _ _ _ Hcw) as Hhist. rewrite Hh1 in Hh. rewrite Hh in Hhist. destruct Hhist as (a0 & Ha0 & _ & Hsz).
    assert (gh_size a = gh_size a0) as E; [|lia]. destruct st.
    - destruct (Ht eq_refl) as (h' & a1 & a' & Hh' & Ha1 & Ha' & E1 & _). rewrite Hh in Hh'. injection Hh' as <-. congruence.
    - destruct (Hf eq_refl h a0 Ha0) as (a' & Ha' & E1 & _). congruence. }
  eapply SG_top; [exact HS'|auto| |].
  - unfold stok. cbn [w_hist]. rewrite N1. exists e. split; [done|]. rewrite N3, N4, Hsz1. destruct (w_hist c1) as [h|] eqn:Hh; [|lia]. destruct (hs1 !! h) as [a|] eqn:Ha; [|lia]. by eapply HstL.
  - intros R Hne Hseg. pose proof Hseg as (h & a & o & S1 & S2 & S3 & S4 & S5). exists (length hs1), e, o. cbn [w_hist]. split; [done|]. split; [done|]. split; [done|].
    rewrite N3, N4, S1, S2, Hsz1. split; [|done]. left. by eapply seg_length.
Qed.

(* ---------- joining ---------- *)
Lemma SG_top2 hs hs' o1 o2 oc' orest L1 L2 L' Ls RL : SG P hs (o1 :: o2 :: orest) (L1 :: L2 :: Ls) RL -> (forall h, h ∈ omap w_hist orest -> same hs hs' h) ->
  stok hs' oc' -> (forall R, R <> [] -> seg_in hs o1 L1 R -> seg_in hs' oc' L' R) -> (forall R, R <> [] -> seg_in hs o2 L2 R -> seg_in hs' oc' L' R) ->
  SG P hs' (oc' :: orest) (L' :: Ls) RL.
Proof.
  intros [H1 H2 H3] Hs Hst Hseg1 Hseg2. apply Forall_cons in H1 as [_ H1]. apply Forall_cons in H1 as [_ H1]. constructor; [|  |done].
  - constructor; [done|]. apply Forall_forall. intros o Ho. rewrite Forall_forall in H1. eapply stok_same; [by apply H1|]. intros h Hh. apply Hs. apply elem_of_list_omap. eauto.
  - intros R HR. destruct (H2 R HR) as (Hne & i & o & Lo & E1 & E2 & E3). split; [done|]. destruct i as [|[|i]].
    + injection E1 as <-. injection E2 as <-. exists 0, oc', L'. auto.
    + injection E1 as <-. injection E2 as <-. exists 0, oc', L'. auto.
    + exists (S i), o, Lo. split; [done|]. split; [done|]. eapply seg_same; [done|]. intros h Hh. apply Hs. apply elem_of_list_omap. exists o. split; [|done].
      by eapply elem_of_list_lookup_2.
Qed.

Lemma merge_segs hs oa ob La Lb sc st hs1 st' la va g sz hd tl : wchain hs (w_hist oa) (length hs) = Some (sc, st, hs1) ->
  (match w_hist ob with None => Some st | Some h => match hs1 !! h with None => None | Some e => Some (if st <? gh_stable e then gh_stable e else st) end end) = Some st' ->
  stok hs oa -> stok hs ob -> (forall h a, w_hist oa = Some h -> hs !! h = Some a -> gh_size a <= length La) -> (forall h a, w_hist ob = Some h -> hs !! h = Some a -> gh_size a <= length Lb) ->
  w_size oa = length La -> length Lb <= length La ->
  let hs' := hs1 ++ [GHist sc (length hs) st' (w_gray oa) (w_size oa)] in
  let oc' := WComp g sz hd tl (Some (length hs)) la va in
  (forall h, same hs hs' h) /\ stok hs' oc' /\ (forall R, R <> [] -> seg_in hs oa La R -> seg_in hs' oc' (La ++ Lb) R) /\ (forall R, R <> [] -> seg_in hs ob Lb R -> seg_in hs' oc' (La ++ Lb) R).
Proof.
  intros Ech Est Sa Sb Za Zb Hsa Hle. cbv zeta. set (e := GHist sc (length hs) st' (w_gray oa) (w_size oa)).
  assert (length hs1 = length hs /\ (forall h, same hs hs1 h) /\ st = match w_hist oa with None => 0 | Some h => match hs !! h with Some a => gh_stable a | None => 0 end end) as (Hl & Hsm & Est0).
  { unfold wchain in Ech. destruct (w_hist oa) as [h|]; [|injection Ech as _ <- <-; split; [done|]; split; [intros x; apply same_refl|done]].
    destruct (hs !! h) as [a|] eqn:Ha; [|done]. injection Ech as _ <- <-. rewrite insert_length. split; [done|]. split; [|done]. intros x. by eapply same_insert. }
  assert ((hs1 ++ [e]) !! length hs = Some e) as He by (rewrite lookup_app_r by lia; by rewrite Hl, Nat.sub_diag).
  assert (st <= st' /\ (forall h a, w_hist ob = Some h -> hs !! h = Some a -> gh_stable a <= st') /\ st' <= length La) as (B1 & B2 & B3).
  { assert (st <= length La) as Hst.
    { rewrite Est0. destruct (w_hist oa) as [h|] eqn:Hh; [|lia]. destruct (hs !! h) as [a|] eqn:Ha; [|lia]. specialize (Za h a eq_refl Ha). unfold stok in Sa. rewrite Hh in Sa.
      destruct Sa as (b & Hb & Hbl). rewrite Ha in Hb. injection Hb as <-. lia. }
    destruct (w_hist ob) as [h|] eqn:Hh.
    - unfold stok in Sb. rewrite Hh in Sb. destruct Sb as (b & Hb & Hbl). specialize (Zb h b eq_refl Hb). destruct (Hsm h b Hb) as (b' & Hb' & F1 & F2). rewrite Hb', F2 in Est.
      destruct (Nat.ltb_spec st (gh_stable b)) as [Hlt|Hlt]; injection Est as <-; (split; [lia|]; split; [|lia]; intros h0 a0 [= <-] Ha0; rewrite Hb in Ha0; injection Ha0 as <-; lia).
    - injection Est as <-. split; [done|]. split; [done|done]. }
  split; [|split; [|split]].
  - intros h. eapply same_trans; [apply Hsm|apply same_app].
  - unfold stok. cbn [w_hist]. exists e. split; [done|]. unfold e. cbn [gh_stable gh_size]. lia.
  - intros R Hne Hseg. pose proof Hseg as (h & a & o & S1 & S2 & S3 & S4 & S5). exists (length hs), e, o. cbn [w_hist]. split; [done|]. split; [done|].
    split; [by apply seg_app|]. unfold e. cbn [gh_stable gh_size]. rewrite S1, S2 in Est0. split; [|lia]. left. rewrite Hsa. by eapply seg_length.
  - intros R Hne Hseg. pose proof Hseg as (h & a & o & S1 & S2 & S3 & S4 & S5). exists (length hs), e, (length La + o). cbn [w_hist]. split; [done|]. split; [done|].
    split; [|unfold e; cbn [gh_stable gh_size]; split; [lia|]; specialize (B2 h a S1 S2); lia].
    rewrite drop_app_ge by lia. replace (length La + o - length La) with o by lia. done.
Qed.

Lemma SG_merge area pn next next' hs hs' c1 c2 rest o1 o2 oc' orest L1 L2 Ls RL :
  CS pn next hs (c1 :: c2 :: rest) (o1 :: o2 :: orest) (L1 :: L2 :: Ls) -> SG P hs (o1 :: o2 :: orest) (L1 :: L2 :: Ls) RL ->
  wmerge area o1 o2 next hs = Some (oc', next', hs') -> SG P hs' (oc' :: orest) ((if w_size o2 <=? w_size o1 then L1 ++ L2 else L2 ++ L1) :: Ls) RL.
Proof.
  intros HC HS. pose proof (cs_rel _ _ _ _ _ _ HC) as HR. inversion HR as [|? ? ? ? ? ? Hc1 HR1]; subst. inversion HR1 as [|? ? ? ? ? ? Hc2 _]; subst.
  pose proof (cw_size _ _ _ _ _ _ Hc1) as S1. pose proof (cw_size _ _ _ _ _ _ Hc2) as S2.
  pose proof (sg_st _ _ _ _ _ HS) as Hst. apply Forall_cons in Hst as [T1 Hst]. apply Forall_cons in Hst as [T2 _].
  assert (forall c o L, CW pn next hs c o L -> forall h a, w_hist o = Some h -> hs !! h = Some a -> gh_size a <= length L) as Hz.
  { intros c o L Hc h a Hh Ha. pose proof (cw_hist _ _ _ _ _ _ Hc) as H. rewrite Hh in H. destruct H as (b & Hb & _ & Hle). congruence. }
  unfold wmerge. destruct (area <=? length hs); [done|].
  destruct (Nat.leb_spec (w_size o2) (w_size o1)) as [Hle|Hlt].
  - destruct (wchain hs (w_hist o1) (length hs)) as [[[sc st] hs1]|] eqn:Ech; [|done]. destruct (match w_hist o2 with Some _ => _ | None => _ end) as [st'|] eqn:Est; [|done].
    destruct (if (0 <? w_size o1) && (0 <? w_size o2) then _ else _) as [nx|]; [|done]. intros [= <- _ <-].
    destruct (merge_segs hs o1 o2 L1 L2 sc st hs1 st' (w_last o1) (w_var o1) (w_gray o2) (w_size o1 + w_size o2)
      (if 0 <? w_size o1 then w_head o1 else w_head o2) (if 0 <? w_size o2 then w_tail o2 else w_tail o1)) as (M1 & M2 & M3 & M4); eauto; [lia|].
    eapply SG_top2; eauto.
  - destruct (wchain hs (w_hist o2) (length hs)) as [[[sc st] hs1]|] eqn:Ech; [|done]. destruct (match w_hist o1 with Some _ => _ | None => _ end) as [st'|] eqn:Est; [|done].
    destruct (if (0 <? w_size o1) && (0 <? w_size o2) then _ else _) as [nx|]; [|done]. intros [= <- _ <-].
    destruct (merge_segs hs o2 o1 L2 L1 sc st hs1 st' (w_last o2) (w_var o2) (w_gray o2) (w_size o1 + w_size o2)
      (if 0 <? w_size o2 then w_head o2 else w_head o1) (if 0 <? w_size o1 then w_tail o1 else w_tail o2)) as (M1 & M2 & M3 & M4); eauto; [lia|].
    eapply SG_top2; eauto.
Qed.
End seg.
