(* Records, raising and merging of components in the OpenCV-style extraction. *)
From stdpp Require Import sorting relations functions list_numbers list.
From Coq Require Import NArith ZArith SpecFloat.
From Verif Require Import Spec FloodAbs FloodModel FloatModel RectModel RecogModel OcvModel Oc2Model Oc2Hist Oc2Comp.
Local Open Scope nat_scope.

(* SPEC: the level of a record of a component of level g *)
Definition wlevel (gm : N) (g : nat) : nat := if (gm =? 0)%N then g mod 256 else 255 - g mod 256.
Definition wbound (l : list (Z * Z)) : rect := let '(x0, y0, x1, y1) := wbox l in Rect x0 y0 (x1 - x0 + 1) (y1 - y0 + 1).

Section join.
Context (pt : nat -> Z * Z) (gm : N) (P : rparam).

(* a record of part of the component c *)
Definition rec_of (c : acomp) (rc : wmser) : Prop := exists l, l <> [] /\ NoDup l /\ (forall p, p ∈ l -> p ∈ cl c) /\
  wm_pts rc = map pt l /\ wm_size rc = length l /\ (p_min P <= Z.of_nat (length l) <= p_max P)%Z /\
  wm_rect rc = wbound (map pt l) /\ wm_level rc = wlevel gm (cg c).

Definition nd (pn : list nat) (k : nat) : nat := default 0 (pn !! k).
Lemma wwalk_ok pn next L k : (forall i a b, L !! i = Some a -> L !! S i = Some b -> next !! a = Some (Some b)) ->
  (forall x, x ∈ L -> x < length pn) -> length next = length pn -> k <= length L ->
  wwalk (map pt pn) next (head L) k = Some (map pt (map (nd pn) (take k L))).
Proof.
  revert L. induction k as [|k IH]; intros L Hl Hlt Hn Hk; [done|]. destruct L as [|x L]; [cbn in Hk; lia|]. cbn [wwalk head take map].
  assert (x < length pn) as Hx by (apply Hlt; left). destruct (lookup_lt_is_Some_2 pn x Hx) as [p Hp].
  assert ((map pt pn) !! x = Some (pt p)) as -> by (change (map pt pn) with (pt <$> pn); by rewrite list_lookup_fmap, Hp).
  destruct (lookup_lt_is_Some_2 next x ltac:(lia)) as [o Ho]. rewrite Ho.
  assert (wwalk (map pt pn) next o k = Some (map pt (map (nd pn) (take k L)))) as ->.
  - destruct L as [|y L].
    + cbn [length] in Hk. replace k with 0 by lia. done.
    + assert (o = Some y) as ->. { specialize (Hl 0 x y eq_refl eq_refl). congruence. }
      change (Some y) with (head (y :: L)). apply IH; auto.
      * intros i a b Ha Hb. by apply (Hl (S i)).
      * intros z Hz. apply Hlt. by right.
      * cbn [length] in *. lia.
  - unfold nd at 2. rewrite Hp. done.
Qed.

Lemma CS_info pn next hs c rest oc orest L Ls out h a : CS pn next hs (c :: rest) (oc :: orest) (L :: Ls) -> w_hist oc = Some h -> hs !! h = Some a ->
  (p_min P <= Z.of_nat (gh_size a) <= p_max P)%Z ->
  exists rc, winfo gm oc (WMem (map pt pn) next hs out) = Some (WMem (map pt pn) next hs (out ++ [rc])) /\ rec_of c rc.
Proof.
  intros [H1 H2 H3 H4 H5 H6] Hh Ha Hlim. inversion H1 as [|? ? ? ? ? ? Hc HF]; subst. unfold winfo. rewrite Hh. cbn [wm_hist wm_xy wm_next wm_out]. rewrite Ha.
  pose proof (cw_hist _ _ _ _ _ _ Hc) as Hch. rewrite Hh in Hch. destruct Hch as (a' & Ha' & _ & Hs). rewrite Ha in Ha'. injection Ha' as <-.
  destruct (H3 h a Ha) as (_ & Hs1). assert (L <> []) as HL by (intros ->; cbn in Hs; lia).
  destruct (cw_ends _ _ _ _ _ _ Hc HL) as [-> _].
  rewrite (wwalk_ok pn next L (gh_size a)); [|apply (cw_link _ _ _ _ _ _ Hc)|intros x; apply (sub_lt _ _ _ _ _ _ _ Hc)|done|done].
  set (l := map (nd pn) (take (gh_size a) L)).
  assert (length l = gh_size a) as Hlen. { unfold l. rewrite map_length, take_length. lia. }
  apply NoDup_concat_cons in H2 as (N1 & _).
  assert (forall k, k ∈ take (gh_size a) L -> k ∈ L) as Htk. { intros k Hk. apply elem_of_list_lookup in Hk as (i & Hi). apply lookup_take_Some in Hi as [Hi _]. by eapply elem_of_list_lookup_2. }
  assert (exists rc, rc = WMser (gh_size a) (map pt l) (wbound (map pt l)) (wlevel gm (cg c))) as (rc & Hrc) by eauto.
  exists rc. split.
  - rewrite Hrc. unfold wbound, wlevel. rewrite (cw_gray _ _ _ _ _ _ Hc). destruct (wbox (map pt l)) as [[[x0 y0] x1] y1]. done.
  - rewrite Hrc. exists l. cbn [wm_pts wm_size wm_rect wm_level]. rewrite Hlen. split; [|split; [|split; [|done]]].
    + intros E. rewrite E in Hlen. cbn in Hlen. lia.
    + apply NoDup_fmap_2_strong.
      * intros x y Hx Hy. destruct (cw_sub _ _ _ _ _ _ Hc x (Htk x Hx)) as (p & Hp & _). destruct (cw_sub _ _ _ _ _ _ Hc y (Htk y Hy)) as (q & Hq & _).
        unfold nd. rewrite Hp, Hq. cbn. intros ->. by eapply NoDup_lookup.
      * rewrite <-(take_drop (gh_size a) L) in N1. by apply NoDup_app in N1 as (N1 & _).
    + intros p Hp. apply elem_of_list_fmap in Hp as (k & -> & Hk). destruct (cw_sub _ _ _ _ _ _ Hc k (Htk k Hk)) as (q & Hq & Hin). unfold nd. by rewrite Hq.
Qed.

Lemma CS_raise area pn next hs c rest oc orest L Ls out v r : CS pn next hs (c :: rest) (oc :: orest) (L :: Ls) -> L <> [] -> length hs < area ->
  exists oc' hs' out', wraise P gm area v oc (WMem (map pt pn) next hs out) = Some (oc', WMem (map pt pn) next hs' out') /\ length hs' = S (length hs) /\
    CS pn next hs' (AComp v r (cl c) :: rest) (oc' :: orest) (L :: Ls) /\ (out' = out \/ exists rc, out' = out ++ [rc] /\ rec_of c rc).
Proof.
  intros HC HL Ha. unfold wraise. cbn [wm_hist wm_xy wm_next wm_out].
  destruct (CS_stable P pn next hs c rest oc orest L Ls HC) as (st & oc1 & hs1 & -> & Hl1 & HC1 & Hst).
  assert (exists out', (if st then winfo gm oc1 (WMem (map pt pn) next hs1 out) else Some (WMem (map pt pn) next hs1 out)) = Some (WMem (map pt pn) next hs1 out') /\
    (out' = out \/ exists rc, out' = out ++ [rc] /\ rec_of c rc)) as (out' & -> & Ho).
  { destruct st; [|eauto]. destruct (Hst eq_refl) as (h & a & Hh & Hla & Hlim).
    destruct (CS_info pn next hs1 c rest oc1 orest L Ls out h a HC1 Hh Hla Hlim) as (rc & -> & Hrc). eexists. split; [done|]. right. eauto. }
  cbn [wm_hist wm_xy wm_next wm_out].
  destruct (CS_hist area pn next hs1 c rest oc1 orest L Ls v r HC1 HL ltac:(lia)) as (oc2 & hs2 & -> & Hl2 & HC2).
  eexists _, _, _. split; [done|]. split; [lia|]. done.
Qed.

Lemma merge_core pn next hs ca cb oa ob La Lb g r : CW pn next hs ca oa La -> CW pn next hs cb ob Lb -> NoDup (La ++ Lb) -> La <> [] -> hok hs ->
  (forall h, w_hist oa = Some h -> w_hist ob <> Some h) -> length next = length pn ->
  exists sc st hs1 st' next', wchain hs (w_hist oa) (length hs) = Some (sc, st, hs1) /\
    (match w_hist ob with None => Some st | Some h => match hs1 !! h with None => None | Some e => Some (if st <? gh_stable e then gh_stable e else st) end end) = Some st' /\
    (if (0 <? w_size oa) && (0 <? w_size ob) then match w_tail oa, w_head ob with Some t, Some x => store next t (Some x) | _, _ => None end else Some next) = Some next' /\
    length next' = length next /\ length hs1 = length hs /\ (forall x, x ∉ La -> next' !! x = next !! x) /\ (forall x, Some x <> w_hist oa -> hs1 !! x = hs !! x) /\
    hok (hs1 ++ [GHist sc (length hs) st' (w_gray oa) (w_size oa)]) /\
    forall la va cl', (forall p, p ∈ cl ca \/ p ∈ cl cb -> p ∈ cl') ->
      CW pn next' (hs1 ++ [GHist sc (length hs) st' (w_gray oa) (w_size oa)]) (AComp g r cl')
        (WComp g (w_size oa + w_size ob) (if 0 <? w_size oa then w_head oa else w_head ob) (if 0 <? w_size ob then w_tail ob else w_tail oa) (Some (length hs)) la va) (La ++ Lb).
Proof.
  intros Ha Hb Hnd HLa Hok Hne Hnext. pose proof (cw_size _ _ _ _ _ _ Ha) as Sa. pose proof (cw_size _ _ _ _ _ _ Hb) as Sb.
  assert (1 <= length La) as HLa1 by (destruct La; [done|cbn; lia]).
  destruct (wchain_ok hs (w_hist oa) Hok (CW_terminal _ _ _ _ _ _ Ha)) as (sc & st & hs1 & Ech & Hl1 & Hoth & Hnew).
  assert (exists st', (match w_hist ob with None => Some st | Some h => match hs1 !! h with None => None | Some e => Some (if st <? gh_stable e then gh_stable e else st) end end) = Some st') as (st' & Est).
  { pose proof (cw_hist _ _ _ _ _ _ Hb) as Hh. destruct (w_hist ob) as [h|]; [|eauto]. destruct Hh as (a & Hla & _).
    rewrite Hoth; [rewrite Hla; eauto|]. intros E. by apply (Hne h). }
  destruct (cw_ends _ _ _ _ _ _ Ha HLa) as [Eh Et]. destruct (last La) as [t|] eqn:El; [|by rewrite last_None in El].
  assert (t ∈ La) as Htin. { rewrite last_lookup in El. by eapply elem_of_list_lookup_2. }
  pose proof (sub_lt _ _ _ _ _ _ _ Ha Htin) as Htl.
  assert (0 <? w_size oa = true) as Hz by (apply Nat.ltb_lt; lia).
  assert (exists next', (if (0 <? w_size oa) && (0 <? w_size ob) then match w_tail oa, w_head ob with Some t, Some x => store next t (Some x) | _, _ => None end else Some next) = Some next' /\
    length next' = length next /\ (forall x, x <> t -> next' !! x = next !! x) /\ (forall y, head Lb = Some y -> next' !! t = Some (Some y))) as (next' & Enx & Hnl & Hno & Hny).
  { rewrite Hz. cbn [andb]. rewrite Sb. destruct Lb as [|y Lb].
    - change (0 <? length (@nil nat)) with false. cbn match. exists next. done.
    - change (0 <? length (y :: Lb)) with true. cbn match. destruct (cw_ends _ _ _ _ _ _ Hb) as [Ehb _]; [done|]. rewrite Et, Ehb. cbn [head].
      unfold store. destruct (Nat.ltb_spec t (length next)) as [_|]; [|lia]. eexists. split; [done|]. rewrite insert_length. split; [done|]. split.
      + intros x Hx. by apply list_lookup_insert_ne.
      + intros y' [= <-]. apply list_lookup_insert. lia. }
  exists sc, st, hs1, st', next'. split; [exact Ech|]. split; [exact Est|]. split; [exact Enx|]. split; [exact Hnl|]. split; [exact Hl1|]. split.
  { intros x Hx. apply Hno. by intros ->. }
  split; [done|]. split; [apply Hnew; lia|]. intros la va cl' Hcl. constructor; cbn [w_gray w_size w_head w_tail w_hist cg cl].
  - done.
  - rewrite app_length. lia.
  - intros k Hk. apply elem_of_app in Hk as [Hk|Hk].
    + destruct (cw_sub _ _ _ _ _ _ Ha k Hk) as (p & Hp & Hin). eauto.
    + destruct (cw_sub _ _ _ _ _ _ Hb k Hk) as (p & Hp & Hin). eauto.
  - intros _. rewrite Hz, Eh. split; [by destruct La|]. rewrite Sb. destruct Lb as [|y Lb].
    + rewrite app_nil_r. change (0 <? length (@nil nat)) with false. cbn match. by rewrite El.
    + change (0 <? length (y :: Lb)) with true. cbn match. destruct (cw_ends _ _ _ _ _ _ Hb) as [_ Etb]; [done|]. by rewrite last_app_cons.
  - apply (link_app La Lb next next'); [apply (cw_link _ _ _ _ _ _ Ha)|apply (cw_link _ _ _ _ _ _ Hb)|done| |].
    + intros x Hx. apply Hno. intros ->. by apply Hx.
    + intros x y Hx Hy. rewrite El in Hx. injection Hx as <-. auto.
  - eexists. rewrite lookup_app_r by lia. rewrite Hl1, Nat.sub_diag. split; [done|]. cbn [gh_child gh_size]. split; [done|]. rewrite app_length. lia.
Qed.

Lemma CS_merge area pn next hs c1 c2 rest o1 o2 orest L1 L2 Ls r : CS pn next hs (c1 :: c2 :: rest) (o1 :: o2 :: orest) (L1 :: L2 :: Ls) -> L1 <> [] -> length hs < area ->
  exists oc' next' hs' L', wmerge area o1 o2 next hs = Some (oc', next', hs') /\ length hs' = S (length hs) /\ w_gray oc' = cg c2 /\
    CS pn next' hs' (AComp (cg c2) r (cl c2 ++ cl c1) :: rest) (oc' :: orest) (L' :: Ls) /\ L' = (if w_size o2 <=? w_size o1 then L1 ++ L2 else L2 ++ L1).
Proof.
  intros [H1 H2 H3 H4 H5 H6] HL Ha. inversion H1 as [|? ? ? ? ? ? Hc1 HF1]; subst. inversion HF1 as [|? ? ? ? ? ? Hc2 HF]; subst.
  cbn [concat] in H2. rewrite app_assoc in H2. apply NoDup_app in H2 as (N1 & N2 & N3).
  assert (NoDup (L2 ++ L1)) as N1' by (by rewrite Permutation_app_comm).
  assert (forall h, h ∈ omap w_hist orest -> w_hist o1 <> Some h /\ w_hist o2 <> Some h) as Hho.
  { intros h Hh. cbn [omap list_omap] in H4. destruct (w_hist o1) as [h1|], (w_hist o2) as [h2|]; repeat (apply NoDup_cons in H4 as [? H4]); split; try done; intros [= ->]; try done.
    match goal with H : h ∉ h2 :: _ |- _ => apply H; by right end. }
  assert (NoDup (omap w_hist orest)) as H4'.
  { cbn [omap list_omap] in H4. destruct (w_hist o1) as [h1|], (w_hist o2) as [h2|]; repeat (apply NoDup_cons in H4 as [? H4]); done. }
  assert (forall h, w_hist o1 = Some h -> w_hist o2 <> Some h) as H12.
  { intros h E1 E2. cbn [omap list_omap] in H4. rewrite E1, E2 in H4. apply NoDup_cons in H4 as [H4 _]. apply H4. left. }
  assert (forall h, h ∈ omap w_hist orest -> h < length hs) as Hhlt.
  { intros h Hin. apply elem_of_list_omap in Hin as (o & Ho & Hhe). apply elem_of_list_lookup in Ho as (i & Hi).
    destruct (Forall3_lookup_m _ _ _ _ _ _ HF Hi) as (ci & Li & _ & _ & Hci). pose proof (cw_hist _ _ _ _ _ _ Hci) as Hh. rewrite Hhe in Hh.
    destruct Hh as (a & Hla & _). by apply lookup_lt_Some in Hla. }
  assert (forall (o' : wcomp) (La : list nat) (next' : list (option nat)) (hs1 : list ghist) (e : ghist) (oc' : wcomp) (L' : list nat), length next' = length next -> length hs1 = length hs -> (forall x, x ∉ La -> next' !! x = next !! x) ->
    (forall x, x ∈ La -> x ∈ L1 ++ L2) -> (forall x, Some x <> w_hist o' -> hs1 !! x = hs !! x) -> o' = o1 \/ o' = o2 -> hok (hs1 ++ [e]) ->
    w_hist oc' = Some (length hs) -> L' ≡ₚ L1 ++ L2 -> CW pn next' (hs1 ++ [e]) (AComp (cg c2) r (cl c2 ++ cl c1)) oc' L' ->
    CS pn next' (hs1 ++ [e]) (AComp (cg c2) r (cl c2 ++ cl c1) :: rest) (oc' :: orest) (L' :: Ls)) as Hfin.
  { intros o' La next' hs1 e oc' L' E1 E2 E3 E4 E5 Ho E6 E7 E8 E9. constructor; auto.
    - constructor; [done|]. eapply CWs_mono; [exact HF|done| |].
      + intros k Hk. apply E3. intros Hin. apply E4 in Hin. by apply (N2 k).
      + intros h a Hh Hla. exists a. split; [|done]. apply lookup_app_l_Some. rewrite E5; [done|]. destruct (Hho h Hh). destruct Ho as [->| ->]; congruence.
    - cbn [concat]. apply NoDup_app. split; [by rewrite E8|]. split; [|done]. intros x. rewrite E8. apply N2.
    - cbn [omap list_omap]. rewrite E7. apply NoDup_cons. split; [|done]. intros Hin. apply Hhlt in Hin. lia.
    - congruence. }
  unfold wmerge. destruct (Nat.leb_spec area (length hs)) as [|_]; [lia|].
  destruct (Nat.leb_spec (w_size o2) (w_size o1)) as [Hle|Hlt].
  - destruct (merge_core pn next hs c1 c2 o1 o2 L1 L2 (cg c2) r Hc1 Hc2 N1 HL H3 H12 H5) as (sc & st & hs1 & st' & next' & -> & -> & -> & E1 & E2 & E3 & E4 & E5 & E6).
    eexists _, _, _, (L1 ++ L2). split; [done|]. split; [rewrite app_length, E2; cbn [length]; lia|]. rewrite (cw_gray _ _ _ _ _ _ Hc2). split; [done|].
    split; [|done]. apply (Hfin o1 L1); auto; [intros x Hx; apply elem_of_app; by left|]. apply E6. intros p Hp. apply elem_of_app. tauto.
  - assert (L2 <> []) as HL2. { intros ->. rewrite (cw_size _ _ _ _ _ _ Hc2) in Hlt. cbn in Hlt. lia. }
    destruct (merge_core pn next hs c2 c1 o2 o1 L2 L1 (cg c2) r Hc2 Hc1 N1' HL2 H3) as (sc & st & hs1 & st' & next' & -> & -> & Hn & E1 & E2 & E3 & E4 & E5 & E6).
    { intros h E E'. by apply (H12 h). } { done. }
    rewrite (cw_gray _ _ _ _ _ _ Hc2) in E5, E6. rewrite (andb_comm (0 <? w_size o1)), Hn. eexists _, _, _, (L2 ++ L1). split; [done|]. split; [rewrite app_length, E2; cbn [length]; lia|]. rewrite (cw_gray _ _ _ _ _ _ Hc2). split; [done|].
    split; [|done]. apply (Hfin o2 L2); auto; [intros x Hx; apply elem_of_app; by right|apply Permutation_app_comm|]. rewrite (Nat.add_comm (w_size o1)). apply E6. intros p Hp. apply elem_of_app. tauto.
Qed.
End join.
