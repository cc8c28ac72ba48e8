(* The components of the OpenCV-style extraction: linked points and histories. *)
From stdpp Require Import sorting relations functions list_numbers list.
From Coq Require Import NArith ZArith SpecFloat.
From Verif Require Import Spec FloodAbs FloodModel FloatModel RectModel RecogModel OcvModel Oc2Model Oc2Hist.
Local Open Scope nat_scope.

Lemma NoDup_concat_cons (L : list nat) Ls : NoDup (concat (L :: Ls)) <-> NoDup L /\ (forall x, x ∈ L -> x ∉ concat Ls) /\ NoDup (concat Ls).
Proof. cbn [concat]. apply NoDup_app. Qed.

Section comp.
Context (pt : nat -> Z * Z).

(* [pn]: the pixels in the order in which they got finished; [L]: the indices of the points
   of a component, in the order of its list *)
Record CW (pn : list nat) (next : list (option nat)) (hs : list ghist) (c : acomp) (oc : wcomp) (L : list nat) : Prop := MkCW {
  cw_gray : w_gray oc = cg c;
  cw_size : w_size oc = length L;
  cw_sub : forall k, k ∈ L -> exists p, pn !! k = Some p /\ p ∈ cl c;
  cw_ends : L <> [] -> w_head oc = head L /\ w_tail oc = last L;
  cw_link : forall i a b, L !! i = Some a -> L !! S i = Some b -> next !! a = Some (Some b);
  cw_hist : match w_hist oc with None => True | Some h => exists a, hs !! h = Some a /\ gh_child a = h /\ gh_size a <= length L end
}.
Record CS (pn : list nat) (next : list (option nat)) (hs : list ghist) (comps : list acomp) (ocs : list wcomp) (Ls : list (list nat)) : Prop := MkCS {
  cs_rel : Forall3 (CW pn next hs) comps ocs Ls;
  cs_nd : NoDup (concat Ls);
  cs_hok : hok hs;
  cs_hnd : NoDup (omap w_hist ocs);
  cs_next : length next = length pn;
  cs_pnd : NoDup pn
}.

Lemma CW_terminal pn next hs c oc L : CW pn next hs c oc L -> terminal hs (w_hist oc).
Proof. intros [_ _ _ _ _ H]. unfold terminal. destruct (w_hist oc); [|done]. destruct H as (a & H1 & H2 & _). eauto. Qed.

(* other arrays *)
Lemma CW_mono pn next hs c oc L pn' next' hs' : CW pn next hs c oc L ->
  (forall k p, pn !! k = Some p -> pn' !! k = Some p) ->
  (forall k, k ∈ L -> next' !! k = next !! k) ->
  (forall h a, w_hist oc = Some h -> hs !! h = Some a -> exists a', hs' !! h = Some a' /\ gh_child a' = gh_child a /\ gh_size a' = gh_size a) ->
  CW pn' next' hs' c oc L.
Proof.
  intros [H1 H2 H3 H4 H5 H6] Hp Hn Hh. constructor; auto.
  - intros k Hk. destruct (H3 k Hk) as (p & Hkp & Hin). eauto.
  - intros i a b Ha Hb. rewrite Hn; [by eapply H5|by eapply elem_of_list_lookup_2].
  - destruct (w_hist oc) as [h|]; [|done]. destruct H6 as (a & Ha & Hc & Hs). destruct (Hh h a eq_refl Ha) as (a' & Ha' & Hc' & Hs').
    exists a'. split; [done|]. split; [congruence|lia].
Qed.
Lemma CWs_mono pn next hs comps ocs Ls pn' next' hs' : Forall3 (CW pn next hs) comps ocs Ls ->
  (forall k p, pn !! k = Some p -> pn' !! k = Some p) ->
  (forall k, k ∈ concat Ls -> next' !! k = next !! k) ->
  (forall h a, h ∈ omap w_hist ocs -> hs !! h = Some a -> exists a', hs' !! h = Some a' /\ gh_child a' = gh_child a /\ gh_size a' = gh_size a) ->
  Forall3 (CW pn' next' hs') comps ocs Ls.
Proof.
  intros HF Hp Hn Hh. induction HF as [|c oc L cs os Ls Hc HF IH]; constructor.
  - eapply CW_mono; [exact Hc|done| |].
    + intros k Hk. apply Hn. cbn [concat]. apply elem_of_app. by left.
    + intros h a Ho. apply Hh. cbn [omap list_omap]. rewrite Ho. left.
  - apply IH.
    + intros k Hk. apply Hn. cbn [concat]. apply elem_of_app. by right.
    + intros h a Ho. apply Hh. cbn [omap list_omap]. destruct (w_hist oc); [by right|done].
Qed.

Lemma CS_new pn next hs comps ocs Ls g r : CS pn next hs comps ocs Ls -> CS pn next hs (AComp g r [] :: comps) (wcomp0 g :: ocs) ([] :: Ls).
Proof.
  intros [H1 H2 H3 H4 H5 H6]. constructor; auto. constructor; [|done]. constructor; cbn; auto; try done.
  - intros k Hk. by apply elem_of_nil in Hk.
Qed.

Lemma sub_lt pn next hs c oc L k : CW pn next hs c oc L -> k ∈ L -> k < length pn.
Proof. intros H Hk. destruct (cw_sub _ _ _ _ _ _ H k Hk) as (p & Hp & _). by eapply lookup_lt_Some. Qed.
Lemma concat_lt pn next hs comps ocs Ls k : Forall3 (CW pn next hs) comps ocs Ls -> k ∈ concat Ls -> k < length pn.
Proof.
  intros HF. induction HF as [|c oc L cs os Ls Hc HF IH]; cbn [concat]; [intros Hk; by apply elem_of_nil in Hk|].
  rewrite elem_of_app. intros [Hk|Hk]; [by eapply sub_lt|auto].
Qed.

(* linking a list behind another *)
Lemma link_app (L1 L2 : list nat) (next next' : list (option nat)) :
  (forall i a b, L1 !! i = Some a -> L1 !! S i = Some b -> next !! a = Some (Some b)) ->
  (forall i a b, L2 !! i = Some a -> L2 !! S i = Some b -> next !! a = Some (Some b)) ->
  NoDup (L1 ++ L2) ->
  (forall x, Some x <> last L1 -> next' !! x = next !! x) ->
  (forall x y, last L1 = Some x -> head L2 = Some y -> next' !! x = Some (Some y)) ->
  forall i a b, (L1 ++ L2) !! i = Some a -> (L1 ++ L2) !! S i = Some b -> next' !! a = Some (Some b).
Proof.
  intros H1 H2 Hnd Ho He i a b Ha Hb.
  assert (forall j x, (L1 ++ L2) !! j = Some x -> S j <> length L1 -> next' !! x = next !! x) as Hoth.
  { intros j x Hx Hj. apply Ho. intros Hl. rewrite last_lookup in Hl.
    destruct L1 as [|y L1]; [done|]. cbn [length Nat.pred] in Hl, Hj.
    assert (((y :: L1) ++ L2) !! length L1 = Some x) as Hx' by (by apply lookup_app_l_Some).
    assert (j = length L1) by (by eapply NoDup_lookup). lia. }
  destruct (decide (S i = length L1)) as [Heq|Hne].
  - apply He.
    + rewrite last_lookup, <-Heq. cbn [Nat.pred]. by rewrite lookup_app_l in Ha by lia.
    + rewrite lookup_app_r in Hb by lia. rewrite Heq, Nat.sub_diag in Hb. by destruct L2.
  - rewrite (Hoth i a Ha Hne). destruct (decide (S i < length L1)).
    + rewrite !lookup_app_l in * by lia. by eapply H1.
    + rewrite !lookup_app_r in * by lia. replace (S i - length L1) with (S (i - length L1)) in Hb by lia. by eapply H2.
Qed.

(* accumulateComp *)
Lemma CS_add pn next hs c rest oc orest L Ls p : CS pn next hs (c :: rest) (oc :: orest) (L :: Ls) -> p ∉ pn ->
  exists oc1 next', waccumulate oc (length pn) (next ++ [None]) = Some (oc1, next') /\
    CS (pn ++ [p]) next' hs (AComp (cg c) (cr c) (p :: cl c) :: rest) (oc1 :: orest) ((L ++ [length pn]) :: Ls) /\ w_hist oc1 = w_hist oc.
Proof.
  intros [H1 H2 H3 H4 H5 H6] Hp. inversion H1 as [|? ? ? ? ? ? Hc HF]; subst. apply NoDup_concat_cons in H2 as (N1 & N2 & N3).
  pose proof (cw_size _ _ _ _ _ _ Hc) as Hsz.
  assert (length pn ∉ L) as HnL. { intros Hin. pose proof (sub_lt _ _ _ _ _ _ _ Hc Hin). lia. }
  assert (length pn ∉ concat Ls) as HnLs. { intros Hin. pose proof (concat_lt _ _ _ _ _ _ _ HF Hin). lia. }
  assert (NoDup (concat ((L ++ [length pn]) :: Ls))) as Hnd.
  { apply NoDup_concat_cons. split; [|split; [|done]].
    - apply NoDup_app. split; [done|]. split; [|apply NoDup_singleton]. intros x Hx He. apply elem_of_list_singleton in He. by subst x.
    - intros x Hx. apply elem_of_app in Hx as [Hx|Hx]; [auto|]. apply elem_of_list_singleton in Hx. by subst x. }
  assert (NoDup (pn ++ [p])) as Hpnd.
  { apply NoDup_app. split; [done|]. split; [|apply NoDup_singleton]. intros x Hx He. apply elem_of_list_singleton in He. by subst x. }
  assert (forall k q, pn !! k = Some q -> (pn ++ [p]) !! k = Some q) as Hmono by (intros k q Hk; by apply lookup_app_l_Some).
  assert (exists oc1 next', waccumulate oc (length pn) (next ++ [None]) = Some (oc1, next') /\ length next' = S (length next) /\
     (forall x, x < length next -> Some x <> last L -> next' !! x = next !! x) /\ (forall x, last L = Some x -> next' !! x = Some (Some (length pn))) /\
     oc1 = WComp (w_gray oc) (S (length L)) (head (L ++ [length pn])) (Some (length pn)) (w_hist oc) (w_last oc) (w_var oc)) as (oc1 & next' & Hacc & Hlen & Hother & Hlast & Hoc1).
  { unfold waccumulate. rewrite Hsz. destruct L as [|x0 L0].
    - cbn [length]. change (0 <? 0) with false. cbn match. eexists _, _. split; [done|]. rewrite app_length. cbn [length]. split; [lia|]. split; [|split; [done|done]].
      intros x Hx _. by rewrite lookup_app_l.
    - destruct (Nat.ltb_spec 0 (length (x0 :: L0))) as [_|Hbad]; [|cbn [length] in Hbad; lia].
      destruct (cw_ends _ _ _ _ _ _ Hc) as [Hh Ht]; [done|]. rewrite Ht. destruct (last (x0 :: L0)) as [t|] eqn:Et; [|by rewrite last_None in Et].
      assert (t ∈ x0 :: L0) as Htin. { rewrite last_lookup in Et. by eapply elem_of_list_lookup_2. }
      pose proof (sub_lt _ _ _ _ _ _ _ Hc Htin) as Htl. unfold store. rewrite app_length. cbn [length].
      destruct (Nat.ltb_spec t (length next + 1)) as [_|]; [|lia]. eexists _, _. split; [done|]. rewrite insert_length, app_length. cbn [length]. split; [lia|].
      split; [|split].
      + intros x Hx Hne. rewrite list_lookup_insert_ne by congruence. by rewrite lookup_app_l.
      + intros x [= <-]. apply list_lookup_insert. rewrite app_length. lia.
      + rewrite Hh. done. }
  exists oc1, next'. split; [done|]. subst oc1. split; [|done]. constructor; auto.
  - constructor.
    + constructor; cbn [w_gray w_size w_head w_tail w_hist cg cl].
      * apply (cw_gray _ _ _ _ _ _ Hc).
      * rewrite app_length. cbn [length]. lia.
      * intros k Hk. apply elem_of_app in Hk as [Hk|Hk].
        -- destruct (cw_sub _ _ _ _ _ _ Hc k Hk) as (q & Hq & Hin). exists q. split; [auto|by right].
        -- apply elem_of_list_singleton in Hk as ->. exists p. split; [|left]. rewrite lookup_app_r by lia. by rewrite Nat.sub_diag.
      * intros _. split; [done|]. by rewrite last_snoc.
      * apply NoDup_concat_cons in Hnd as (Hnd & _). intros i a b Ha Hb.
        assert (i < length L) as Hi. { apply lookup_lt_Some in Hb. rewrite app_length in Hb. cbn [length] in Hb. lia. }
        assert (a ∈ L) as HaL. { rewrite lookup_app_l in Ha by done. by eapply elem_of_list_lookup_2. }
        assert (a < length next) as Hal. { pose proof (sub_lt _ _ _ _ _ _ _ Hc HaL). lia. }
        destruct (decide (S i = length L)) as [Heq|Hne].
        -- rewrite lookup_app_l in Ha by done. rewrite lookup_app_r in Hb by lia. rewrite Heq, Nat.sub_diag in Hb. injection Hb as <-.
           apply Hlast. rewrite last_lookup, <-Heq. done.
        -- rewrite !lookup_app_l in * by lia. rewrite Hother; [by eapply (cw_link _ _ _ _ _ _ Hc)|done|].
           intros Hl. symmetry in Hl. rewrite last_lookup in Hl. assert (i = pred (length L)); [|lia]. by eapply (NoDup_lookup L i (pred (length L)) a N1).
      * pose proof (cw_hist _ _ _ _ _ _ Hc) as Hh. destruct (w_hist oc); [|done]. destruct Hh as (a & E1 & E2 & E3). exists a. rewrite app_length. split; [done|]. split; [done|]. lia.
    + eapply CWs_mono; [exact HF|done| |eauto]. intros k Hk. apply Hother.
      * pose proof (concat_lt _ _ _ _ _ _ _ HF Hk). lia.
      * intros Hl. symmetry in Hl. rewrite last_lookup in Hl. apply (N2 k); [by eapply elem_of_list_lookup_2|done].
  - rewrite Hlen, app_length. cbn [length]. lia.
Qed.

(* newHistory *)
Lemma CS_hist area pn next hs c rest oc orest L Ls v r : CS pn next hs (c :: rest) (oc :: orest) (L :: Ls) -> L <> [] -> length hs < area ->
  exists oc' hs', wnew area oc hs = Some (oc', hs') /\ length hs' = S (length hs) /\
    CS pn next hs' (AComp v r (cl c) :: rest)
      (WComp v (w_size oc') (w_head oc') (w_tail oc') (w_hist oc') (w_last oc') (w_var oc') :: orest) (L :: Ls).
Proof.
  intros [H1 H2 H3 H4 H5 H6] HL Ha. inversion H1 as [|? ? ? ? ? ? Hc HF]; subst. unfold wnew. destruct (Nat.leb_spec area (length hs)) as [|_]; [lia|].
  destruct (wchain_ok hs (w_hist oc) H3 (CW_terminal _ _ _ _ _ _ Hc)) as (sc & st & hs' & -> & Hlen & Hoth & Hok).
  eexists _, _. split; [done|]. split; [rewrite app_length, Hlen; cbn [length]; lia|]. cbn [w_size w_head w_tail w_hist w_last w_var].
  pose proof (cw_size _ _ _ _ _ _ Hc) as Hsz. assert (1 <= length L) as HL1 by (destruct L; [done|cbn; lia]).
  constructor; auto.
  - constructor.
    + destruct Hc as [C1 C2 C3 C4 C5 C6]. constructor; cbn [w_gray w_size w_head w_tail w_hist cg cl]; auto.
      eexists. rewrite lookup_app_r by lia. rewrite Hlen, Nat.sub_diag. split; [done|]. cbn [gh_child gh_size]. split; [done|lia].
    + eapply CWs_mono; [exact HF|done|done|]. intros h a Hin Hh. exists a. split; [|done]. apply lookup_app_l_Some. rewrite Hoth; [done|].
      intros Heq. cbn [omap list_omap] in H4. rewrite <-Heq in H4. apply NoDup_cons in H4 as [H4 _]. done.
  - apply Hok. lia.
  - cbn [omap list_omap w_hist]. apply NoDup_cons. split.
    + intros Hin. apply elem_of_list_omap in Hin as (o & Ho & Hho). apply elem_of_list_lookup in Ho as (i & Hi).
      destruct (Forall3_lookup_m _ _ _ _ _ _ HF Hi) as (ci & Li & _ & _ & Hci). pose proof (cw_hist _ _ _ _ _ _ Hci) as Hh. rewrite Hho in Hh.
      destruct Hh as (a & Hla & _). apply lookup_lt_Some in Hla. lia.
    + cbn [omap list_omap] in H4. destruct (w_hist oc); [by apply NoDup_cons in H4 as [_ H4]|done].
Qed.

(* isStable *)
Lemma CS_stable P pn next hs c rest oc orest L Ls : CS pn next hs (c :: rest) (oc :: orest) (L :: Ls) ->
  exists st oc' hs', wstable P oc hs = Some (st, oc', hs') /\ length hs' = length hs /\ CS pn next hs' (c :: rest) (oc' :: orest) (L :: Ls) /\
    (st = true -> exists h a, w_hist oc' = Some h /\ hs' !! h = Some a /\ (p_min P <= Z.of_nat (gh_size a) <= p_max P)%Z).
Proof.
  intros [H1 H2 H3 H4 H5 H6]. inversion H1 as [|? ? ? ? ? ? Hc HF]; subst.
  destruct (wstable_ok P oc hs H3 (CW_terminal _ _ _ _ _ _ Hc)) as (st & oc' & hs' & -> & Hok & Hlen & (l & v & ->) & Hsame & Hst).
  eexists _, _, _. split; [done|]. split; [done|]. split.
  - constructor; auto. constructor.
    + assert (CW pn next hs' c oc L) as [C1 C2 C3 C4 C5 C6] by (eapply CW_mono; eauto). by constructor.
    + eapply CWs_mono; eauto.
  - intros E. destruct (Hst E) as (h & a & Hh & Ha & Hr). cbn [w_hist]. destruct (Hsame h a Ha) as (a' & Ha' & _ & Hs). exists h, a'. rewrite Hs. done.
Qed.
End comp.
