(* The stack of components of the OpenCV3-style extraction: pixel lists and histories of all
   open components, and what one round of the loop does to them. *)
From stdpp Require Import sorting relations functions list_numbers list.
From Coq Require Import NArith ZArith SpecFloat.
From Verif Require Import Spec FloodAbs FloodAbsInv FloodModel FloatModel RectModel RecogModel CvExtract OcvModel OcvWords OcvTree OcvComp.
Local Open Scope nat_scope.

Lemma Forall3_mono_in {A B C} (R R' : A -> B -> C -> Prop) l k m :
  Forall3 R l k m -> (forall x y z, x ∈ l -> y ∈ k -> z ∈ m -> R x y z -> R' x y z) -> Forall3 R' l k m.
Proof.
  induction 1 as [|x y z l k m H HF IH]; intros Hi; constructor.
  - apply Hi; auto; left.
  - apply IH. intros a b c Ha Hb Hc. apply Hi; by right.
Qed.

(* the regions whose level has been exhausted: level and pixels *)
Definition RLof (comps : list acomp) (regs : list areg) (r : nat) : option (nat * list nat) :=
  match regs !! r with
  | Some a => if decide (r ∈ map cr comps) then None else Some (rg a, rl a)
  | None => None
  end.

Lemma onext_insert pix i v x : i < length pix -> onext (<[i := v]> pix) x = if decide (x = i) then N.to_nat (get_next v) else onext pix x.
Proof.
  intros Hi. unfold onext. destruct (decide (x = i)) as [->|]; [by rewrite list_lookup_insert|]. by rewrite list_lookup_insert_ne.
Qed.
Lemma onext_word pix x d n : pix !! x = Some (oword d n) -> fits29 n -> onext pix x = n.
Proof. intros H Hn. unfold onext. rewrite H, oword_next by done. by rewrite Nat2N.id. Qed.

Section stack.
Context (area step : nat) (P : rparam).
Context (Harea : (N.of_nat area <= 2 ^ 29)%N).

Lemma Harea' : (Z.of_nat area <= int_max)%Z.
Proof using Harea. unfold int_max. lia. Qed.
Lemma area_fits x : x < area -> fits29 x.
Proof using Harea. lia. Qed.

(* an open component *)
Record ocrel (nx : nat -> nat) RL (hs : list ohist) (rids : list nat) (c : acomp) (oc : ocomp) (L : list nat) : Prop := MkOcrel {
  oc_gray : o_gray oc = cg c;
  oc_list : L ≡ₚ cl c;
  oc_size : o_size oc = length L;
  oc_chain : ochain nx L;
  oc_ends : (L = [] /\ o_head oc = 0 /\ o_tail oc = 0) \/ (head L = Some (o_head oc) /\ last L = Some (o_tail oc) /\ nx (o_tail oc) = 0);
  oc_hist : chist area nx RL hs rids (o_hist oc) (cg c) (cr c)
}.

Record CR (pix : list N) (t : otree) (comps : list acomp) (regs : list areg) (ocs : list ocomp) (Ls : list (list nat)) (rids : list nat) : Prop := MkCR {
  cr_len : length pix = area;
  cr_rel : Forall3 (ocrel (onext pix) (RLof comps regs) (ot_h t) rids) comps ocs Ls;
  cr_nd : NoDup (concat Ls);
  cr_word : forall x, x ∈ concat Ls -> x <> 0 /\ exists n, pix !! x = Some (oword 5 n) /\ fits29 n;
  cr_hnd : NoDup (omap o_hist ocs);
  cr_rids : Forall (fun r => r < length regs) rids;
  cr_tree : tree_ok area step P False (onext pix) (RLof comps regs) rids t
}.

Lemma last_in (L : list nat) x : last L = Some x -> x ∈ L.
Proof. intros H. apply last_Some in H as (l' & ->). apply elem_of_app. right. left. Qed.
Lemma ocrel_tail_in nx RL hs rids c oc L : ocrel nx RL hs rids c oc L -> L <> [] -> last L = Some (o_tail oc) /\ head L = Some (o_head oc) /\ nx (o_tail oc) = 0.
Proof. intros H Hne. destruct (oc_ends _ _ _ _ _ _ _ H) as [(-> & _)|(? & ? & ?)]; done. Qed.

(* other components do not notice *)
Lemma ocrel_keep nx nx' RL RL' hs hs' rids rids' c oc L : next_ext nx nx' ->
  (forall x, last L = Some x -> nx x = 0 -> nx' x = 0) ->
  (chist area nx RL hs rids (o_hist oc) (cg c) (cr c) -> chist area nx' RL' hs' rids' (o_hist oc) (cg c) (cr c)) ->
  ocrel nx RL hs rids c oc L -> ocrel nx' RL' hs' rids' c oc L.
Proof.
  intros He Ht Hh [C1 C2 C3 C4 C5 C6]. constructor; auto; [by eapply ochain_ext|].
  destruct C5 as [|(H1 & H2 & H3)]; [by left|]. right. auto.
Qed.

(* only words outside the lists change, and no link *)
Lemma CR_pix pix pix' t comps regs ocs Ls rids : CR pix t comps regs ocs Ls rids -> length pix' = length pix ->
  (forall x, onext pix' x = onext pix x) -> (forall x, x ∈ concat Ls -> pix' !! x = pix !! x) -> CR pix' t comps regs ocs Ls rids.
Proof.
  intros [C1 C2 C3 C4 C5 C6 C7] Hl Hn Hw. assert (next_ext (onext pix) (onext pix')) as He by (intros x _; apply Hn).
  constructor; auto; [congruence| | |].
  - eapply Forall3_mono_in; [exact C2|]. intros c oc L _ _ _. apply ocrel_keep; [done| |].
    + intros x _ Hx. by rewrite Hn.
    + by apply chist_mono.
  - intros x Hx. destruct (C4 x Hx) as (H1 & n & H2 & H3). split; [done|]. exists n. by rewrite Hw.
  - by eapply tree_mono.
Qed.

(* a new component *)
Lemma CR_new pix t comps regs ocs Ls rids g : CR pix t comps regs ocs Ls rids ->
  CR pix t (AComp g (length regs) [] :: comps) (regs ++ [AReg g None []]) (OComp g 0 0 0 None :: ocs) ([] :: Ls) rids.
Proof.
  intros [C1 C2 C3 C4 C5 C6 C7].
  assert (forall r x, RLof comps regs r = Some x -> RLof (AComp g (length regs) [] :: comps) (regs ++ [AReg g None []]) r = Some x) as HR.
  { intros r x. unfold RLof. destruct (regs !! r) as [a|] eqn:Ha; [|done]. rewrite (lookup_app_l_Some _ _ _ _ Ha).
    destruct (decide (r ∈ map cr comps)) as [|Hn]; [done|]. intros H. rewrite decide_False; [done|]. cbn [map cr].
    intros [->|Hin]%elem_of_cons; [|done]. apply lookup_lt_Some in Ha. lia. }
  constructor; auto.
  - constructor.
    + constructor; [done|done|done|done|by left|]. cbn [o_hist chist cr]. intros Hin. rewrite Forall_forall in C6. apply C6 in Hin. lia.
    + eapply Forall3_mono_in; [exact C2|]. intros c oc L _ _ _. apply ocrel_keep; [apply next_ext_refl|done|]. apply chist_mono; [apply next_ext_refl|done].
  - rewrite app_length. eapply Forall_impl; [exact C6|]. cbn. lia.
  - eapply tree_mono; [apply next_ext_refl|exact HR|done].
Qed.

(* 314-319 *)
Lemma CR_add pix t c rest regs oc orest L Ls rids p : CR pix t (c :: rest) regs (oc :: orest) (L :: Ls) rids ->
  p ∉ concat (L :: Ls) -> p <> 0 -> p < area -> pix !! p = Some (oword 5 0) ->
  exists pix' oc', oadd pix p oc = Some (pix', oc') /\
    CR pix' t (AComp (cg c) (cr c) (p :: cl c) :: rest) regs (oc' :: orest) ((L ++ [p]) :: Ls) rids /\ length pix' = length pix /\
    (forall x, x ∉ concat (L :: Ls) -> pix' !! x = pix !! x).
Proof.
  intros [C1 C2 C3 C4 C5 C6 C7] Hp Hp0 Hpa Hw. inversion C2 as [|? ? ? ? ? ? H1 H2]; subst. unfold oadd.
  assert (fits29 p) as Hfp by by apply area_fits.
  assert (NoDup (concat ((L ++ [p]) :: Ls))) as Hnd.
  { cbn [concat] in *. rewrite <-app_assoc. rewrite (Permutation_app_comm [p]), app_assoc. apply NoDup_app. split; [done|]. split; [|apply NoDup_singleton].
    intros x Hx ->%elem_of_list_singleton. done. }
  assert (forall x, x ∈ concat ((L ++ [p]) :: Ls) -> x = p \/ x ∈ concat (L :: Ls)) as Hin.
  { intros x. cbn [concat]. rewrite !elem_of_app, elem_of_list_singleton. tauto. }
  destruct (oc_ends _ _ _ _ _ _ _ H1) as [(-> & Hh & Ht)|(Hh & Ht & Hn0)].
  - rewrite Ht. cbn [Nat.eqb]. eexists pix, _. split; [done|]. split; [|done].
    constructor; auto.
    + constructor; [|done]. destruct H1 as [E1 E2 E3 E4 E5 E6]. constructor; cbn; auto.
      right. split; [done|]. split; [done|]. by eapply onext_word.
    + intros x [->|Hx]%Hin; [|by apply C4]. split; [done|]. by exists 0.
  - assert (o_tail oc ∈ L) as HtL by by apply last_in.
    assert (o_tail oc ∈ concat (L :: Ls)) as Htc by (cbn [concat]; apply elem_of_app; by left).
    destruct (C4 _ Htc) as (Ht0 & n & Hn & Hfn). destruct (Nat.eqb_spec (o_tail oc) 0) as [|_]; [done|]. rewrite Hn.
    assert (n = 0) as -> by (erewrite onext_word in Hn0; eauto).
    rewrite set_onext_ok by done. eexists _, _. split; [done|].
    assert (o_tail oc < length pix) as Htl by (by eapply lookup_lt_Some).
    assert (forall x, onext (<[o_tail oc := oword 5 p]> pix) x = if decide (x = o_tail oc) then p else onext pix x) as Hnx.
    { intros x. rewrite onext_insert by done. rewrite oword_next by done. by rewrite Nat2N.id. }
    assert (next_ext (onext pix) (onext (<[o_tail oc := oword 5 p]> pix))) as He.
    { intros x Hx. rewrite Hnx. destruct (decide (x = o_tail oc)) as [->|]; [congruence|done]. }
    assert (p <> o_tail oc) as Hpt by (intros ->; done).
    split; [|split; [by rewrite insert_length|]].
    + constructor; auto.
      * by rewrite insert_length.
      * constructor.
        -- destruct H1 as [E1 E2 E3 E4 E5 E6]. constructor; cbn [cg cl cr o_gray o_size o_head o_tail o_hist]; auto.
           ++ rewrite E2. by rewrite Permutation_app_comm.
           ++ rewrite app_length, E3. cbn. lia.
           ++ eapply ochain_snoc; [by eapply ochain_ext|done| |done]. rewrite Hnx. by rewrite decide_True.
           ++ right. rewrite last_snoc. destruct L; [done|]. split; [done|]. split; [done|]. rewrite Hnx, decide_False by done. by eapply onext_word.
           ++ eapply chist_mono; [exact He| |done]. done.
        -- eapply Forall3_mono_in; [exact H2|]. intros c2 oc2 L2 _ _ HL2. apply ocrel_keep; [done| |by apply chist_mono].
           intros x Hx Hx0. rewrite Hnx. rewrite decide_False; [done|]. intros ->. cbn [concat] in C3. apply NoDup_app in C3 as (_ & C3 & _).
           apply (C3 _ HtL). apply elem_of_list_In, in_concat. exists L2. split; [by apply elem_of_list_In|]. apply elem_of_list_In. by apply last_in.
      * intros x [->|Hx]%Hin.
        -- split; [done|]. exists 0. rewrite list_lookup_insert_ne by done. done.
        -- destruct (C4 x Hx) as (Hx0 & m & Hm & Hfm). split; [done|]. destruct (decide (x = o_tail oc)) as [->|].
           ++ exists p. by rewrite list_lookup_insert.
           ++ exists m. by rewrite list_lookup_insert_ne.
      * eapply tree_mono; [exact He| |done]. done.
    + intros x Hx. rewrite list_lookup_insert_ne; [done|]. intros <-. done.
Qed.

(* the table of regions when the top component is closed *)
Lemma RL_close c rest regs a g' : regs !! cr c = Some a -> rg a = cg c -> NoDup (map cr (c :: rest)) ->
  (forall r x, RLof (c :: rest) regs r = Some x ->
     RLof (AComp g' (length regs) (cl c) :: rest) (set_par (set_rl regs (cr c) (cl c)) (cr c) (length regs) ++ [AReg g' None []]) r = Some x) /\
  RLof (AComp g' (length regs) (cl c) :: rest) (set_par (set_rl regs (cr c) (cl c)) (cr c) (length regs) ++ [AReg g' None []]) (cr c) = Some (cg c, cl c).
Proof.
  intros Ha Hg Hnd. pose proof (lookup_lt_Some _ _ _ Ha) as Hlt. set (regs1 := set_rl regs (cr c) (cl c)).
  assert (regs1 !! cr c = Some (AReg (rg a) (rpar a) (cl c))) as Ha1 by (unfold regs1; rewrite (set_rl_lookup _ _ _ a) by done; by rewrite decide_True).
  set (regs2 := set_par regs1 (cr c) (length regs)).
  assert (length regs2 = length regs) as Hl2 by (unfold regs2, regs1; by rewrite length_set_par, length_set_rl).
  assert (forall r, regs2 !! r = if decide (r = cr c) then Some (AReg (rg a) (Some (length regs)) (cl c)) else regs !! r) as Hlk.
  { intros r. unfold regs2. rewrite (set_par_lookup _ _ _ _ _ Ha1). destruct (decide (r = cr c)); [done|]. unfold regs1.
    rewrite (set_rl_lookup _ _ _ a) by done. by rewrite decide_False. }
  cbn [map] in Hnd. apply NoDup_cons in Hnd as [Hnd _]. split.
  - intros r x. unfold RLof. cbn [map cr]. destruct (regs !! r) as [b|] eqn:Hb; [|done]. destruct (decide (r ∈ _)) as [|Hni]; [done|].
    apply not_elem_of_cons in Hni as [Hrc Hni]. pose proof (lookup_lt_Some _ _ _ Hb). rewrite lookup_app_l by lia. rewrite Hlk, decide_False, Hb by done.
    rewrite decide_False; [done|]. intros [E|Hin]%elem_of_cons; [lia|done].
  - unfold RLof. cbn [map cr]. rewrite lookup_app_l by lia. rewrite Hlk, decide_True by done. rewrite decide_False; [by cbn; rewrite Hg|].
    intros [E|Hin]%elem_of_cons; [lia|done].
Qed.
Lemma RL_merge c c2 rest regs a l2 : regs !! cr c = Some a -> rg a = cg c -> NoDup (map cr (c :: c2 :: rest)) ->
  (forall r x, RLof (c :: c2 :: rest) regs r = Some x ->
     RLof (AComp (cg c2) (cr c2) l2 :: rest) (set_par (set_rl regs (cr c) (cl c)) (cr c) (cr c2)) r = Some x) /\
  RLof (AComp (cg c2) (cr c2) l2 :: rest) (set_par (set_rl regs (cr c) (cl c)) (cr c) (cr c2)) (cr c) = Some (cg c, cl c).
Proof.
  intros Ha Hg Hnd. set (regs1 := set_rl regs (cr c) (cl c)).
  assert (regs1 !! cr c = Some (AReg (rg a) (rpar a) (cl c))) as Ha1 by (unfold regs1; rewrite (set_rl_lookup _ _ _ a) by done; by rewrite decide_True).
  set (regs2 := set_par regs1 (cr c) (cr c2)).
  assert (forall r, regs2 !! r = if decide (r = cr c) then Some (AReg (rg a) (Some (cr c2)) (cl c)) else regs !! r) as Hlk.
  { intros r. unfold regs2. rewrite (set_par_lookup _ _ _ _ _ Ha1). destruct (decide (r = cr c)); [done|]. unfold regs1.
    rewrite (set_rl_lookup _ _ _ a) by done. by rewrite decide_False. }
  cbn [map] in Hnd. apply NoDup_cons in Hnd as [Hnd _]. split.
  - intros r x. unfold RLof. cbn [map cr]. destruct (regs !! r) as [b|] eqn:Hb; [|done]. destruct (decide (r ∈ _)) as [|Hni]; [done|].
    apply not_elem_of_cons in Hni as [Hrc Hni]. rewrite Hlk, decide_False, Hb by done. by rewrite decide_False.
  - unfold RLof. cbn [map cr]. rewrite Hlk, decide_True by done. rewrite decide_False; [by cbn; rewrite Hg|]. done.
Qed.

(* counting histories *)
Lemma rids_room (regs : list areg) rids r : NoDup rids -> Forall (fun r => r < length regs) rids -> r < length regs -> r ∉ rids -> length rids < length regs.
Proof.
  intros Hn HF Hr Hni. rewrite <-(seq_length (length regs) 0). change (length (r :: rids) <= length (seq 0 (length regs))).
  apply submseteq_length, NoDup_submseteq; [by constructor|]. intros x [->|Hx]%elem_of_cons; apply elem_of_seq; [lia|].
  rewrite Forall_forall in HF. specialize (HF x Hx). cbn in HF. lia.
Qed.

Lemma hist_lt nx RL hs rids comps ocs Ls j : Forall3 (ocrel nx RL hs rids) comps ocs Ls -> j ∈ omap o_hist ocs -> j < length hs.
Proof.
  induction 1 as [|c oc L comps ocs Ls H HF IH]; cbn [omap list_omap]; [intros Hj; by apply elem_of_nil in Hj|].
  pose proof (oc_hist _ _ _ _ _ _ _ H) as Hc. intros Hj. change (j ∈ match o_hist oc with Some y => y :: omap o_hist ocs | None => omap o_hist ocs end) in Hj.
  destruct (o_hist oc) as [y|]; [|auto]. apply elem_of_cons in Hj as [->|Hj]; [|auto].
  destruct Hc as (a & Ha & _). by eapply lookup_lt_Some.
Qed.
Lemma omap_cons_eq oc (ocs : list ocomp) : omap o_hist (oc :: ocs) = match o_hist oc with Some y => y :: omap o_hist ocs | None => omap o_hist ocs end.
Proof. done. Qed.
Lemma omap_in oc (ocs : list ocomp) j : oc ∈ ocs -> o_hist oc = Some j -> j ∈ omap o_hist ocs.
Proof. intros H Hj. apply elem_of_list_omap. eauto. Qed.

(* 344-346: the top component is raised to level g *)
Lemma CR_raise pix t c rest regs oc orest L Ls rids a g : CR pix t (c :: rest) regs (oc :: orest) (L :: Ls) rids ->
  regs !! cr c = Some a -> rg a = cg c -> NoDup (map cr (c :: rest)) -> (forall c', c' ∈ rest -> cr c' < length regs) ->
  length regs <= area -> cg c < g -> g <= 255 -> L <> [] ->
  exists t' oc' rids', ogrow P pix step area g false oc t = Some (oc', t') /\
    CR pix t' (AComp g (length regs) (cl c) :: rest) (set_par (set_rl regs (cr c) (cl c)) (cr c) (length regs) ++ [AReg g None []])
      (oc' :: orest) (L :: Ls) rids'.
Proof.
  intros [C1 C2 C3 C4 C5 C6 C7] Ha Hg Hnd Hrest Hra Hlt Hg255 HL.
  destruct (RL_close c rest regs a g Ha Hg Hnd) as (HRm & HRc). set (comps' := AComp g (length regs) (cl c) :: rest) in *.
  set (regs' := set_par _ _ _ ++ _) in *. pose proof (lookup_lt_Some _ _ _ Ha) as Hcr.
  inversion C2 as [|? ? ? ? ? ? H1 H2]; subst.
  destruct (ocrel_tail_in _ _ _ _ _ _ _ H1 HL) as (Hlast & Hhead & Htail). destruct H1 as [E1 E2 E3 E4 E5 E6].
  pose proof (fo_nd _ _ _ _ _ (proj1 C7)) as Hrnd.
  destruct (ogrow_close area step P Harea' (onext pix) (RLof comps' regs') False pix rids t oc (cr c) g false L (cl c))
    as (i & rids' & t' & ai & Hgrow & HT' & Hai & Hvi & Hpi & Hxi & Hri & Hcli & Hrids & Hfr & Hi); auto; rewrite ?E1; auto.
  { eapply tree_mono; [apply next_ext_refl|exact HRm|done]. }
  { eapply chist_mono; [apply next_ext_refl|exact HRm|done]. }
  { lia. }
  { intros Hni. pose proof (rids_room regs rids (cr c) Hrnd C6 Hcr Hni). lia. }
  { intros; done. }
  { apply Forall_forall. intros x Hx. destruct (C4 x) as (_ & n & Hn & _); [cbn [concat]; apply elem_of_app; by left|]. rewrite <-C1. by eapply lookup_lt_Some. }
  assert (length regs' = S (length regs)) as Hrl. { unfold regs'. rewrite app_length, length_set_par, length_set_rl. cbn. lia. }
  assert (Forall (fun r => r < length regs) rids') as Hr'.
  { destruct Hrids as [->|(_ & ->)]; [done|]. apply Forall_app. split; [done|]. by constructor. }
  exists t', (OComp g (o_size oc) (o_head oc) (o_tail oc) (Some i)), rids'. split; [done|]. constructor; auto.
  - constructor.
    + constructor; cbn [cg cl cr o_gray o_size o_head o_tail o_hist]; auto.
      exists ai. split; [done|]. split; [done|]. split; [done|]. right. split; [lia|]. split.
      * intros Hin. rewrite Forall_forall in Hr'. apply Hr' in Hin. lia.
      * eauto.
    + eapply Forall3_mono_in; [exact H2|]. intros c2 oc2 L2 Hc2 Hoc2 _. apply ocrel_keep; [apply next_ext_refl|done|].
      intros Hch. eapply (chist_frame _ _ _ (ot_h t) _ rids _ _ (o_hist oc)); [exact Hfr| | |eapply chist_mono; [apply next_ext_refl|exact HRm|done]].
      * destruct (o_hist oc2) as [j|] eqn:Ej; [|by left]. right. intros Ejo. rewrite omap_cons_eq in C5. rewrite <-Ejo in C5.
        apply NoDup_cons in C5 as [C5 _]. apply C5. by eapply omap_in.
      * destruct Hrids as [->|(_ & ->)]; [by left|]. right. exists (cr c). split; [|done]. intros He. cbn [map] in Hnd. apply NoDup_cons in Hnd as [Hnd _].
        apply Hnd. rewrite He. by apply elem_of_list_fmap_1.
  - rewrite omap_cons_eq in *. cbn [o_hist]. destruct Hi as [Hi|Hi].
    + by rewrite Hi in C5.
    + constructor.
      * intros Hin. pose proof (hist_lt _ _ _ _ _ _ _ _ H2 Hin). lia.
      * destruct (o_hist oc); [by apply NoDup_cons in C5 as [_ C5]|done].
  - eapply Forall_impl; [exact Hr'|]. cbn. lia.
Qed.

(* 349-352: the top component is merged into the next one *)
Lemma CR_merge pix t c c2 rest regs oc oc2 orest L L2 Ls rids a :
  CR pix t (c :: c2 :: rest) regs (oc :: oc2 :: orest) (L :: L2 :: Ls) rids ->
  regs !! cr c = Some a -> rg a = cg c -> NoDup (map cr (c :: c2 :: rest)) -> cr c2 < length regs ->
  length regs <= area -> cg c < cg c2 -> cg c2 <= 255 -> L <> [] ->
  exists t' oc' pix' rids', omerge P pix step area oc2 oc t = Some (oc', pix', t') /\
    CR pix' t' (AComp (cg c2) (cr c2) (cl c2 ++ cl c) :: rest) (set_par (set_rl regs (cr c) (cl c)) (cr c) (cr c2))
      (oc' :: orest) ((L2 ++ L) :: Ls) rids' /\ length pix' = length pix /\ (forall x, x ∉ L2 -> pix' !! x = pix !! x).
Proof.
  intros [C1 C2 C3 C4 C5 C6 C7] Ha Hg Hnd Hcr2 Hra Hlt Hg255 HL.
  destruct (RL_merge c c2 rest regs a (cl c2 ++ cl c) Ha Hg Hnd) as (HRm & HRc). set (comps' := AComp (cg c2) (cr c2) _ :: rest) in *.
  set (regs' := set_par _ _ _) in *. pose proof (lookup_lt_Some _ _ _ Ha) as Hcr.
  inversion C2 as [|? ? ? ? ? ? H1 H2']; subst. inversion H2' as [|? ? ? ? ? ? H2 H3]; subst. clear C2 H2'.
  destruct (ocrel_tail_in _ _ _ _ _ _ _ H1 HL) as (Hlast & Hhead & Htail). destruct H1 as [E1 E2 E3 E4 E5 E6]. destruct H2 as [D1 D2 D3 D4 D5 D6].
  pose proof (fo_nd _ _ _ _ _ (proj1 C7)) as Hrnd. set (nx := onext pix) in *. set (RL' := RLof comps' regs') in *.
  assert (tree_ok area step P False nx RL' rids t) as HT0 by (eapply tree_mono; [apply next_ext_refl|exact HRm|done]).
  assert (cr c <> cr c2) as Hcne. { intros He. cbn [map] in Hnd. apply NoDup_cons in Hnd as [Hnd _]. apply Hnd. rewrite He. left. }
  assert (forall c3, c3 ∈ rest -> cr c3 <> cr c /\ cr c3 <> cr c2) as Hcr3.
  { intros c3 H. cbn [map] in Hnd. apply NoDup_cons in Hnd as [Hn1 Hn2]. apply NoDup_cons in Hn2 as [Hn2 _].
    apply not_elem_of_cons in Hn1 as [_ Hn1]. split; intros He; [apply Hn1|apply Hn2]; rewrite <-He; by apply elem_of_list_fmap_1. }
  assert (forall j, o_hist oc = Some j -> o_hist oc2 <> Some j /\ j ∉ omap o_hist orest) as Hj1.
  { intros j Hj. rewrite !omap_cons_eq, Hj in C5. apply NoDup_cons in C5 as [C5 _]. destruct (o_hist oc2) as [j2|]; [|done].
    apply not_elem_of_cons in C5 as [C5 C5']. split; [|done]. congruence. }
  assert (NoDup (omap o_hist (oc2 :: orest))) as C5'. { rewrite (omap_cons_eq oc) in C5. destruct (o_hist oc); [by apply NoDup_cons in C5 as [_ C5]|done]. }
  assert (forall j, o_hist oc2 = Some j -> j ∉ omap o_hist orest) as Hj2. { intros j Hj. rewrite omap_cons_eq, Hj in C5'. by apply NoDup_cons in C5' as [C5' _]. }
  assert (NoDup (omap o_hist orest)) as C5''. { rewrite omap_cons_eq in C5'. destruct (o_hist oc2); [by apply NoDup_cons in C5' as [_ C5']|done]. }
  unfold omerge. rewrite E1, D1. destruct (Nat.ltb_spec (cg c2) (cg c)); [lia|].
  (* the lower component *)
  destruct (ogrow_place area step P nx RL' pix rids t oc2 (cr c2)) as (i2 & rids1 & t1 & a2 & Hg2 & HT1 & Ha2 & Hv2 & Hs2 & Hhd2 & Hp2 & Hx2 & Hr2 & Hrids1 & Hfr1 & Hi2); auto.
  { rewrite D1. eapply chist_mono; [apply next_ext_refl|exact HRm|done]. }
  { lia. }
  { intros Hni. pose proof (rids_room regs rids (cr c2) Hrnd C6 Hcr2 Hni). lia. }
  rewrite Hg2. cbn zeta. rewrite D1, Nat.ltb_irrefl, Nat.eqb_refl.
  assert (NoDup rids1) as Hnd1 by exact (fo_nd _ _ _ _ _ (proj1 HT1)).
  assert (Forall (fun r => r < length regs) rids1) as Hlt1.
  { destruct Hrids1 as [->|(_ & ->)]; [done|]. apply Forall_app. split; [done|]. by constructor. }
  (* the upper one *)
  destruct (ogrow_close area step P Harea' nx RL' False pix rids1 t1 oc (cr c) (cg c2) false L (cl c))
    as (i1 & rids2 & t2 & a1 & Hg1 & HT2 & Ha1 & Hv1 & Hp1 & Hx1 & Hr1 & Hcl1 & Hrids2 & Hfr2 & Hi1); auto; rewrite ?E1; auto.
  { eapply (chist_frame _ nx RL' (ot_h t) _ rids _ _ (o_hist oc2)); [exact Hfr1| | |eapply chist_mono; [apply next_ext_refl|exact HRm|done]].
    - destruct (o_hist oc) as [j|] eqn:Ej; [|by left]. right. destruct (Hj1 j eq_refl). congruence.
    - destruct Hrids1 as [->|(_ & ->)]; [by left|]. right. exists (cr c2). done. }
  { lia. }
  { intros Hni. pose proof (rids_room regs rids1 (cr c) Hnd1 Hlt1 Hcr Hni). lia. }
  { intros; done. }
  { apply Forall_forall. intros x Hx. destruct (C4 x) as (_ & n & Hn & _); [cbn [concat]; apply elem_of_app; by left|]. rewrite <-C1. by eapply lookup_lt_Some. }
  rewrite Hg1. cbn [o_size o_head o_tail o_hist].
  assert (Forall (fun r => r < length regs) rids2) as Hlt2.
  { destruct Hrids2 as [->|(_ & ->)]; [done|]. apply Forall_app. split; [done|]. by constructor. }
  assert (rids2 !! i2 = Some (cr c2)) as Hr2'.
  { destruct Hrids2 as [->|(_ & ->)]; [done|]. rewrite lookup_app_l; [done|]. by eapply lookup_lt_Some. }
  assert (i2 <> i1) as Hine by (intros ->; congruence).
  assert (length (ot_h t) <= length (ot_h t1)) as Hlen01.
  { rewrite <-(fo_len _ _ _ _ _ (proj1 HT1)), <-(fo_len _ _ _ _ _ (proj1 HT0)). destruct Hrids1 as [->|(_ & ->)]; [done|]. rewrite app_length. lia. }
  destruct (Hfr2 i2 a2 Ha2 Hp2) as (a2' & Ha2' & Esh).
  { intros Ho. destruct Hi2 as [Hi2|Hi2]; [by destruct (Hj1 i2 Ho)|].
    rewrite Ho in E6. destruct E6 as (b & Hb & _). apply lookup_lt_Some in Hb. lia. }
  apply shape_inv in Esh as (_ & S2 & S3 & S4 & S5 & S6).
  destruct (oattach_ok area step P nx RL' rids2 t2 i2 i1 a2' a1 (cr c)) as (hs3 & Hat & HT3 & (a3 & Ha3 & Hp3 & Hx3 & Hv3) & Hfr3); auto; try congruence.
  rewrite D3, E3, Hat.
  (* the lists *)
  assert (forall x, x ∈ L -> x ∈ concat (L :: L2 :: Ls)) as HinL by (intros x Hx; cbn [concat]; apply elem_of_app; by left).
  assert (forall x, x ∈ L2 -> x ∈ concat (L :: L2 :: Ls)) as HinL2 by (intros x Hx; cbn [concat]; rewrite !elem_of_app; auto).
  assert (o_head oc ∈ L) as HhL by (destruct L; [done|]; injection Hhead as ->; left).
  destruct (C4 (o_head oc) (HinL _ HhL)) as (Hh0 & nh & Hnh & _).
  assert (fits29 (o_head oc)) as Hfh by (apply area_fits; rewrite <-C1; by eapply lookup_lt_Some).
  cbn [concat] in C3. apply NoDup_app in C3 as (N1 & N2 & N3). apply NoDup_app in N3 as (N3 & N4 & N5).
  assert (exists hd pix', (if length L2 =? 0 then Some (o_head oc, pix) else match pix !! o_tail oc2 with
      | Some v => Some (o_head oc2, <[o_tail oc2 := set_onext v (N.of_nat (o_head oc))]> pix) | None => None end) = Some (hd, pix') /\
      length pix' = length pix /\ (forall x, x ∉ L2 -> pix' !! x = pix !! x) /\ next_ext nx (onext pix') /\ ochain (onext pix') (L2 ++ L) /\
      head (L2 ++ L) = Some hd /\ (forall x, x ∉ L2 -> nx x = 0 -> onext pix' x = 0) /\
      (forall x n, x ∈ L2 -> pix !! x = Some (oword 5 n) -> fits29 n -> exists n', pix' !! x = Some (oword 5 n') /\ fits29 n')) as
      (hd & pix' & -> & Hl' & Hpx' & Hext & Hch' & Hhd' & Hz' & Hw').
  { destruct L2 as [|y L2'] eqn:EL2; [cbn [length Nat.eqb]; eexists _, _; split; [done|]; repeat split; eauto using next_ext_refl|]. rewrite <-EL2 in *.
    assert (L2 <> []) as HL2 by (by rewrite EL2). destruct D5 as [(? & _)|(F1 & F2 & F3)]; [done|].
    assert (length L2 =? 0 = false) as -> by (by rewrite EL2).
    assert (o_tail oc2 ∈ L2) as Ht2 by by apply last_in. destruct (C4 _ (HinL2 _ Ht2)) as (Ht0 & n & Hn & Hfn). rewrite Hn.
    assert (n = 0) as -> by (unfold nx in F3; erewrite onext_word in F3; eauto).
    rewrite set_onext_ok by done. pose proof (lookup_lt_Some _ _ _ Hn) as Htl.
    assert (forall x, onext (<[o_tail oc2 := oword 5 (o_head oc)]> pix) x = if decide (x = o_tail oc2) then o_head oc else nx x) as Hnx.
    { intros x. rewrite onext_insert by done. rewrite oword_next by done. by rewrite Nat2N.id. }
    assert (next_ext nx (onext (<[o_tail oc2 := oword 5 (o_head oc)]> pix))) as He.
    { intros x Hx. rewrite Hnx. destruct (decide (x = o_tail oc2)) as [->|]; [congruence|done]. }
    eexists _, _. split; [done|]. split; [by rewrite insert_length|]. split; [intros x Hx; rewrite list_lookup_insert_ne; [done|by intros <-]|].
    split; [done|]. split; [|split; [|split]].
    - eapply ochain_app; [by eapply ochain_ext|by eapply ochain_ext|done|done| |done]. rewrite Hnx. by rewrite decide_True.
    - rewrite EL2 in F1 |- *. done.
    - intros x Hx Hx0. rewrite Hnx. rewrite decide_False; [done|]. by intros ->.
    - intros x m Hx Hm Hfm. destruct (decide (x = o_tail oc2)) as [->|]; [exists (o_head oc); by rewrite list_lookup_insert|]. exists m. by rewrite list_lookup_insert_ne. }
  eexists _, _, pix', rids2. split; [done|]. split; [|done].
  assert (length regs' = length regs) as Hrl. { unfold regs'. by rewrite length_set_par, length_set_rl. }
  constructor; cbn [ot_h].
  - congruence.
  - constructor.
    + constructor; cbn [cg cl cr o_gray o_size o_head o_tail o_hist]; auto.
      * by rewrite D2, E2.
      * by rewrite app_length.
      * right. split; [done|]. split; [rewrite last_app, Hlast; done|]. apply Hz'; [|done].
        intros Hin. apply (N2 (o_tail oc)); [by apply last_in|]. apply elem_of_app. by left.
      * exists a3. split; [done|]. split; [done|]. split; [congruence|]. left. split; [lia|done].
    + eapply Forall3_mono_in; [exact H3|]. intros c3 oc3 L3 Hc3 Hoc3 HL3. apply ocrel_keep; [done| |].
      * intros x Hx. apply Hz'. intros Hin. apply (N4 _ Hin). apply elem_of_list_In, in_concat. exists L3. split; [by apply elem_of_list_In|]. apply elem_of_list_In. by apply last_in.
      * intros Hch. eapply (chist_mono _ nx _ RL'); [exact Hext|done|].
        destruct (Hcr3 c3 Hc3) as (Hne1 & Hne2).
        assert (chist area nx RL' (ot_h t1) rids1 (o_hist oc3) (cg c3) (cr c3)) as Hch1.
        { eapply (chist_frame _ nx RL' (ot_h t) _ rids _ _ (o_hist oc2)); [exact Hfr1| | |eapply chist_mono; [apply next_ext_refl|exact HRm|done]].
          - destruct (o_hist oc3) as [j|] eqn:Ej; [|by left]. right. intros Ejo. apply (Hj2 j); [done|]. by eapply omap_in.
          - destruct Hrids1 as [->|(_ & ->)]; [by left|]. right. exists (cr c2). split; [congruence|done]. }
        assert (chist area nx RL' (ot_h t2) rids2 (o_hist oc3) (cg c3) (cr c3)) as Hch2.
        { eapply (chist_frame _ nx RL' (ot_h t1) _ rids1 _ _ (o_hist oc)); [exact Hfr2| | |done].
          - destruct (o_hist oc3) as [j|] eqn:Ej; [|by left]. right. intros Ejo. destruct (Hj1 j) as [_ Hx]; [done|]. apply Hx. by eapply omap_in.
          - destruct Hrids2 as [->|(_ & ->)]; [by left|]. right. exists (cr c). split; [congruence|done]. }
        assert (forall j, o_hist oc3 = Some j -> j < length (ot_h t)) as Hjlt. { intros j Hj. eapply hist_lt; [exact H3|]. by eapply omap_in. }
        destruct (o_hist oc3) as [j|] eqn:Ej; [|done]. destruct Hch2 as (b & Hb & Hpb & Hrest). exists b. split; [|done].
        apply Hfr3; [done|done| |].
        -- intros ->. destruct Hi2 as [Hi2|Hi2]; [apply (Hj2 i2); [done|]; by eapply omap_in|]. specialize (Hjlt i2 eq_refl). lia.
        -- intros ->. destruct Hi1 as [Hi1|Hi1]; [destruct (Hj1 i1 Hi1) as [_ Hx]; apply Hx; by eapply omap_in|]. specialize (Hjlt i1 eq_refl). lia.
  - cbn [concat]. rewrite <-app_assoc. rewrite (Permutation_app_comm L). rewrite app_assoc.
    apply NoDup_app. split; [apply NoDup_app; done|]. split; [|done]. intros x Hy1 Hy2. by apply (N2 x Hy2).
  - intros x Hx. assert (x ∈ concat (L :: L2 :: Ls)) as Hx'. { cbn [concat] in Hx |- *. rewrite !elem_of_app in *. tauto. }
    destruct (C4 x Hx') as (Hx0 & n & Hn & Hfn). split; [done|]. destruct (decide (x ∈ L2)) as [HxL|HxL]; [by eapply Hw'|]. exists n. by rewrite Hpx'.
  - rewrite omap_cons_eq. cbn [o_hist]. constructor; [|done]. intros Hin. destruct Hi2 as [Hi2|Hi2]; [by apply (Hj2 i2)|].
    pose proof (hist_lt _ _ _ _ _ _ _ _ H3 Hin). lia.
  - by rewrite Hrl.
  - eapply tree_mono; [exact Hext| |exact HT3]. done.
Qed.
End stack.
