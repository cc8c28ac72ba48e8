(* Growing and merging components of the OpenCV3-style extraction: what growHistory and
   merge do to the forest of histories. *)
From stdpp Require Import sorting relations functions list_numbers list.
From Coq Require Import NArith ZArith SpecFloat.
From Verif Require Import FloodModel FloatModel RectModel RecogModel CvExtract OcvModel OcvTree.
Local Open Scope nat_scope.

Lemma hput_at hs i a f : hs !! i = Some a -> hput hs i f = Some (<[i := f a]> hs).
Proof. unfold hput. by intros ->. Qed.

Section comp.
Context (area step : nat) (P : rparam).
Context (Harea : (Z.of_nat area <= int_max)%Z).

(* the history of a component of level g whose region is r: none yet, the own one, or the
   one of the last complete level *)
Definition chist (nx : nat -> nat) RL (hs : list ohist) (rids : list nat) (o : option nat) (g r : nat) : Prop :=
  match o with
  | None => r ∉ rids
  | Some j => exists a, hs !! j = Some a /\ h_parent a = None /\ h_next a = None /\
      ((h_val a = g /\ rids !! j = Some r) \/
       (h_val a < g /\ r ∉ rids /\ exists r', rids !! j = Some r' /\ hclosed area nx RL a r'))
  end.
(* histories without parent, other than j, keep their shape *)
Definition hframe (j : option nat) (hs hs' : list ohist) : Prop :=
  forall i a, hs !! i = Some a -> h_parent a = None -> j <> Some i -> exists b, hs' !! i = Some b /\ shape a = shape b.

Lemma hframe_shape hs hs' : same_shape hs hs' -> forall j, hframe j hs hs'.
Proof. intros H j i a Ha _ _. by eapply shape_at. Qed.
Lemma hframe_trans j hs hs1 hs2 : hframe j hs hs1 -> hframe j hs1 hs2 -> hframe j hs hs2.
Proof.
  intros H1 H2 i a Ha Hp Hj. destruct (H1 i a Ha Hp Hj) as (b & Hb & E). destruct (H2 i b Hb) as (c & Hc & E'); [|done|].
  - apply shape_inv in E as (_ & E & _). congruence.
  - exists c. split; [done|congruence].
Qed.

Lemma chist_mono nx nx' RL RL' hs rids o g r : next_ext nx nx' -> (forall r x, RL r = Some x -> RL' r = Some x) ->
  chist nx RL hs rids o g r -> chist nx' RL' hs rids o g r.
Proof.
  intros Hn HR. destruct o as [j|]; [|done]. intros (a & Ha & Hp & Hx & H). exists a. split; [done|]. split; [done|]. split; [done|].
  destruct H as [H|(H1 & H2 & r' & H3 & H4)]; [by left|]. right. split; [done|]. split; [done|]. exists r'. split; [done|]. by eapply hclosed_mono.
Qed.
(* a component whose history is not touched *)
Lemma chist_frame nx RL hs hs' rids rids' o j g r :
  hframe j hs hs' -> o = None \/ o <> j -> (rids' = rids \/ exists r', r' <> r /\ rids' = rids ++ [r']) ->
  chist nx RL hs rids o g r -> chist nx RL hs' rids' o g r.
Proof.
  intros Hf Ho Hr. assert (r ∉ rids -> r ∉ rids') as Hn.
  { destruct Hr as [->|(r' & Hne & ->)]; [done|]. intros H [H'|H'%elem_of_list_singleton]%elem_of_app; [done|congruence]. }
  assert (forall i x, rids !! i = Some x -> rids' !! i = Some x) as Hl.
  { destruct Hr as [->|(r' & Hne & ->)]; [done|]. intros i x H. rewrite lookup_app_l; [done|]. by eapply lookup_lt_Some. }
  destruct o as [i|]; [|done]. destruct Ho as [|Ho]; [done|]. intros (a & Ha & Hp & Hx & H).
  destruct (Hf i a Ha Hp) as (b & Hb & E); [congruence|]. pose proof (shape_inv _ _ E) as (_ & E2 & E3 & E4 & _).
  exists b. split; [done|]. split; [congruence|]. split; [congruence|]. destruct H as [(H1 & H2)|(H1 & H2 & r' & H3 & H4)].
  - left. split; [congruence|auto].
  - right. split; [lia|]. split; [auto|]. exists r'. split; [auto|]. by eapply hclosed_shape.
Qed.

Lemma schain_new hs hs' o ks : (forall k b, k ∈ ks -> hs !! k = Some b -> exists b', hs' !! k = Some b' /\ h_next b' = h_next b) ->
  schain hs o ks -> schain hs' o ks.
Proof.
  revert o. induction ks as [|k ks IH]; intros o H; [done|]. intros (-> & b & Hb & Hc). split; [done|].
  destruct (H k b) as (b' & Hb' & E); [left|done|]. exists b'. split; [done|]. rewrite E. apply IH; [|done].
  intros k' b2 Hk. apply H. by right.
Qed.

(* one history is changed, keeping its links to parent and siblings; new histories are appended *)
Lemma tree_edit nx RL rids rids' t hs' fin :
  tree_ok area step P fin nx RL rids t ->
  forest_ok area nx RL hs' rids' ->
  (forall i x, rids !! i = Some x -> rids' !! i = Some x) ->
  (forall i a, ot_h t !! i = Some a -> (h_parent a <> None \/ fin) -> exists b, hs' !! i = Some b /\ h_checked b = h_checked a /\ (h_parent b <> None \/ fin)) ->
  tree_ok area step P fin nx RL rids' (OTree hs' (ot_out t) (ot_total t)).
Proof.
  intros [HF (O0 & caps & O1 & O2 & O3)] HF' Hr Hh. split; [done|]. split; [done|]. exists caps. split; [done|]. cbn [ot_out ot_h]. split.
  - eapply Forall2_impl; [exact O2|]. intros i m (r & H1 & H2). eauto.
  - intros i Hi. destruct (O3 i Hi) as (a & Ha & Hc & Hp). destruct (Hh i a Ha Hp) as (b & Hb & E1 & E2). exists b. split; [done|]. split; [congruence|done].
Qed.

Context (nx : nat -> nat) (RL : nat -> option (nat * list nat)).

(* 111-140: the history of the component is found or made, and filled *)
Lemma place_own rids t i a v h sz :
  tree_ok area step P False nx RL rids t -> ot_h t !! i = Some a -> h_parent a = None -> forall ck,
  tree_ok area step P False nx RL rids (OTree (<[i := h_record a (h_val a) sz h v ck]> (ot_h t)) (ot_out t) (ot_total t)) /\
  hframe (Some i) (ot_h t) (<[i := h_record a (h_val a) sz h v ck]> (ot_h t)).
Proof using.
  intros HT Ha Hp ck. set (a' := h_record _ _ _ _ _ _). assert (i < length (ot_h t)) as Hlt by (by eapply lookup_lt_Some).
  assert (forall j b, <[i := a']> (ot_h t) !! j = Some b -> exists b0, ot_h t !! j = Some b0 /\ h_val b = h_val b0 /\ h_parent b = h_parent b0 /\ h_child b = h_child b0 /\
    (h_parent b0 <> None -> b = b0)) as Hinv.
  { intros j b Hb. apply list_lookup_insert_Some in Hb as [(<- & <- & _)|(Hne & Hb)]; [|by exists b]. exists a. done. }
  assert (forall j b, ot_h t !! j = Some b -> exists b', <[i := a']> (ot_h t) !! j = Some b' /\ h_val b' = h_val b /\ h_parent b' = h_parent b /\ h_next b' = h_next b /\
     (h_parent b <> None -> b' = b)) as Hfwd.
  { intros j b Hb. destruct (decide (i = j)) as [<-|]; [|rewrite list_lookup_insert_ne by done; by exists b]. rewrite list_lookup_insert by done.
    exists a'. rewrite Ha in Hb. injection Hb as <-. done. }
  split.
  - eapply (tree_edit nx RL rids); [exact HT| |done|].
    + destruct HT as [[F1 F2 F3 F4 F5 F6] _]. constructor.
      * by rewrite insert_length.
      * done.
      * intros j b Hb. destruct (Hinv j b Hb) as (b0 & Hb0 & -> & _). eauto.
      * intros j b p Hb Hpb. destruct (Hinv j b Hb) as (b0 & Hb0 & E & E2 & _). rewrite E2 in Hpb. destruct (F4 j b0 p Hb0 Hpb) as (c & Hc & Hl).
        destruct (Hfwd p c Hc) as (c' & Hc' & E' & _). exists c'. split; [done|lia].
      * intros j b Hb Hpb. destruct (Hinv j b Hb) as (b0 & Hb0 & E & E2 & _ & E3). rewrite E2 in Hpb. rewrite (E3 Hpb). eauto.
      * intros j b Hb. destruct (Hinv j b Hb) as (b0 & Hb0 & E & E2 & -> & E3). destruct (F6 j b0 Hb0) as (ks & K1 & K2 & K3).
        exists ks. split; [|split; [done|]].
        -- eapply schain_new; [|exact K1]. intros k c Hk Hc. destruct (Hfwd k c Hc) as (c' & Hc' & _ & _ & E' & _). eauto.
        -- intros k Hk. destruct (K3 k Hk) as (c & Hc & Hpc). destruct (Hfwd k c Hc) as (c' & Hc' & _ & E' & _). exists c'. split; [done|congruence].
    + intros j b Hb [Hpb|[]]. destruct (Hfwd j b Hb) as (b' & Hb' & _ & _ & _ & E). exists b'. rewrite (E Hpb) in *. eauto.
  - intros j b Hb Hpb Hj. rewrite list_lookup_insert_ne by congruence. eauto.
Qed.

Lemma place_new rids t o g r v h sz ck : tree_ok area step P False nx RL rids t -> chist nx RL (ot_h t) rids o g r -> r ∉ rids -> g <= 255 ->
  let hs1 := match o with Some j => match ot_h t !! j with Some a => <[j := h_set_parent a (Some (length (ot_h t)))]> (ot_h t) | None => [] end | None => ot_h t end in
  let n := OHist o None None g sz v h ck in
  tree_ok area step P False nx RL (rids ++ [r]) (OTree (hs1 ++ [n]) (ot_out t) (ot_total t)) /\
  hframe o (ot_h t) (hs1 ++ [n]).
Proof using.
  intros HT Hch Hr Hg hs1 n. set (i := length (ot_h t)). pose proof (proj1 HT) as [F1 F2 F3 F4 F5 F6].
  assert (length hs1 = i) as Hlen.
  { unfold hs1. destruct o as [j|]; [|done]. destruct Hch as (a & -> & _). by rewrite insert_length. }
  assert ((hs1 ++ [n]) !! i = Some n) as Hn by (rewrite lookup_app_r, Hlen, Nat.sub_diag by lia; done).
  assert (forall j b, ot_h t !! j = Some b -> exists b', (hs1 ++ [n]) !! j = Some b' /\ h_val b' = h_val b /\ h_next b' = h_next b /\ h_checked b' = h_checked b /\
     h_child b' = h_child b /\ (o = Some j -> h_parent b' = Some i) /\ (o <> Some j -> b' = b)) as Hfwd.
  { intros j b Hb. assert (j < i) by (by eapply lookup_lt_Some). rewrite lookup_app_l by lia. unfold hs1. destruct o as [k|].
    - destruct Hch as (a & Ha & _). rewrite Ha. destruct (decide (k = j)) as [->|Hne].
      + rewrite list_lookup_insert by done. rewrite Hb in Ha. injection Ha as ->. eexists. split; [done|]. by repeat split.
      + rewrite list_lookup_insert_ne by done. exists b. split; [done|]. repeat split. intros [= ->]. done.
    - by exists b. }
  assert (forall j b, (hs1 ++ [n]) !! j = Some b -> (j = i /\ b = n) \/ exists b0, ot_h t !! j = Some b0 /\ h_val b = h_val b0 /\ h_child b = h_child b0 /\
     ((o = Some j /\ h_parent b = Some i /\ shape (h_set_parent b0 (Some i)) = shape b) \/ (o <> Some j /\ b = b0))) as Hinv.
  { intros j b Hb. destruct (decide (j = i)) as [->|Hne]; [left; split; [done|congruence]|]. right.
    assert (j < length (hs1 ++ [n])) as Hj by (by eapply lookup_lt_Some). rewrite app_length, Hlen in Hj. cbn in Hj. rewrite lookup_app_l in Hb by lia.
    unfold hs1 in Hb. destruct o as [k|]; [|exists b; repeat split; auto].
    destruct Hch as (a & Ha & _). rewrite Ha in Hb. apply list_lookup_insert_Some in Hb as [(<- & <- & _)|(Hne' & Hb)].
    - exists a. split; [done|]. repeat split. left. done.
    - exists b. repeat split; [done|]. right. split; [congruence|done]. }
  assert (forall k b0, o = Some k -> ot_h t !! k = Some b0 -> h_parent b0 = None /\ h_next b0 = None /\ h_val b0 < g /\ exists r', rids !! k = Some r' /\ hclosed area nx RL b0 r') as Hold.
  { intros k b0 -> Hb0. destruct Hch as (a & Ha & Hp & Hx & H). rewrite Hb0 in Ha. injection Ha as <-. destruct H as [(_ & H)|(H1 & _ & H2)].
    - destruct Hr. by eapply elem_of_list_lookup_2.
    - auto. }
  split.
  - eapply (tree_edit nx RL rids); [exact HT| | |].
    + constructor.
      * rewrite !app_length, F1, Hlen. done.
      * apply NoDup_app. split; [done|]. split; [|apply NoDup_singleton]. intros x Hx ->%elem_of_list_singleton. done.
      * intros j b Hb. destruct (Hinv j b Hb) as [(-> & ->)|(b0 & Hb0 & -> & _)]; [done|eauto].
      * intros j b p Hb Hp. destruct (Hinv j b Hb) as [(-> & ->)|(b0 & Hb0 & Ev & _ & [(Eo & Ep & _)|(Eo & ->)])]; [done| |].
        -- rewrite Ep in Hp. injection Hp as <-. exists n. split; [done|]. destruct (Hold j b0 Eo Hb0) as (_ & _ & Hl & _). cbn [h_val n]. lia.
        -- destruct (F4 j b0 p Hb0 Hp) as (c & Hc & Hl). destruct (Hfwd p c Hc) as (c' & Hc' & E & _). exists c'. split; [done|lia].
      * intros j b Hb Hp. destruct (Hinv j b Hb) as [(-> & ->)|(b0 & Hb0 & Ev & _ & [(Eo & Ep & Es)|(Eo & ->)])]; [done| |].
        -- destruct (Hold j b0 Eo Hb0) as (_ & _ & _ & r' & Hr' & Hcl). exists r'. split; [rewrite lookup_app_l; [done|by eapply lookup_lt_Some]|].
           apply (hclosed_shape area nx RL (h_set_parent b0 (Some i)) b r' Es). exact Hcl.
        -- destruct (F5 j b0 Hb0 Hp) as (r' & Hr' & Hcl). exists r'. split; [rewrite lookup_app_l; [done|by eapply lookup_lt_Some]|done].
      * intros j b Hb. destruct (Hinv j b Hb) as [(-> & ->)|(b0 & Hb0 & Ev & Ec & _)].
        -- cbn [h_child n]. destruct o as [k|]; [|exists []; split; [done|]; split; [constructor|]; intros k Hk; by apply elem_of_nil in Hk].
           destruct Hch as (a & Ha & _). destruct (Hold k a eq_refl Ha) as (_ & Hx & _). destruct (Hfwd k a Ha) as (b' & Hb' & _ & E3 & _ & _ & Ep & _).
           exists [k]. split; [split; [done|]; exists b'; split; [done|]; cbn; congruence|]. split; [apply NoDup_singleton|].
           intros k' ->%elem_of_list_singleton. exists b'. split; [done|auto].
        -- rewrite Ec. destruct (F6 j b0 Hb0) as (ks & K1 & K2 & K3). exists ks. split; [|split; [done|]].
           ++ eapply schain_new; [|exact K1]. intros k c Hk Hc. destruct (Hfwd k c Hc) as (c' & Hc' & _ & E' & _). eauto.
           ++ intros k Hk. destruct (K3 k Hk) as (c & Hc & Hpc). destruct (Hfwd k c Hc) as (c' & Hc' & _ & _ & _ & _ & _ & E'). exists c'. split; [done|].
              rewrite E'; [done|]. intros Eo. destruct (Hold k c Eo Hc) as (Hp & _). congruence.
    + intros j x Hj. rewrite lookup_app_l; [done|]. by eapply lookup_lt_Some.
    + intros j b Hb [Hp|[]]. destruct (Hfwd j b Hb) as (b' & Hb' & _ & _ & Ek & _ & _ & E'). exists b'. split; [done|]. split; [done|]. left.
      rewrite E'; [done|]. intros Eo. destruct (Hold j b Eo Hb) as (Hp' & _). congruence.
  - intros j b Hb Hp Ho. destruct (Hfwd j b Hb) as (b' & Hb' & _ & _ & _ & _ & _ & E'). exists b'. split; [done|]. by rewrite E'.
Qed.

Lemma tree_fin (fin : Prop) rids t : tree_ok area step P False nx RL rids t -> tree_ok area step P fin nx RL rids t.
Proof using.
  intros [HF (O0 & caps & O1 & O2 & O3)]. split; [done|]. split; [done|]. exists caps. split; [done|]. split; [done|].
  intros i Hi. destruct (O3 i Hi) as (a & Ha & Hc & [Hp|[]]). eauto.
Qed.

(* 111-140 *)
Lemma ogrow_place pix rids t c r : tree_ok area step P False nx RL rids t -> chist nx RL (ot_h t) rids (o_hist c) (o_gray c) r ->
  o_gray c <= 255 -> (r ∉ rids -> length rids < area) ->
  exists i rids' t1 a,
    (forall new final, ogrow P pix step area new final c t =
       let new' := if new <? o_gray c then o_gray c else new in
       let c' := OComp new' (o_size c) (o_head c) (o_tail c) (Some i) in
       if o_gray c =? new' then Some (c', t1)
       else match oupdate P pix step depth final i t1 with Some (s'', _) => Some (c', s'') | None => None end) /\
    tree_ok area step P False nx RL rids' t1 /\
    ot_h t1 !! i = Some a /\ h_val a = o_gray c /\ h_size a = o_size c /\ h_head a = o_head c /\ h_parent a = None /\ h_next a = None /\
    rids' !! i = Some r /\ (rids' = rids \/ r ∉ rids /\ rids' = rids ++ [r]) /\
    hframe (o_hist c) (ot_h t) (ot_h t1) /\ (o_hist c = Some i \/ i = length (ot_h t)).
Proof using.
  intros HT Hch Hg Har. set (big := (p_min P <=? Z.of_nat (o_size c))%Z).
  pose (a0 := fun a => h_record a (o_gray c) (o_size c) (o_head c) (if big then fminus1 else flt_max) (negb big)).
  assert ((exists i a, o_hist c = Some i /\ ot_h t !! i = Some a /\ h_val a = o_gray c /\ h_parent a = None /\ h_next a = None /\ rids !! i = Some r) \/
    (r ∉ rids /\ forall i a, o_hist c = Some i -> ot_h t !! i = Some a -> h_val a <> o_gray c)) as Hcase.
  { destruct (o_hist c) as [i|] eqn:Eo; [|right; split; [done|]; done]. destruct Hch as (a & Ha & Hp & Hx & [(Hv & Hr)|(Hv & Hr & _)]).
    - left. exists i, a. done.
    - right. split; [done|]. intros ? b [= <-] Hb. rewrite Ha in Hb. injection Hb as <-. lia. }
  destruct Hcase as [(i & a & Eo & Ha & Hv & Hp & Hx & Hr)|(Hr & Hno)].
  - destruct (place_own rids t i a (if big then fminus1 else flt_max) (o_head c) (o_size c) HT Ha Hp (negb big)) as (HT' & Hf).
    eexists i, rids, _, (a0 a). split; [|split; [exact HT'|]].
    + intros new final. unfold ogrow. rewrite Eo, Ha, Hv, Nat.eqb_refl. rewrite (hput_at _ _ a) by done. fold big. rewrite <-Hv. done.
    + cbn [ot_h]. split; [rewrite list_lookup_insert by (by eapply lookup_lt_Some); unfold a0; by rewrite Hv|]. rewrite Eo. repeat (split; [done|]).
      split; [by left|]. split; [done|by left].
  - pose proof (place_new rids t (o_hist c) (o_gray c) r (if big then fminus1 else flt_max) (o_head c) (o_size c) (negb big) HT Hch Hr Hg) as (HT' & Hf).
    set (hs1 := match o_hist c with Some j => match ot_h t !! j with Some a => <[j := h_set_parent a (Some (length (ot_h t)))]> (ot_h t) | None => [] end | None => ot_h t end) in *.
    assert (length hs1 = length (ot_h t)) as Hlen.
    { unfold hs1. destruct (o_hist c) as [j|]; [|done]. destruct Hch as (a & -> & _). by rewrite insert_length. }
    eexists (length (ot_h t)), (rids ++ [r]), _, _. split; [|split; [exact HT'|]].
    + intros new final. unfold ogrow.
      assert (length (ot_h t) <? area = true) as Hlt by (apply Nat.ltb_lt; rewrite <-(fo_len _ _ _ _ _ (proj1 HT)); by apply Har).
      set (h := OHist (o_hist c) None None 0 0 fzero 0 false).
      assert (match (match o_hist c with Some i => match ot_h t !! i with Some a => if h_val a =? o_gray c then Some (i, ot_h t) else None | None => None end | None => None end) with
        | Some r0 => Some r0 | None => if length (ot_h t) <? area then match o_hist c with None => Some (length (ot_h t), ot_h t ++ [h])
          | Some j => match hput (ot_h t) j (fun a => h_set_parent a (Some (length (ot_h t)))) with Some hs => Some (length (ot_h t), hs ++ [h]) | None => None end end else None end
        = Some (length (ot_h t), hs1 ++ [h])) as ->.
      { rewrite Hlt. unfold hs1. destruct (o_hist c) as [j|]; [|done]. destruct Hch as (a & Ha & _). rewrite Ha.
        destruct (Nat.eqb_spec (h_val a) (o_gray c)) as [E|_]; [by destruct (Hno j a eq_refl Ha)|]. by rewrite (hput_at _ _ a). }
      rewrite (hput_at _ _ h) by (rewrite lookup_app_r, Hlen, Nat.sub_diag by lia; done). fold big.
      replace (<[length (ot_h t) := h_record h (o_gray c) (o_size c) (o_head c) (if big then fminus1 else flt_max) (negb big)]> (hs1 ++ [h])) with
        (hs1 ++ [OHist (o_hist c) None None (o_gray c) (o_size c) (if big then fminus1 else flt_max) (o_head c) (negb big)]); [done|].
      rewrite insert_app_r_alt by lia. rewrite Hlen, Nat.sub_diag. done.
    + cbn [ot_h]. split; [rewrite lookup_app_r, Hlen, Nat.sub_diag by lia; done|]. repeat (split; [done|]).
      split; [rewrite lookup_app_r, <-(fo_len _ _ _ _ _ (proj1 HT)), Nat.sub_diag by (rewrite (fo_len _ _ _ _ _ (proj1 HT)); lia); done|].
      split; [by right|]. split; [done|by right].
Qed.

(* growing to a higher level: the history of the component is complete *)
Lemma ogrow_close (fin : Prop) pix rids t c r new final L l : length pix = area -> nx = onext pix ->
  tree_ok area step P False nx RL rids t -> chist nx RL (ot_h t) rids (o_hist c) (o_gray c) r ->
  o_gray c <= 255 -> (r ∉ rids -> length rids < area) -> o_gray c < new -> (final = true -> fin) ->
  RL r = Some (o_gray c, l) -> L ≡ₚ l -> length L = o_size c -> ochain nx L -> head L = Some (o_head c) -> Forall (fun x => x < area) L ->
  exists i rids' t' a, ogrow P pix step area new final c t = Some (OComp new (o_size c) (o_head c) (o_tail c) (Some i), t') /\
    tree_ok area step P fin nx RL rids' t' /\
    ot_h t' !! i = Some a /\ h_val a = o_gray c /\ h_parent a = None /\ h_next a = None /\
    rids' !! i = Some r /\ hclosed area nx RL a r /\ (rids' = rids \/ r ∉ rids /\ rids' = rids ++ [r]) /\
    hframe (o_hist c) (ot_h t) (ot_h t') /\ (o_hist c = Some i \/ i = length (ot_h t)).
Proof using Harea.
  intros Hpix Hnx HT Hch Hg Har Hnew Hfin HR HL Hsz Hc Hh HF.
  destruct (ogrow_place pix rids t c r HT Hch Hg Har) as (i & rids' & t1 & a & Hgr & HT1 & Ha & Hv & Hs & Hhd & Hp & Hx & Hr & Hrids & Hfr & Hi).
  assert (hclosed area nx RL a r) as Hcl by (exists L, l; rewrite Hv, Hs, Hhd; done).
  destruct (oupdate_ok area step P Harea nx RL rids' pix Hpix Hnx fin final depth Hfin t1 i a r (tree_fin fin rids' t1 HT1) Ha Hr Hcl) as (t' & o & Hup & HT' & Hsh & _); [unfold depth; lia|].
  destruct (shape_at _ _ _ _ Hsh Ha) as (a' & Ha' & E). pose proof (shape_inv _ _ E) as (_ & E2 & E3 & E4 & _).
  exists i, rids', t', a'. rewrite Hgr. cbn zeta. destruct (Nat.ltb_spec new (o_gray c)); [lia|]. destruct (Nat.eqb_spec (o_gray c) new); [lia|]. rewrite Hup.
  split; [done|]. split; [done|]. split; [done|]. split; [congruence|]. split; [congruence|]. split; [congruence|]. split; [done|].
  split; [by eapply hclosed_shape|]. split; [done|]. split; [|done]. eapply hframe_trans; [done|]. by apply hframe_shape.
Qed.

(* 179-201 *)
Lemma attach_forest rids t h2 hs hs' a b r2 : forest_ok area nx RL hs rids -> hs !! t = Some a -> hs !! h2 = Some b ->
  h_parent b = None -> h_val b < h_val a -> rids !! h2 = Some r2 -> hclosed area nx RL b r2 -> t <> h2 ->
  length hs' = length hs ->
  (forall j e, hs !! j = Some e -> exists e', hs' !! j = Some e' /\ h_val e' = h_val e /\ h_size e' = h_size e /\ h_head e' = h_head e /\
     h_parent e' = (if decide (j = h2) then Some t else h_parent e) /\ (j <> t -> h_child e' = h_child e) /\
     (h_parent e <> Some t -> j <> h2 -> h_next e' = h_next e)) ->
  (exists a' ks, hs' !! t = Some a' /\ schain hs' (h_child a') ks /\ NoDup ks /\ forall k, k ∈ ks -> exists e, hs' !! k = Some e /\ h_parent e = Some t) ->
  forest_ok area nx RL hs' rids.
Proof using.
  intros [F1 F2 F3 F4 F5 F6] Ha Hb Hpb Hlt Hr2 Hcl2 Hne Hlen Hfwd (a' & kst & Ha' & Kt1 & Kt2 & Kt3).
  assert (forall j e', hs' !! j = Some e' -> exists e, hs !! j = Some e) as Hback.
  { intros j e' He. apply lookup_lt_is_Some_2. rewrite <-Hlen. by eapply lookup_lt_Some. }
  constructor.
  - congruence.
  - done.
  - intros j e' He'. destruct (Hback j e' He') as (e & He). destruct (Hfwd j e He) as (e2 & He2 & E & _). rewrite He' in He2. injection He2 as <-. rewrite E. eauto.
  - intros j e' p He' Hp. destruct (Hback j e' He') as (e & He). destruct (Hfwd j e He) as (e2 & He2 & E & _ & _ & E4 & _). rewrite He' in He2. injection He2 as <-.
    rewrite E4 in Hp. destruct (decide (j = h2)) as [->|].
    + injection Hp as <-. destruct (Hfwd t a Ha) as (a2 & Ha2 & Ea & _). exists a2. split; [done|]. rewrite He in Hb. injection Hb as ->. lia.
    + destruct (F4 j e p He Hp) as (d & Hd & Hl). destruct (Hfwd p d Hd) as (d' & Hd' & Ed & _). exists d'. split; [done|lia].
  - intros j e' He' Hp. destruct (Hback j e' He') as (e & He). destruct (Hfwd j e He) as (e2 & He2 & E & E2 & E3 & E4 & _). rewrite He' in He2. injection He2 as <-.
    assert (exists r, rids !! j = Some r /\ hclosed area nx RL e r) as (r & Hr & Hcl).
    { destruct (decide (j = h2)) as [->|]; [rewrite He in Hb; injection Hb as ->; eauto|]. apply F5; [done|]. congruence. }
    exists r. split; [done|]. destruct Hcl as (L & l & Hcl). exists L, l. by rewrite E, E2, E3.
  - intros j e' He'. destruct (decide (j = t)) as [->|Hjt]. { rewrite Ha' in He'. injection He' as <-. eauto. }
    destruct (Hback j e' He') as (e & He). destruct (Hfwd j e He) as (e2 & He2 & _ & _ & _ & _ & E5 & _). rewrite He' in He2. injection He2 as <-.
    rewrite (E5 Hjt). destruct (F6 j e He) as (ks & K1 & K2 & K3).
    assert (forall k d, k ∈ ks -> hs !! k = Some d -> h_parent d = Some j /\ k <> h2) as Hkj.
    { intros k d Hk Hd. destruct (K3 k Hk) as (d2 & Hd2 & Hp). rewrite Hd in Hd2. injection Hd2 as <-. split; [done|]. intros ->. congruence. }
    exists ks. split; [|split; [done|]].
    + eapply schain_new; [|exact K1]. intros k d Hk Hd. destruct (Hkj k d Hk Hd) as (Hp & Hk2). destruct (Hfwd k d Hd) as (d' & Hd' & _ & _ & _ & _ & _ & E6).
      exists d'. split; [done|]. apply E6; [|done]. congruence.
    + intros k Hk. destruct (K3 k Hk) as (d & Hd & Hp). destruct (Hkj k d Hk Hd) as (_ & Hk2). destruct (Hfwd k d Hd) as (d' & Hd' & _ & _ & _ & E4 & _).
      exists d'. split; [done|]. rewrite E4. by rewrite decide_False.
Qed.

Lemma oattach_ok rids s t h2 a b r2 : tree_ok area step P False nx RL rids s -> ot_h s !! t = Some a -> ot_h s !! h2 = Some b ->
  h_parent a = None -> h_parent b = None -> h_next b = None -> h_val b < h_val a -> rids !! h2 = Some r2 -> hclosed area nx RL b r2 -> t <> h2 ->
  exists hs', oattach P (ot_h s) t h2 = Some hs' /\ tree_ok area step P False nx RL rids (OTree hs' (ot_out s) (ot_total s)) /\
    (exists a', hs' !! t = Some a' /\ h_parent a' = None /\ h_next a' = h_next a /\ h_val a' = h_val a) /\
    (forall i e, ot_h s !! i = Some e -> h_parent e = None -> i <> t -> i <> h2 -> hs' !! i = Some e).
Proof using.
  intros HT Ha Hb Hpa Hpb Hxb Hv Hr2 Hcl Hne. pose proof (proj1 HT) as HF. set (hs := ot_h s) in *.
  assert (t < length hs) as Htl by (by eapply lookup_lt_Some). assert (h2 < length hs) as Hhl by (by eapply lookup_lt_Some).
  unfold oattach. rewrite Ha, Hb.
  assert (forall hs', forest_ok area nx RL hs' rids ->
     (forall j e, hs !! j = Some e -> exists e', hs' !! j = Some e' /\ h_checked e' = h_checked e /\ (h_parent e <> None -> h_parent e' <> None)) ->
     tree_ok area step P False nx RL rids (OTree hs' (ot_out s) (ot_total s))) as Hfin.
  { intros hs' HF' Hj. eapply (tree_edit nx RL rids); [exact HT|done|done|]. intros i e He [Hp|[]]. destruct (Hj i e He) as (e' & He' & Hc & Hp'). exists e'. auto. }
  destruct (fo_kids _ _ _ _ _ HF t a Ha) as (ks & K1 & K2 & K3).
  assert (h2 ∉ ks) as Hh2ks. { intros Hin. destruct (K3 h2 Hin) as (e & He & Hp). rewrite Hb in He. injection He as <-. congruence. }
  assert (t ∉ ks) as Htks. { intros Hin. destruct (K3 t Hin) as (e & He & Hp). rewrite Ha in He. injection He as <-. congruence. }
  destruct (h_child a) as [h1|] eqn:Ech.
  - destruct ks as [|h1' ks]; [done|]. destruct K1 as ([= <-] & e & He & K1). rewrite He.
    apply not_elem_of_cons in Hh2ks as [H21 Hh2ks]. apply not_elem_of_cons in Htks as [Ht1 Htks].
    destruct (K3 h1) as (e_ & He_ & Hpe); [left|]. rewrite He in He_. injection He_ as <-.
    apply NoDup_cons in K2 as [K2a K2b].
    destruct (h_size b <? h_size e).
    + destruct (p_min P <=? Z.of_nat (h_size b))%Z.
      * (* after the first child *)
        rewrite (hput_at _ _ b) by done. rewrite (hput_at _ _ e) by (by rewrite list_lookup_insert_ne).
        rewrite (hput_at _ _ (h_set_next b (h_next e))) by (rewrite list_lookup_insert_ne by done; by rewrite list_lookup_insert).
        set (b' := h_set_parent (h_set_next b (h_next e)) (Some t)). set (e' := h_set_next e (Some h2)).
        eexists. split; [done|].
        assert (forall j, <[h2:=b']> (<[h1:=e']> (<[h2:=h_set_next b (h_next e)]> hs)) !! j =
           if decide (j = h2) then Some b' else if decide (j = h1) then Some e' else hs !! j) as Hl.
        { intros j. destruct (decide (j = h2)) as [->|]; [rewrite list_lookup_insert; [done|by rewrite !insert_length]|].
          rewrite list_lookup_insert_ne by done. destruct (decide (j = h1)) as [->|].
          - rewrite list_lookup_insert; [done|]. rewrite insert_length. by eapply lookup_lt_Some.
          - rewrite !list_lookup_insert_ne by done. done. }
        assert (length (<[h2:=b']> (<[h1:=e']> (<[h2:=h_set_next b (h_next e)]> hs))) = length hs) as Hlen by (by rewrite !insert_length).
        set (hs' := <[h2:=b']> _) in *. clearbody hs'.
        split; [|split].
        -- apply Hfin.
           ++ eapply (attach_forest rids t h2 hs hs' a b r2); auto.
              ** intros j d Hd. rewrite Hl. destruct (decide (j = h2)) as [->|]; [rewrite Hb in Hd; injection Hd as <-; by exists b'|].
                 destruct (decide (j = h1)) as [->|]; [rewrite He in Hd; injection Hd as <-; exists e'; repeat split; done|]. by exists d.
              ** exists a, (h1 :: h2 :: ks). rewrite Hl, !decide_False by done. split; [done|]. rewrite Ech. split; [|split].
                 --- split; [done|]. exists e'. rewrite Hl, decide_False, decide_True by done. split; [done|]. split; [done|]. exists b'. rewrite Hl, decide_True by done.
                     split; [done|]. cbn [h_next b' h_set_parent h_set_next]. eapply schain_new; [|exact K1]. intros k d Hk Hd. exists d. rewrite Hl, !decide_False; [done| |]; by intros ->.
                 --- constructor; [|by constructor]. intros [H|H]%elem_of_cons; [by subst|done].
                 --- intros k Hk. apply elem_of_cons in Hk as [->|Hk]; [exists e'; rewrite Hl, decide_False, decide_True by done; done|].
                     apply elem_of_cons in Hk as [->|Hk]; [exists b'; rewrite Hl, decide_True by done; done|].
                     destruct (K3 k) as (d & Hd & Hp); [by right|]. exists d. rewrite Hl, !decide_False; [done| |]; by intros ->.
           ++ intros j d Hd. rewrite Hl. destruct (decide (j = h2)) as [->|]; [rewrite Hb in Hd; injection Hd as <-; by exists b'|].
              destruct (decide (j = h1)) as [->|]; [rewrite He in Hd; injection Hd as <-; by exists e'|]. by exists d.
        -- exists a. rewrite Hl, !decide_False by done. done.
        -- intros i d Hd Hp H1 H2. rewrite Hl, !decide_False; [done| |done]. intros ->. rewrite He in Hd. injection Hd as <-. congruence.
      * (* dropped *)
        eexists. split; [done|]. split; [|split].
        -- apply Hfin; [done|]. eauto.
        -- eauto.
        -- eauto.
    + rewrite (hput_at _ _ a) by done. rewrite (hput_at _ _ b) by (by rewrite list_lookup_insert_ne).
      set (a' := h_set_child a (Some h2)).
      assert (exists b' ks', (if (p_min P <=? Z.of_nat (h_size e))%Z then hput (<[h2:=h_set_parent b (Some t)]> (<[t:=a']> hs)) h2 (fun b => h_set_next b (Some h1))
         else Some (<[h2:=h_set_parent b (Some t)]> (<[t:=a']> hs))) = Some (<[h2 := b']> (<[t := a']> hs)) /\
         h_val b' = h_val b /\ h_size b' = h_size b /\ h_head b' = h_head b /\ h_checked b' = h_checked b /\ h_parent b' = Some t /\ h_child b' = h_child b /\
         (h_next b' = None /\ ks' = [] \/ h_next b' = Some h1 /\ ks' = h1 :: ks)) as (b' & ks' & -> & B1 & B2 & B3 & B4 & B5 & B6 & B7).
      { destruct (p_min P <=? Z.of_nat (h_size e))%Z.
        - rewrite (hput_at _ _ (h_set_parent b (Some t))) by (rewrite list_lookup_insert; [done|by rewrite insert_length]). rewrite list_insert_insert.
          eexists _, _. split; [done|]. repeat split. right. done.
        - eexists _, _. split; [done|]. repeat split. left. done. }
      eexists. split; [done|].
      assert (forall j, <[h2:=b']> (<[t:=a']> hs) !! j = if decide (j = h2) then Some b' else if decide (j = t) then Some a' else hs !! j) as Hl.
      { intros j. destruct (decide (j = h2)) as [->|]; [rewrite list_lookup_insert; [done|by rewrite !insert_length]|].
        rewrite list_lookup_insert_ne by done. destruct (decide (j = t)) as [->|]; [by rewrite list_lookup_insert|]. by rewrite list_lookup_insert_ne. }
      assert (length (<[h2:=b']> (<[t:=a']> hs)) = length hs) as Hlen by (by rewrite !insert_length).
      set (hs' := <[h2:=b']> _) in *. clearbody hs'.
      split; [|split].
      * apply Hfin.
        -- eapply (attach_forest rids t h2 hs hs' a b r2); auto.
           ++ intros j d Hd. rewrite Hl. destruct (decide (j = h2)) as [->|]; [rewrite Hb in Hd; injection Hd as <-; by exists b'|].
              destruct (decide (j = t)) as [->|]; [rewrite Ha in Hd; injection Hd as <-; by exists a'|]. by exists d.
           ++ exists a', (h2 :: ks'). rewrite Hl, decide_False, decide_True by done. split; [done|]. split; [|split].
              ** split; [done|]. exists b'. rewrite Hl, decide_True by done. split; [done|]. destruct B7 as [(-> & ->)|(-> & ->)]; [done|].
                 eapply (schain_new hs); [|split; [done|]; exists e; done]. intros k d Hk Hd. exists d. rewrite Hl, !decide_False; [done| |]; intros ->; apply elem_of_cons in Hk as [Hk|Hk]; by try subst.
              ** destruct B7 as [(_ & ->)|(_ & ->)]; [apply NoDup_singleton|]. constructor; [|by constructor]. intros [H|H]%elem_of_cons; [by subst|done].
              ** intros k Hk. apply elem_of_cons in Hk as [->|Hk]; [exists b'; rewrite Hl, decide_True by done; done|].
                 destruct B7 as [(_ & ->)|(_ & ->)]; [by apply elem_of_nil in Hk|]. destruct (K3 k Hk) as (d & Hd & Hp). exists d.
                 rewrite Hl, !decide_False; [done| |]; intros ->; apply elem_of_cons in Hk as [Hk|Hk]; by try subst.
        -- intros j d Hd. rewrite Hl. destruct (decide (j = h2)) as [->|]; [rewrite Hb in Hd; injection Hd as <-; exists b'; split; [done|]; split; [done|]; by rewrite B5|].
           destruct (decide (j = t)) as [->|]; [rewrite Ha in Hd; injection Hd as <-; by exists a'|]. by exists d.
      * exists a'. rewrite Hl, decide_False, decide_True by done. done.
      * intros i d Hd Hp H1 H2. rewrite Hl, !decide_False; done.
  - rewrite (hput_at _ _ a) by done. rewrite (hput_at _ _ b) by (by rewrite list_lookup_insert_ne).
    set (a' := h_set_child a (Some h2)). set (b' := h_set_parent b (Some t)). eexists. split; [done|].
    assert (forall j, <[h2:=b']> (<[t:=a']> hs) !! j = if decide (j = h2) then Some b' else if decide (j = t) then Some a' else hs !! j) as Hl.
    { intros j. destruct (decide (j = h2)) as [->|]; [rewrite list_lookup_insert; [done|by rewrite !insert_length]|].
      rewrite list_lookup_insert_ne by done. destruct (decide (j = t)) as [->|]; [by rewrite list_lookup_insert|]. by rewrite list_lookup_insert_ne. }
    assert (length (<[h2:=b']> (<[t:=a']> hs)) = length hs) as Hlen by (by rewrite !insert_length).
    set (hs' := <[h2:=b']> _) in *. clearbody hs'.
    split; [|split].
    + apply Hfin.
      * eapply (attach_forest rids t h2 hs hs' a b r2); auto.
        -- intros j d Hd. rewrite Hl. destruct (decide (j = h2)) as [->|]; [rewrite Hb in Hd; injection Hd as <-; by exists b'|].
           destruct (decide (j = t)) as [->|]; [rewrite Ha in Hd; injection Hd as <-; by exists a'|]. by exists d.
        -- exists a', [h2]. rewrite Hl, decide_False, decide_True by done. split; [done|]. split; [|split].
           ++ split; [done|]. exists b'. rewrite Hl, decide_True by done. done.
           ++ apply NoDup_singleton.
           ++ intros k ->%elem_of_list_singleton. exists b'. rewrite Hl, decide_True by done. done.
      * intros j d Hd. rewrite Hl. destruct (decide (j = h2)) as [->|]; [rewrite Hb in Hd; injection Hd as <-; by exists b'|].
        destruct (decide (j = t)) as [->|]; [rewrite Ha in Hd; injection Hd as <-; by exists a'|]. by exists d.
    + exists a'. rewrite Hl, decide_False, decide_True by done. done.
    + intros i d Hd Hp H1 H2. rewrite Hl, !decide_False; done.
Qed.
End comp.
