(* The growth histories of the OpenCV-style extraction: following mShortCut and mChild ends. *)
From stdpp Require Import sorting relations functions list_numbers list.
From Coq Require Import NArith ZArith SpecFloat.
From Verif Require Import FloodModel FloatModel RectModel RecogModel OcvModel Oc2Model.
Local Open Scope nat_scope.

(* following mChild *)
Definition hpath (hs : list ghist) : nat -> nat -> Prop := rtc (fun u v => exists a, hs !! u = Some a /\ gh_child a = v).
Definition hok (hs : list ghist) : Prop := forall x a, hs !! x = Some a -> (x <= gh_child a < length hs /\ hpath hs (gh_short a) x) /\ 1 <= gh_size a.

Lemma hpath_le hs y x : hok hs -> hpath hs y x -> y <= x.
Proof. intros H Hp. induction Hp as [|u v x (a & Ha & <-) _ IH]; [done|]. destruct (H _ _ Ha). lia. Qed.
Lemma hpath_step hs s b h a : hpath hs s h -> hs !! s = Some b -> hs !! h = Some a -> gh_child a = h -> hpath hs (gh_child b) h.
Proof.
  intros Hp Hb Ha Hc. apply rtc_inv in Hp as [->|(y & (a' & Ha' & <-) & Hp')].
  - rewrite Hb in Ha. injection Ha as ->. rewrite Hc. apply rtc_refl.
  - rewrite Hb in Ha'. by injection Ha' as ->.
Qed.

Lemma wback_ok n hs delta val s : hok hs -> s < length hs -> s < n -> exists s', wback n hs delta val s = Some s' /\ hpath hs s' s.
Proof.
  intros H. revert s. induction n as [|n IH]; intros s Hl Hn; [lia|]. cbn [wback].
  destruct (lookup_lt_is_Some_2 hs s Hl) as [a Ha]. rewrite Ha. destruct (H s a Ha) as ((Hc & Hp) & _).
  destruct (Nat.eqb_spec (gh_short a) s) as [|Hne]; [eexists; split; [done|apply rtc_refl]|].
  destruct (val <? _)%Z; [|eexists; split; [done|apply rtc_refl]].
  pose proof (hpath_le hs _ _ H Hp). destruct (IH (gh_short a)) as (s' & -> & Hs'); [lia|lia|].
  exists s'. split; [done|]. by eapply rtc_transitive.
Qed.
Lemma wforth_ok n hs delta val h a s child : hok hs -> hs !! h = Some a -> gh_child a = h -> hpath hs s h -> hpath hs child h ->
  length hs - child < n -> exists s', wforth n hs delta val s child = Some s' /\ hpath hs s' h.
Proof.
  intros H Ha Hc. revert s child. induction n as [|n IH]; intros s child Hs Hch Hn; [lia|]. cbn [wforth].
  pose proof (hpath_le hs _ _ H Hch) as Hle. pose proof (lookup_lt_Some _ _ _ Ha) as Hlt.
  destruct (lookup_lt_is_Some_2 hs child ltac:(lia)) as [b Hb]. rewrite Hb. destruct (H child b Hb) as ((Hcb & _) & _).
  destruct (Nat.eqb_spec (gh_child b) child) as [|Hne]; [eauto|].
  destruct (_ <=? val)%Z; [|eauto]. apply IH; [done|by eapply hpath_step|lia].
Qed.

Lemma wvariation_ok delta c hs h a : hok hs -> w_hist c = Some h -> hs !! h = Some a -> gh_child a = h ->
  exists var s, wvariation delta c hs = Some (var, <[h := gset_short a s]> hs) /\ hpath hs s h.
Proof.
  intros H Hh Ha Hc. unfold wvariation. rewrite Hh, Ha. destruct (H h a Ha) as ((Hr & Hp) & _). pose proof (lookup_lt_Some _ _ _ Ha) as Hlt.
  pose proof (hpath_le hs _ _ H Hp). destruct (wback_ok (S (length hs)) hs delta (Z.of_nat (w_gray c)) (gh_short a)) as (s0 & -> & Hs0); [done|lia|lia|].
  assert (hpath hs s0 h) as Hs0h by (by eapply rtc_transitive). pose proof (hpath_le hs _ _ H Hs0h).
  destruct (lookup_lt_is_Some_2 hs s0 ltac:(lia)) as [b Hb]. rewrite Hb.
  destruct (wforth_ok (S (length hs)) hs delta (Z.of_nat (w_gray c)) h a s0 (gh_child b)) as (s & -> & Hs); auto; [by eapply hpath_step|lia|].
  pose proof (hpath_le hs _ _ H Hs). destruct (lookup_lt_is_Some_2 hs s ltac:(lia)) as [e He]. rewrite He. eauto.
Qed.

(* changing an entry but not its child *)
Lemma hpath_set hs h a a' : hs !! h = Some a -> gh_child a' = gh_child a -> forall y x, hpath hs y x -> hpath (<[h := a']> hs) y x.
Proof.
  intros Ha Hc y x Hp. induction Hp as [|u v x (b & Hb & <-) _ IH]; [apply rtc_refl|]. eapply rtc_l; [|exact IH].
  destruct (decide (u = h)) as [->|Hne].
  - rewrite Hb in Ha. injection Ha as ->. exists a'. split; [apply list_lookup_insert; by eapply lookup_lt_Some|done].
  - exists b. by rewrite list_lookup_insert_ne.
Qed.
Lemma hok_set hs h a a' : hok hs -> hs !! h = Some a -> gh_child a' = gh_child a -> gh_size a' = gh_size a -> hpath hs (gh_short a') h -> hok (<[h := a']> hs).
Proof.
  intros H Ha Hc Hs Hp x b Hb. rewrite insert_length. destruct (decide (x = h)) as [->|Hne].
  - rewrite list_lookup_insert in Hb by (by eapply lookup_lt_Some). injection Hb as <-. destruct (H h a Ha) as ((H1 & H2) & H3).
    rewrite Hc, Hs. repeat split; try lia. by eapply hpath_set.
  - rewrite list_lookup_insert_ne in Hb by done. destruct (H x b Hb) as ((H1 & H2) & H3). repeat split; try lia. by eapply hpath_set.
Qed.

(* a new entry *)
Lemma hpath_new hs h a n e : hs !! h = Some a -> gh_child a = h -> forall y x, hpath hs y x -> hpath (<[h := gset_child a n]> hs ++ [e]) y x.
Proof.
  intros Ha Hc y x Hp. induction Hp as [|u v x (b & Hb & Hv) _ IH]; [apply rtc_refl|].
  destruct (decide (u = h)) as [->|Hne].
  - rewrite Hb in Ha. injection Ha as ->. rewrite Hc in Hv. by subst v.
  - eapply rtc_l; [|exact IH]. exists b. split; [|done]. apply lookup_app_l_Some. by rewrite list_lookup_insert_ne.
Qed.
Lemma hpath_app hs e y x : hpath hs y x -> hpath (hs ++ [e]) y x.
Proof. intros Hp. induction Hp as [|u v x (b & Hb & Hv) _ IH]; [apply rtc_refl|]. eapply rtc_l; [|exact IH]. exists b. split; [by apply lookup_app_l_Some|done]. Qed.

Definition terminal (hs : list ghist) (o : option nat) : Prop := match o with None => True | Some h => exists a, hs !! h = Some a /\ gh_child a = h end.
Lemma wchain_ok hs o : hok hs -> terminal hs o ->
  exists sc st hs', wchain hs o (length hs) = Some (sc, st, hs') /\ length hs' = length hs /\
    (forall x, Some x <> o -> hs' !! x = hs !! x) /\
    forall st' g k, 1 <= k -> hok (hs' ++ [GHist sc (length hs) st' g k]).
Proof.
  intros H Ht. destruct o as [h|]; cbn [wchain terminal] in *.
  - destruct Ht as (a & Ha & Hc). rewrite Ha. eexists _, _, _. split; [done|]. rewrite insert_length. split; [done|]. split.
    { intros x Hx. apply list_lookup_insert_ne. congruence. }
    intros st' g k Hk x b Hb. pose proof (lookup_lt_Some _ _ _ Ha) as Hlt. rewrite app_length, insert_length. cbn [length].
    apply lookup_app_Some in Hb as [Hb|[Hx Hb]].
    + destruct (decide (x = h)) as [->|Hne].
      * rewrite list_lookup_insert in Hb by done. injection Hb as <-. cbn [gset_child gh_child gh_short gh_size]. destruct (H h a Ha) as ((H1 & H2) & H3).
        repeat split; try lia. by eapply hpath_new.
      * rewrite list_lookup_insert_ne in Hb by done. destruct (H x b Hb) as ((H1 & H2) & H3). repeat split; try lia. by eapply hpath_new.
    + rewrite insert_length in *. apply list_lookup_singleton_Some in Hb as [He <-]. assert (x = length hs) as -> by lia. cbn [gh_child gh_short gh_size].
      repeat split; try lia. destruct (H h a Ha) as ((H1 & H2) & H3). eapply rtc_r; [by eapply hpath_new|].
      exists (gset_child a (length hs)). split; [|done]. apply lookup_app_l_Some. by rewrite list_lookup_insert.
  - eexists _, _, _. split; [done|]. split; [done|]. split; [done|]. intros st' g k Hk x b Hb. rewrite app_length. cbn [length].
    apply lookup_app_Some in Hb as [Hb|[Hx Hb]].
    + destruct (H x b Hb) as ((H1 & H2) & H3). repeat split; try lia. by apply hpath_app.
    + apply list_lookup_singleton_Some in Hb as [He <-]. assert (x = length hs) as -> by lia. cbn [gh_child gh_short gh_size].
      repeat split; try lia. apply rtc_refl.
Qed.

(* isStable changes the shortcut and the stable size of the last entry *)
Lemma wstable_ok P c hs : hok hs -> terminal hs (w_hist c) ->
  exists st c' hs', wstable P c hs = Some (st, c', hs') /\ hok hs' /\ length hs' = length hs /\
    (exists l v, c' = WComp (w_gray c) (w_size c) (w_head c) (w_tail c) (w_hist c) l v) /\
    (forall x a, hs !! x = Some a -> exists a', hs' !! x = Some a' /\ gh_child a' = gh_child a /\ gh_size a' = gh_size a) /\
    (st = true -> exists h a, w_hist c = Some h /\ hs !! h = Some a /\ (p_min P <= Z.of_nat (gh_size a) <= p_max P)%Z).
Proof.
  intros H Ht. unfold wstable. destruct c as [g sz hd tl ho la va]. cbn [w_hist w_gray w_size w_head w_tail w_last w_var] in *. destruct ho as [h|]; cbn [terminal] in Ht.
  - destruct Ht as (a & Ha & Hc). rewrite Ha.
    destruct (Z.ltb_spec (Z.of_nat (gh_size a)) (p_min P)); cbn [orb].
    { eexists _, _, _. split; [done|]. split; [done|]. split; [done|]. split; [eauto|]. split; [eauto|done]. }
    destruct (Z.ltb_spec (p_max P) (Z.of_nat (gh_size a))).
    { eexists _, _, _. split; [done|]. split; [done|]. split; [done|]. split; [eauto|]. split; [eauto|done]. }
    destruct (wvariation_ok (p_delta P) (WComp g sz hd tl (Some h) la va) hs h a H eq_refl Ha Hc) as (var & s & -> & Hs).
    pose proof (lookup_lt_Some _ _ _ Ha) as Hlt. rewrite list_lookup_insert by done.
    assert (hok (<[h := gset_short a s]> hs)) as Hset by (eapply hok_set; eauto).
    eexists _, _, _. split; [done|].
    destruct (_ && _) eqn:Est.
    + split; [|split; [by rewrite !insert_length|split; [eauto|split]]].
      * eapply (hok_set _ h (gset_short a s)); [done|by apply list_lookup_insert|done|done|]. cbn [gset_stable gset_short gh_short]. by eapply hpath_set.
      * intros x b Hb. destruct (decide (x = h)) as [->|Hne].
        -- rewrite list_lookup_insert by (by rewrite insert_length). rewrite Ha in Hb. injection Hb as <-. eauto.
        -- rewrite !list_lookup_insert_ne by done. eauto.
      * intros _. exists h, a. split; [done|]. split; [done|]. lia.
    + split; [done|]. split; [by rewrite insert_length|]. split; [eauto|]. split; [|done].
      intros x b Hb. destruct (decide (x = h)) as [->|Hne].
      * rewrite list_lookup_insert by done. rewrite Ha in Hb. injection Hb as <-. eauto.
      * rewrite !list_lookup_insert_ne by done. eauto.
  - eexists _, _, _. split; [done|]. split; [done|]. split; [done|]. split; [eauto|]. split; [eauto|done].
Qed.
