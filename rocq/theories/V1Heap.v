(* Pointers, doubly linked lists and tail references of Fast MSER V1. *)
From stdpp Require Import sorting relations functions list.
From Coq Require Import ZArith.
From Verif Require Import FloodModel V1JoinModel.
Local Open Scope nat_scope.

Section two.
Context {A : Type}.
Implicit Types L : list (list A).

Lemma get2_set2 L r a r' : get2 (set2 L r a) r' =
  if decide (r' = r) then (match get2 L r with Some _ => Some a | None => None end) else get2 L r'.
Proof.
  unfold get2, set2. destruct r as [k i], r' as [k' i']; cbn [fst snd].
  destruct (decide (k' = k)) as [->|Hk].
  - rewrite list_lookup_alter. destruct (L !! k) as [l|] eqn:Hl; cbn [fmap option_fmap option_map].
    + case_decide as Hd.
      * injection Hd as ->. destruct (l !! i) as [x|] eqn:Hx.
        -- apply list_lookup_insert. by eapply lookup_lt_Some.
        -- rewrite list_insert_ge; auto. by apply lookup_ge_None.
      * apply list_lookup_insert_ne. intros ->. done.
    + by case_decide.
  - rewrite list_lookup_alter_ne by auto. rewrite decide_False by congruence. done.
Qed.
Lemma get2_set2_eq L r a x : get2 L r = Some x -> get2 (set2 L r a) r = Some a.
Proof. intros H. by rewrite get2_set2, decide_True, H. Qed.
Lemma get2_set2_ne L r a r' : r' <> r -> get2 (set2 L r a) r' = get2 L r'.
Proof. intros H. by rewrite get2_set2, decide_False. Qed.
Lemma set2_shape L r a : length <$> set2 L r a = length <$> L.
Proof.
  unfold set2. apply list_eq. intros i. rewrite !list_lookup_fmap.
  destruct (decide (i = fst r)) as [->|Hi].
  - rewrite list_lookup_alter. destruct (L !! fst r); simpl; [|done]. by rewrite insert_length.
  - by rewrite list_lookup_alter_ne by auto.
Qed.

Definition num2 L : nat := sum_list (length <$> L).
Definition refs2 L : list rref :=
  concat (imap (fun k l => (fun i => (k, i)) <$> seq 0 (length l)) L).
Lemma num2_set2 L r a : num2 (set2 L r a) = num2 L.
Proof. unfold num2. by rewrite set2_shape. Qed.
Lemma refs2_length L : length (refs2 L) = num2 L.
Proof.
  unfold refs2, num2.
  assert (forall f, (forall k (l : list A), length (f k l) = length l) ->
    length (concat (imap f L : list (list rref))) = sum_list (length <$> L)) as H.
  { induction L as [|l L IH]; intros f Hf; [done|]. rewrite imap_cons. cbn [concat fmap list_fmap sum_list].
    rewrite app_length, Hf. f_equal. apply IH. intros. apply Hf. }
  apply H. intros k l. by rewrite fmap_length, seq_length.
Qed.
Lemma elem_refs2 L r a : get2 L r = Some a -> r ∈ refs2 L.
Proof.
  unfold get2, refs2. destruct r as [k i]; cbn [fst snd]. destruct (L !! k) as [l|] eqn:Hl; [|done]. intros Ha.
  apply elem_of_list_In, in_concat. exists ((fun i => (k, i)) <$> seq 0 (length l)). split.
  - apply elem_of_list_In, elem_of_lookup_imap. exists k, l. auto.
  - apply elem_of_list_In, elem_of_list_fmap. exists i. split; auto. apply elem_of_seq.
    apply lookup_lt_Some in Ha. lia.
Qed.
Lemma num2_bound L (l : list rref) : NoDup l -> (forall r, r ∈ l -> exists a, get2 L r = Some a) ->
  length l <= num2 L.
Proof.
  intros Hn Hl. rewrite <-refs2_length. apply submseteq_length, NoDup_submseteq; auto.
  intros r Hr. destruct (Hl r Hr) as [a Ha]. by eapply elem_refs2.
Qed.
Lemma shape_dom {B} L (L' : list (list B)) r a : length <$> L' = length <$> L -> get2 L r = Some a ->
  exists b, get2 L' r = Some b.
Proof.
  intros H Ha. unfold get2 in *. destruct r as [k i]; cbn [fst snd] in *.
  assert (length <$> L' !! k = length <$> L !! k) as Hk.
  { rewrite <-!list_lookup_fmap. by rewrite H. }
  destruct (L !! k) as [l|]; [|done]. destruct (L' !! k) as [l'|]; [|done]. injection Hk as Hk.
  apply lookup_lt_Some in Ha. rewrite <-Hk in Ha. by apply lookup_lt_is_Some in Ha.
Qed.
End two.

(* ---------- points ---------- *)
Notation pts := (list (list wpt)).
Definition nx (P : pts) (q : rref) : option rref := match get2 P q with Some x => t_next x | None => None end.
Definition pv (P : pts) (q : rref) : option rref := match get2 P q with Some x => t_prev x | None => None end.
Definition rf (P : pts) (q : rref) : option rref := match get2 P q with Some x => t_ref x | None => None end.
Definition co (P : pts) (q : rref) : option (nat * nat) :=
  match get2 P q with Some x => Some (t_x x, t_y x) | None => None end.
(* q is an element of the array *)
Definition pdom (P : pts) (q : rref) : Prop := exists x, get2 P q = Some x.

(* same array, maybe other links: the elements, their coordinates *)
Definition psame (P P' : pts) : Prop := length <$> P' = length <$> P /\ forall q, co P' q = co P q.
Lemma psame_refl P : psame P P.
Proof. done. Qed.
Lemma psame_trans P P' P'' : psame P P' -> psame P' P'' -> psame P P''.
Proof. intros [A1 A2] [B1 B2]. split; [congruence|]. intros q. by rewrite B2. Qed.
Lemma psame_dom P P' q : psame P P' -> pdom P' q <-> pdom P q.
Proof.
  intros [HS _]. split; intros [x Hx].
  - eapply (shape_dom P' P); eauto.
  - eapply (shape_dom P P'); eauto.
Qed.
Lemma psame_num P P' : psame P P' -> num2 P' = num2 P.
Proof. intros [H _]. unfold num2. by rewrite H. Qed.

Lemma set_next_eff P q v : pdom P q -> exists P', wset_next P q v = Some P' /\ psame P P' /\
  (forall r, nx P' r = if decide (r = q) then v else nx P r) /\
  (forall r, pv P' r = pv P r) /\ (forall r, rf P' r = rf P r).
Proof.
  intros [x Hx]. unfold wset_next. rewrite Hx. eexists. split; [done|].
  split; [split; [apply set2_shape|]|split; [|split]]; intros r; unfold co, nx, pv, rf;
    rewrite get2_set2, Hx; case_decide as Hd; subst; rewrite ?Hx; done.
Qed.
Lemma set_prev_eff P q v : pdom P q -> exists P', wset_prev P q v = Some P' /\ psame P P' /\
  (forall r, pv P' r = if decide (r = q) then v else pv P r) /\
  (forall r, nx P' r = nx P r) /\ (forall r, rf P' r = rf P r).
Proof.
  intros [x Hx]. unfold wset_prev. rewrite Hx. eexists. split; [done|].
  split; [split; [apply set2_shape|]|split; [|split]]; intros r; unfold co, nx, pv, rf;
    rewrite get2_set2, Hx; case_decide as Hd; subst; rewrite ?Hx; done.
Qed.
Lemma set_ref_eff P q v : pdom P q -> exists P', wset_ref P q v = Some P' /\ psame P P' /\
  (forall r, rf P' r = if decide (r = q) then v else rf P r) /\
  (forall r, nx P' r = nx P r) /\ (forall r, pv P' r = pv P r).
Proof.
  intros [x Hx]. unfold wset_ref. rewrite Hx. eexists. split; [done|].
  split; [split; [apply set2_shape|]|split; [|split]]; intros r; unfold co, nx, pv, rf;
    rewrite get2_set2, Hx; case_decide as Hd; subst; rewrite ?Hx; done.
Qed.
Lemma get_fields P q : pdom P q -> exists x, get2 P q = Some x /\ t_next x = nx P q /\ t_prev x = pv P q /\ t_ref x = rf P q.
Proof. intros [x Hx]. exists x. unfold nx, pv, rf. by rewrite Hx. Qed.

(* ---------- doubly linked segments ---------- *)
Definition hd_or (l : list rref) (b : option rref) : option rref :=
  match l with [] => b | i :: _ => Some i end.
Definition last_or (a : option rref) (l : list rref) : option rref :=
  match last l with None => a | Some z => Some z end.
Fixpoint dseg (P : pts) (a : option rref) (l : list rref) (b : option rref) : Prop :=
  match l with
  | [] => True
  | i :: l' => pdom P i /\ pv P i = a /\ nx P i = hd_or l' b /\ dseg P (Some i) l' b
  end.

Lemma last_or_nil a : last_or a [] = a.
Proof. done. Qed.
Lemma last_or_cons a i l : last_or a (i :: l) = last_or (Some i) l.
Proof. unfold last_or. rewrite last_cons. by destruct (last l). Qed.
Lemma last_or_some a l z : last l = Some z -> last_or a l = Some z.
Proof. unfold last_or. by intros ->. Qed.
Lemma hd_or_app l l' b : hd_or (l ++ l') b = hd_or l (hd_or l' b).
Proof. by destruct l. Qed.

Lemma dseg_app P a l l' b : dseg P a (l ++ l') b <-> dseg P a l (hd_or l' b) /\ dseg P (last_or a l) l' b.
Proof.
  revert a. induction l as [|i l IH]; intros a.
  - cbn [app dseg]. rewrite last_or_nil. tauto.
  - cbn [app dseg]. rewrite IH, hd_or_app, last_or_cons. tauto.
Qed.
Lemma dseg_dom P a l b q : dseg P a l b -> q ∈ l -> pdom P q.
Proof.
  revert a. induction l as [|i l IH]; intros a; [by intros _ ?%elem_of_nil|].
  intros (H1 & _ & _ & H4) [->|Hq]%elem_of_cons; eauto.
Qed.
Lemma dseg_frame P P' a l b : psame P P' ->
  (forall q, q ∈ l -> nx P' q = nx P q /\ pv P' q = pv P q) -> dseg P a l b -> dseg P' a l b.
Proof.
  intros HS. revert a. induction l as [|i l IH]; intros a He; [done|]. cbn [dseg].
  intros (H1 & H2 & H3 & H4). destruct (He i) as [E1 E2]; [apply elem_of_cons; auto|].
  split; [by apply (psame_dom P P')|]. split; [congruence|]. split; [congruence|].
  apply IH; auto. intros q Hq. apply He. apply elem_of_cons; auto.
Qed.
(* changing the first previous link and the last next link only *)
Lemma dseg_ends P P' a b a' b' l : psame P P' -> NoDup l ->
  (forall q, q ∈ l -> nx P' q = (if decide (last l = Some q) then b' else nx P q) /\
                      pv P' q = (if decide (head l = Some q) then a' else pv P q)) ->
  dseg P a l b -> dseg P' a' l b'.
Proof.
  intros HS. revert a a'. induction l as [|i l IH]; intros a a' Hn He; [done|]. cbn [dseg].
  intros (H1 & H2 & H3 & H4). apply NoDup_cons in Hn as [Hi Hn].
  destruct (He i) as [E1 E2]; [apply elem_of_cons; auto|].
  split; [by apply (psame_dom P P')|]. split; [|split].
  - rewrite E2, decide_True; auto.
  - rewrite E1. rewrite last_cons. destruct (last l) as [z|] eqn:Hz.
    + rewrite decide_False; [destruct l; [done|exact H3]|]. intros [= ->]. apply Hi.
      apply last_Some in Hz as [l' ->]. apply elem_of_app. right. by apply elem_of_list_singleton.
    + rewrite decide_True by done. apply last_None in Hz. by subst.
  - eapply IH; [done| |exact H4]. intros q Hq. destruct (He q) as [F1 F2]; [apply elem_of_cons; auto|].
    split.
    + rewrite F1. rewrite last_cons. destruct (last l) eqn:Hz; [done|]. apply last_None in Hz. subst.
      by apply elem_of_nil in Hq.
    + rewrite F2, decide_False; [|cbn; intros [= ->]; done].
      destruct (decide (head l = Some q)) as [Hd|Hd]; [|done]. destruct l as [|j l]; [done|]. cbn in Hd. injection Hd as ->.
      cbn [dseg] in H4. by destruct H4 as (_ & -> & _).
Qed.

Lemma head_hd_or (l : list rref) : head l = hd_or l None.
Proof. by destruct l. Qed.

(* ---------- tail references ---------- *)
Inductive rtn (P : pts) : nat -> rref -> rref -> Prop :=
| rtn0 t : pdom P t -> rf P t = None -> rtn P 0 t t
| rtnS n t u z : pdom P t -> rf P t = Some u -> rtn P n u z -> rtn P (S n) t z.
Definition rt P t z := exists n, rtn P n t z.

Lemma rt_here P t : pdom P t -> rf P t = None -> rt P t t.
Proof. intros. exists 0. by constructor. Qed.
Lemma rtn_fun P n m t z z' : rtn P n t z -> rtn P m t z' -> n = m /\ z = z'.
Proof.
  intros H. revert m z'. induction H as [t Hd Hr|n t u z Hd Hr H IH]; intros m z' H'.
  - inversion H'; subst; [done|congruence].
  - inversion H' as [|m' ? u' ? ? ? H2]; subst; [congruence|]. assert (u' = u) as -> by congruence.
    destruct (IH _ _ H2) as [-> ->]. done.
Qed.
Lemma rt_fun P t z z' : rt P t z -> rt P t z' -> z = z'.
Proof. intros [n H] [m H']. by destruct (rtn_fun _ _ _ _ _ _ H H'). Qed.
Lemma rt_end P t z : rt P t z -> pdom P z /\ rf P z = None.
Proof. intros [n H]. by induction H. Qed.
Lemma rt_dom P t z : rt P t z -> pdom P t.
Proof. intros [n H]. by inversion H. Qed.
Lemma rt_none P t z : rt P t z -> rf P t = None -> z = t.
Proof. intros [n H] Hn. inversion H; subst; congruence. Qed.
Lemma rtn_bound P n t z : rtn P n t z -> n < num2 P.
Proof.
  intros H. assert (exists l, length l = S n /\ NoDup l /\
    forall q, q ∈ l -> pdom P q /\ exists m, m <= n /\ rtn P m q z) as (l & L1 & L2 & L3).
  { induction H as [t Hd Hr|n t u z Hd Hr H IH].
    - exists [t]. split; [done|]. split; [apply NoDup_singleton|]. intros q ->%elem_of_list_singleton.
      split; [done|]. exists 0. split; [done|]. by constructor.
    - destruct IH as (l & L1 & L2 & L3). exists (t :: l). split; [simpl; lia|]. split.
      + constructor; [|done]. intros Hin. destruct (L3 _ Hin) as (_ & m & Hm & Hmz).
        assert (rtn P (S n) t z) as Ht by (econstructor; eauto).
        destruct (rtn_fun _ _ _ _ _ _ Ht Hmz). lia.
      + intros q [->|Hq]%elem_of_cons.
        * split; [done|]. exists (S n). split; [lia|]. econstructor; eauto.
        * destruct (L3 q Hq) as (Hq' & m & Hm & Hmz). split; [done|]. exists m. split; [lia|done]. }
  pose proof (num2_bound P l L2 ltac:(intros q Hq; by destruct (L3 q Hq))). lia.
Qed.
Lemma follow_ok P n t z fuel : rtn P n t z -> n < fuel -> follow_ref fuel P t = Some z.
Proof.
  intros H. revert fuel. induction H as [t Hd Hr|n t u z Hd Hr H IH]; intros [|fuel] Hf; try lia;
    cbn [follow_ref]; destruct (get_fields P t Hd) as (x & -> & _ & _ & ->); rewrite Hr; [done|].
  apply IH. lia.
Qed.
(* changing references that do not lead anywhere else *)
Lemma rt_frame P P' : psame P P' -> forall t z, rt P t z ->
  (forall q, rf P' q = rf P q \/ (rf P q = None /\ q <> z) \/ (exists z', rf P' q = Some z' /\ rt P q z' /\ q <> z')) ->
  rt P' t z.
Proof.
  intros HS t z [n H] Hq.
  assert (rt P' z z) as Hzz.
  { destruct (rt_end P t z (ex_intro _ n H)) as [Hd Hn]. apply rt_here; [by apply (psame_dom P P')|].
    destruct (Hq z) as [->|[[_ ?]|(z' & _ & [m Hm] & Hne)]]; try done.
    inversion Hm; subst; congruence. }
  induction H as [t Hd Hr|n t u z Hd Hr H IH]; [done|].
  destruct (Hq t) as [He|[[? _]|(z' & He & Hz & _)]]; [| congruence |].
  - destruct IH as [m Hm]; [done|done|]. exists (S m). econstructor; [by apply (psame_dom P P')|rewrite He; exact Hr|done].
  - assert (z' = z) as -> by (eapply rt_fun; [exact Hz|]; exists (S n); econstructor; eauto).
    destruct Hzz as [m Hm]. exists (S m). econstructor; [by apply (psame_dom P P')|exact He|exact Hm].
Qed.

Lemma real_tail_ok P fuel t z : rt P t z -> num2 P <= fuel ->
  exists P1, real_tail fuel P t = Some (P1, z) /\ psame P P1 /\
    (forall q, nx P1 q = nx P q) /\ (forall q, pv P1 q = pv P q) /\
    (forall q, rf P1 q = rf P q \/ (rf P q <> None /\ rf P1 q = Some z /\ rt P q z /\ q <> z)).
Proof.
  intros Ht Hf. pose proof Ht as [n H]. unfold real_tail.
  rewrite (follow_ok P n t z fuel H) by (pose proof (rtn_bound _ _ _ _ H); lia).
  case_decide as Hd.
  - exists P. split; [done|]. split; [apply psame_refl|]. auto.
  - destruct (set_ref_eff P t (Some z)) as (P' & -> & HS & H1 & H2 & H3); [by eapply rt_dom|].
    exists P'. split; [done|]. split; [done|]. split; [done|]. split; [done|].
    intros q. rewrite H1. case_decide as Hq; [subst|by left]. right. split; [|auto].
    intros Hn. apply Hd. by eapply rt_none.
Qed.
Lemma rt_real_tail P P1 t z : psame P P1 ->
  (forall q, rf P1 q = rf P q \/ (rf P q <> None /\ rf P1 q = Some t /\ rt P q t /\ q <> t)) ->
  forall u, rt P u z -> rt P1 u z.
Proof.
  intros HS H u Hu. apply (rt_frame P P1 HS u z Hu). intros q.
  destruct (H q) as [?|(_ & ? & ? & ?)]; eauto 10.
Qed.

(* the reference of z, so far the end of chains, is set to p *)
Lemma rt_set P P' z p : psame P P' -> rt P p p -> rf P z = None -> pdom P z -> p <> z ->
  (forall q, rf P' q = if decide (q = z) then Some p else rf P q) ->
  forall t y, rt P t y -> rt P' t (if decide (y = z) then p else y).
Proof.
  intros HS Hp Hz Hdz Hpz HE t y [n H].
  assert (rt P' p p) as Hpp.
  { destruct (rt_end _ _ _ Hp) as [Hd Hn]. apply rt_here; [by apply (psame_dom P P')|].
    by rewrite HE, decide_False. }
  induction H as [t Hd Hr|n t u y Hd Hr H IH].
  - case_decide as Ht.
    + subst. destruct Hpp as [m Hm]. exists (S m). econstructor; [by apply (psame_dom P P')| |exact Hm].
      by rewrite HE, decide_True.
    + apply rt_here; [by apply (psame_dom P P')|]. by rewrite HE, decide_False.
  - destruct IH as [m Hm]. exists (S m). econstructor; [by apply (psame_dom P P')| |exact Hm].
    rewrite HE, decide_False; [done|]. intros ->. congruence.
Qed.

Lemma dseg_head P a l b q : dseg P a l b -> head l = Some q -> pv P q = a.
Proof. destruct l as [|i l]; [done|]. cbn. by intros (_ & ? & _) [= <-]. Qed.
Lemma dseg_last P a l b q : dseg P a l b -> last l = Some q -> nx P q = b.
Proof.
  intros H (l' & ->)%last_Some. apply dseg_app in H as [_ H]. cbn [dseg hd_or] in H. tauto.
Qed.

Lemma unlink_eff P h z : pdom P h -> pdom P z -> (forall q, pv P h = Some q -> pdom P q) ->
  (forall q, nx P z = Some q -> pdom P q) -> pv P h <> Some z ->
  exists P', unlink P h z = Some P' /\ psame P P' /\
    (forall q, nx P' q = if decide (pv P h = Some q) then nx P z else nx P q) /\
    (forall q, pv P' q = if decide (nx P z = Some q) then pv P h else pv P q) /\
    (forall q, rf P' q = rf P q).
Proof.
  intros Hh Hz Hp Hn Hne. unfold unlink.
  destruct (get_fields P h Hh) as (xh & -> & _ & -> & _). destruct (get_fields P z Hz) as (xz & -> & -> & _ & _).
  assert (exists P1, (match pv P h with None => Some P | Some p => wset_next P p (nx P z) end) = Some P1 /\
    psame P P1 /\ (forall q, nx P1 q = if decide (pv P h = Some q) then nx P z else nx P q) /\
    (forall q, pv P1 q = pv P q) /\ (forall q, rf P1 q = rf P q)) as (P1 & -> & S1 & N1 & V1 & R1).
  { destruct (pv P h) as [p|] eqn:Hp'.
    - destruct (set_next_eff P p (nx P z) (Hp p eq_refl)) as (P1 & -> & S1 & N1 & V1 & R1). exists P1.
      split; [done|]. split; [done|]. split; [|done]. intros q. rewrite N1.
      destruct (decide (q = p)) as [->|]; [by rewrite decide_True|by rewrite decide_False by congruence].
    - exists P. done. }
  destruct (get_fields P1 h) as (xh1 & -> & _ & -> & _); [by apply (psame_dom P P1)|].
  destruct (get_fields P1 z) as (xz1 & -> & -> & _ & _); [by apply (psame_dom P P1)|].
  rewrite N1, decide_False by done. rewrite V1.
  destruct (nx P z) as [n|] eqn:Hn'.
  - destruct (set_prev_eff P1 n (pv P h)) as (P2 & -> & S2 & V2 & N2 & R2).
    { apply (psame_dom P P1); auto. }
    exists P2. split; [done|]. split; [by eapply psame_trans|].
    split; [intros q; rewrite N2; apply N1|]. split; [|intros q; by rewrite R2].
    intros q. rewrite V2, V1. destruct (decide (q = n)) as [->|]; [by rewrite decide_True|by rewrite decide_False by congruence].
  - exists P1. split; [done|]. split; [done|]. split; [done|]. split; [|done]. intros q. by rewrite V1.
Qed.

(* a segment cut out of a chain *)
Lemma cut_out P P' A L B h z : psame P P' -> NoDup (A ++ L ++ B) -> head L = Some h -> last L = Some z ->
  dseg P None (A ++ L ++ B) None ->
  (forall q, nx P' q = if decide (q = z) then None else if decide (last A = Some q) then head B else nx P q) ->
  (forall q, pv P' q = if decide (q = h) then None else if decide (head B = Some q) then last A else pv P q) ->
  dseg P' None (A ++ B) None /\ dseg P' None L None /\
  (forall l, (forall q, q ∈ l -> q ∉ A ++ L ++ B) -> dseg P None l None -> dseg P' None l None).
Proof.
  intros HS Hnd Hh Hz Hd HN HV.
  assert (h ∈ L) as HhL by (by apply head_Some_elem_of).
  assert (z ∈ L) as HzL by (by apply last_Some_elem_of).
  apply NoDup_app in Hnd as (NA & NAL & NLB). apply NoDup_app in NLB as (NL & NLB' & NB).
  assert (forall q, q ∈ A -> q <> z /\ q <> h /\ q ∉ B) as HA.
  { intros q Hq. pose proof (NAL q Hq) as H. rewrite elem_of_app in H. split_and!; [intros ->; tauto|intros ->; tauto|tauto]. }
  assert (forall q, q ∈ L -> last A <> Some q /\ head B <> Some q) as HL.
  { intros q Hq. split.
    - intros H%last_Some_elem_of. apply (NAL q H). apply elem_of_app; auto.
    - intros H%head_Some_elem_of. by apply (NLB' q Hq). }
  assert (forall q, q ∈ B -> q <> z /\ q <> h /\ last A <> Some q) as HB.
  { intros q Hq. split_and!; [intros ->; exact (NLB' _ HzL Hq)|intros ->; exact (NLB' _ HhL Hq)|].
    intros H%last_Some_elem_of. apply (NAL q H). apply elem_of_app; auto. }
  pose proof Hd as Hd0. apply dseg_app in Hd as [D1 D2]. apply dseg_app in D2 as [D2 D3].
  split_and!.
  - apply dseg_app. split.
    + eapply (dseg_ends P P' None _ None _ A HS NA); [|exact D1]. intros q Hq. destruct (HA q Hq) as (Q1 & Q2 & Q3).
      rewrite HN, HV. rewrite !(decide_False (P := q = _)) by done.
      rewrite (decide_False (P := head B = Some q)) by (intros H%head_Some_elem_of; done).
      split; [rewrite <-head_hd_or; done|]. destruct (decide (head A = Some q)) as [Hq'|]; [|done].
      exact (dseg_head _ _ _ _ _ D1 Hq').
    + eapply (dseg_ends P P' _ None _ None B HS NB); [|exact D3]. intros q Hq. destruct (HB q Hq) as (Q1 & Q2 & Q3).
      rewrite HN, HV. rewrite !(decide_False (P := q = _)) by done. rewrite (decide_False (P := last A = Some q)) by done.
      split; [|unfold last_or; by destruct (last A)].
      destruct (decide (last B = Some q)) as [Hq'|]; [|done]. exact (dseg_last _ _ _ _ _ D3 Hq').
  - eapply (dseg_ends P P' _ _ None None L HS NL); [|exact D2]. intros q Hq. destruct (HL q Hq) as [Q1 Q2].
    rewrite HN, HV. rewrite (decide_False (P := last A = Some q)), (decide_False (P := head B = Some q)) by done.
    split.
    + destruct (decide (q = z)) as [->|]; [by rewrite decide_True|by rewrite decide_False by congruence].
    + destruct (decide (q = h)) as [->|]; [by rewrite decide_True|by rewrite decide_False by congruence].
  - intros l Hl. apply dseg_frame; [done|]. intros q Hq. pose proof (Hl q Hq) as Hn. rewrite !elem_of_app in Hn.
    rewrite HN, HV. rewrite !(decide_False (P := q = _)) by (intros ->; tauto).
    rewrite (decide_False (P := last A = Some q)) by (intros H%last_Some_elem_of; tauto).
    rewrite (decide_False (P := head B = Some q)) by (intros H%head_Some_elem_of; tauto). done.
Qed.

(* two chains put one behind the other *)
Lemma put_behind P P' L1 L2 z h : psame P P' -> NoDup (L1 ++ L2) -> last L1 = Some z -> head L2 = Some h ->
  dseg P None L1 None -> dseg P None L2 None ->
  (forall q, nx P' q = if decide (q = z) then Some h else nx P q) ->
  (forall q, pv P' q = if decide (q = h) then Some z else pv P q) ->
  dseg P' None (L1 ++ L2) None /\
  (forall l, (forall q, q ∈ l -> q ∉ L1 ++ L2) -> dseg P None l None -> dseg P' None l None).
Proof.
  intros HS Hnd Hz Hh D1 D2 HN HV.
  assert (h ∈ L2) as HhL by (by apply head_Some_elem_of).
  assert (z ∈ L1) as HzL by (by apply last_Some_elem_of).
  apply NoDup_app in Hnd as (N1 & N12 & N2). split.
  - apply dseg_app. split.
    + eapply (dseg_ends P P' None _ None _ L1 HS N1); [|exact D1]. intros q Hq. rewrite HN, HV.
      rewrite (decide_False (P := q = h)) by (intros ->; first [exact (N12 _ Hq HhL)|exact (N12 _ HzL Hq)]). split.
      * rewrite <-head_hd_or, Hh. destruct (decide (q = z)) as [->|]; [by rewrite decide_True|by rewrite decide_False by congruence].
      * destruct (decide (head L1 = Some q)) as [Hq'|]; [|done]. exact (dseg_head _ _ _ _ _ D1 Hq').
    + eapply (dseg_ends P P' _ None _ None L2 HS N2); [|exact D2]. intros q Hq. rewrite HN, HV.
      rewrite (decide_False (P := q = z)) by (intros ->; first [exact (N12 _ Hq HhL)|exact (N12 _ HzL Hq)]). split.
      * destruct (decide (last L2 = Some q)) as [Hq'|]; [|done]. exact (dseg_last _ _ _ _ _ D2 Hq').
      * rewrite (last_or_some _ _ _ Hz). destruct (decide (q = h)) as [->|]; [by rewrite decide_True|by rewrite decide_False by congruence].
  - intros l Hl. apply dseg_frame; [done|]. intros q Hq. pose proof (Hl q Hq) as Hn. rewrite !elem_of_app in Hn.
    rewrite HN, HV. rewrite !decide_False by (intros ->; tauto). done.
Qed.
