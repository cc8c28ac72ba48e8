(* Proofs about the sorting utilities. *)
From stdpp Require Import sorting relations functions list_numbers list.
From Coq Require Import ZArith.
From Verif Require Import UtilModel.
Local Open Scope nat_scope.

(* SPEC: v is not to stand after w in the order asked for *)
Definition in_order (inc : bool) (v w : Z) : Prop := if inc then (v <= w)%Z else (w <= v)%Z.
(* SPEC: the array is ordered *)
Definition ordered (inc : bool) (l : list Z) : Prop :=
  forall i j v w, i < j -> l !! i = Some v -> l !! j = Some w -> in_order inc v w.

Lemma for_each_ind {St} (f : nat -> St -> option St) (P : nat -> St -> Prop) a n s :
  P a s -> (forall i s, a <= i < a + n -> P i s -> exists s', f i s = Some s' /\ P (i + 1) s') ->
  exists s', for_each f (seq a n) s = Some s' /\ P (a + n) s'.
Proof.
  revert a s. induction n as [|n IH]; intros a s H0 HS; cbn.
  - exists s. by rewrite Nat.add_0_r.
  - destruct (HS a s) as (s' & -> & H'); [lia|done|].
    destruct (IH (S a) s') as (s2 & -> & H2).
    + by rewrite Nat.add_1_r in H'.
    + intros i s1 Hi. apply HS. lia.
    + exists s2. replace (a + S n) with (S a + n) by lia. done.
Qed.
Lemma for_each_down {St} (f : nat -> St -> option St) (P : nat -> St -> Prop) n s :
  P n s -> (forall i s, i < n -> P (i + 1) s -> exists s', f i s = Some s' /\ P i s') ->
  exists s', for_each f (reverse (seq 0 n)) s = Some s' /\ P 0 s'.
Proof.
  revert s. induction n as [|n IH]; intros s H0 HS.
  - by exists s.
  - rewrite seq_S, reverse_app. cbn. destruct (HS n s) as (s' & -> & H'); [lia|by rewrite Nat.add_1_r|].
    destruct (IH s' H') as (s2 & -> & H2); eauto.
Qed.

Lemma swap_at_ok {A} i j (l : list A) : i < length l -> j < length l -> exists a b,
  l !! i = Some a /\ l !! j = Some b /\ swap_at i j l = Some (<[j := a]> (<[i := b]> l)).
Proof.
  intros Hi Hj. destruct (lookup_lt_is_Some_2 l i Hi) as [a Ha]. destruct (lookup_lt_is_Some_2 l j Hj) as [b Hb].
  exists a, b. unfold swap_at. by rewrite Ha, Hb.
Qed.
Lemma insert_mid {A} (l1 l2 : list A) x y : <[length l1 := y]> (l1 ++ x :: l2) = l1 ++ y :: l2.
Proof. rewrite insert_app_r_alt by lia. by rewrite Nat.sub_diag. Qed.
Lemma split_two {A} i j (l : list A) a b : i < j -> l !! i = Some a -> l !! j = Some b ->
  exists l1 l2 l3, l = l1 ++ a :: l2 ++ b :: l3 /\ length l1 = i /\ length l2 = j - S i.
Proof.
  intros Hij Ha Hb. apply lookup_lt_Some in Hb as Hl.
  assert (drop (S i) l !! (j - S i) = Some b) as Hb' by (rewrite lookup_drop; by replace (S i + (j - S i)) with j by lia).
  exists (take i l), (take (j - S i) (drop (S i) l)), (drop (S (j - S i)) (drop (S i) l)). split.
  - rewrite (take_drop_middle _ _ _ Hb'). by rewrite (take_drop_middle _ _ _ Ha).
  - rewrite !take_length, drop_length. lia.
Qed.
Lemma swap_perm_lt {A} i j (l : list A) a b : i < j -> l !! i = Some a -> l !! j = Some b -> <[j := a]> (<[i := b]> l) ≡ₚ l.
Proof.
  intros Hij Ha Hb. destruct (split_two i j l a b Hij Ha Hb) as (l1 & l2 & l3 & -> & <- & H2).
  rewrite insert_mid. replace (l1 ++ b :: l2 ++ b :: l3) with ((l1 ++ b :: l2) ++ b :: l3) by (by rewrite <-app_assoc).
  replace j with (length (l1 ++ b :: l2)) by (rewrite app_length; cbn; lia). rewrite insert_mid, <-app_assoc. cbn.
  f_equiv. rewrite <-(Permutation_middle l2 l3 a), <-(Permutation_middle l2 l3 b). constructor.
Qed.
Lemma swap_perm {A} i j (l : list A) a b : l !! i = Some a -> l !! j = Some b -> <[j := a]> (<[i := b]> l) ≡ₚ l.
Proof.
  intros Ha Hb. destruct (lt_eq_lt_dec i j) as [[Hij| ->]|Hij].
  - by apply swap_perm_lt.
  - replace b with a by congruence. rewrite !list_insert_id; auto. rewrite list_lookup_insert; auto. by eapply lookup_lt_Some.
  - rewrite list_insert_commute by lia. by apply swap_perm_lt.
Qed.

Lemma swap_len {A} i j (l l' : list A) : swap_at i j l = Some l' -> length l' = length l.
Proof. unfold swap_at. destruct (l !! i), (l !! j); intros [= <-]. by rewrite !insert_length. Qed.

(* the neighbours j, j+1 in the right order, all else the same *)
Lemma bubble_step_ok inc j l : S j < length l -> exists l', bubble_step inc j l = Some l' /\ l' ≡ₚ l /\
  (forall i, i <> j -> i <> S j -> l' !! i = l !! i) /\
  exists a b, l' !! j = Some a /\ l' !! S j = Some b /\ in_order inc a b /\
    ((l !! j = Some a /\ l !! S j = Some b) \/ (l !! j = Some b /\ l !! S j = Some a)).
Proof.
  intros Hj. destruct (swap_at_ok j (S j) l) as (a & b & Ha & Hb & E); [lia|lia|]. unfold bubble_step. rewrite Ha, Hb, E.
  destruct (wrong_order inc a b) eqn:EW.
  - eexists. split; [done|]. split; [by apply swap_perm|]. split.
    + intros i H1 H2. rewrite !list_lookup_insert_ne by lia. done.
    + exists b, a. rewrite list_lookup_insert_ne, !list_lookup_insert by (rewrite ?insert_length; lia).
      split; [done|]. split; [done|]. split; [|auto]. unfold wrong_order in EW. unfold in_order.
      destruct inc; apply Z.ltb_lt in EW; lia.
  - eexists. split; [done|]. split; [done|]. split; [done|]. exists a, b. repeat (split; [done|]). split; [|auto].
    unfold wrong_order in EW. unfold in_order. destruct inc; apply Z.ltb_ge in EW; lia.
Qed.
Lemma in_order_trans inc a b c : in_order inc a b -> in_order inc b c -> in_order inc a c.
Proof. unfold in_order. destruct inc; lia. Qed.
Lemma in_order_refl inc a : in_order inc a a.
Proof. unfold in_order. destruct inc; lia. Qed.

(* the inner loop carries the last value of the first n to place n - 1 *)
Lemma bubble_inner_ok inc n l : n < length l -> exists l', for_each (bubble_step inc) (seq 0 n) l = Some l' /\ l' ≡ₚ l /\
  (forall i, n < i -> l' !! i = l !! i) /\
  (forall i v w, i <= n -> l' !! i = Some v -> l' !! n = Some w -> in_order inc v w) /\
  (forall i v, i <= n -> l' !! i = Some v -> exists k, k <= n /\ l !! k = Some v).
Proof.
  intros Hn. destruct (for_each_ind (bubble_step inc) (fun j l' => l' ≡ₚ l /\ (forall i, j < i -> l' !! i = l !! i) /\
    (forall i v w, i <= j -> l' !! i = Some v -> l' !! j = Some w -> in_order inc v w) /\
    (forall i v, i <= j -> l' !! i = Some v -> exists k, k <= j /\ l !! k = Some v)) 0 n l) as (l' & E & H1 & H2 & H3 & H4).
  - split; [done|]. split; [done|]. split.
    + intros i v w Hi Hv Hw. assert (i = 0) as -> by lia. assert (v = w) as -> by congruence. apply in_order_refl.
    + eauto.
  - intros j l1 Hj (H1 & H2 & H3 & H4). destruct (bubble_step_ok inc j l1) as (l2 & E & P2 & K2 & a & b & Ha & Hb & Hab & HC).
    { rewrite H1. lia. }
    exists l2. split; [done|]. rewrite Nat.add_1_r. assert (forall i, i <= j -> is_Some (l1 !! i)) as HS.
    { intros i Hi. apply lookup_lt_is_Some_2. rewrite H1. lia. }
    split; [by rewrite P2|]. split; [|split].
    + intros i Hi. rewrite K2 by lia. apply H2. lia.
    + intros i v w Hi Hv Hw. assert (w = b) as -> by congruence. destruct (decide (i = S j)) as [->|]; [assert (v = b) as -> by congruence; apply in_order_refl|].
      destruct (decide (i = j)) as [->|]; [by assert (v = a) as -> by congruence|].
      rewrite K2 in Hv by lia. destruct HC as [[HC1 HC2]|[HC1 HC2]].
      * eapply in_order_trans; [|exact Hab]. eapply (H3 i); eauto. lia.
      * eapply (H3 i); eauto. lia.
    + intros i v Hi Hv. assert (l1 !! S j = l !! S j) as HJ by (apply H2; lia).
      destruct (decide (i = S j)) as [->|]; [assert (v = b) as -> by congruence|destruct (decide (i = j)) as [->|]; [assert (v = a) as -> by congruence|]].
      * destruct HC as [[HC1 HC2]|[HC1 HC2]]; [exists (S j); split; [lia|congruence]|].
        destruct (H4 j b) as (k & Hk & Ek); [lia|done|]. exists k. split; [lia|done].
      * destruct HC as [[HC1 HC2]|[HC1 HC2]]; [|exists (S j); split; [lia|congruence]].
        destruct (H4 j a) as (k & Hk & Ek); [lia|done|]. exists k. split; [lia|done].
      * rewrite K2 in Hv by lia. destruct (H4 i v) as (k & Hk & Ek); [lia|done|]. exists k. split; [lia|done].
  - exists l'. split; [done|]. cbn [Nat.add] in *. auto.
Qed.

Lemma bubble_sort_ok inc l : exists l', bubble_sort inc l = Some l' /\ l' ≡ₚ l /\ ordered inc l'.
Proof.
  unfold bubble_sort. set (n := length l).
  destruct (for_each_ind (fun i l => for_each (bubble_step inc) (seq 0 (length l - i - 1)) l) (fun i l' => l' ≡ₚ l /\
    forall p q v w, p < q -> n - i <= q -> l' !! p = Some v -> l' !! q = Some w -> in_order inc v w) 0 (n - 1) l) as (l' & E & H1 & H2).
  - split; [done|]. intros p q v w _ Hq _ Hw. apply lookup_lt_Some in Hw. lia.
  - intros i l1 Hi (P1 & H1). assert (length l1 = n) as HL by (by rewrite P1).
    destruct (bubble_inner_ok inc (n - i - 1) l1) as (l2 & E & P2 & K1 & K2 & K3); [lia|].
    exists l2. rewrite HL. split; [done|]. split; [by rewrite P2|]. intros p q v w Hpq Hq Hv Hw.
    destruct (decide (q = n - i - 1)) as [->|Hne]; [eapply (K2 p); eauto; lia|].
    assert (l1 !! q = Some w) as Hw1 by (rewrite <-K1 by lia; done).
    destruct (decide (p <= n - i - 1)).
    + destruct (K3 p v) as (k & Hk & Ek); [lia|done|]. apply (H1 k q); auto; lia.
    + rewrite K1 in Hv by lia. apply (H1 p q); auto; lia.
  - exists l'. split; [done|]. split; [done|]. intros i j v w Hij Hv Hw. apply (H2 i j); auto. 
    apply lookup_lt_Some in Hw as Hl. rewrite (Permutation_length H1) in Hl. fold n in Hl. lia.
Qed.

(* the index-returning sort: values are moved along with their indices *)
Lemma sort_inner_ok fuel inc j ix d (l0 : list Z) : length ix = length d ->
  Forall2 (fun i v => l0 !! i = Some v) ix d ->
  exists ix' d', sort_inner fuel inc j (ix, d) = Some (ix', d') /\ length ix' = length ix /\ length d' = length d /\ ix' ≡ₚ ix /\ d' ≡ₚ d /\
    Forall2 (fun i v => l0 !! i = Some v) ix' d'.
Proof.
  revert j ix d. induction fuel as [|fuel IH]; intros j ix d HL HF; cbn [sort_inner]; [eauto 10|].
  destruct (Nat.ltb_spec (j + j + 1) (length ix)) as [Hj|Hj]; [|eauto 10].
  destruct (swap_at_ok j (S j) d) as (a & b & Ha & Hb & ->); [lia|lia|].
  destruct (swap_at_ok j (S j) ix) as (p & q & Hp & Hq & ->); [lia|lia|]. rewrite Ha, Hb.
  destruct (wrong_order inc a b); [|by apply IH].
  destruct (IH (S j) (<[S j:=p]> (<[j:=q]> ix)) (<[S j:=a]> (<[j:=b]> d))) as (ix' & d' & E & L1 & L2 & P1 & P2 & HF').
  { by rewrite !insert_length. }
  { apply Forall2_insert; [apply Forall2_insert; [done|]|].
    - exact (Forall2_lookup_lr _ _ _ _ _ _ HF Hq Hb).
    - exact (Forall2_lookup_lr _ _ _ _ _ _ HF Hp Ha). }
  exists ix', d'. rewrite !insert_length in *. split; [done|]. split; [done|]. split; [done|].
  split; [rewrite P1; by apply swap_perm|]. split; [rewrite P2; by apply swap_perm|]. done.
Qed.
Lemma index_sort_perm inc l : exists ix d, index_sort inc l = Some (ix, d) /\ ix ≡ₚ seq 0 (length l) /\ d ≡ₚ l /\
  Forall2 (fun i v => l !! i = Some v) ix d.
Proof.
  unfold index_sort. destruct (for_each_ind (fun (_ : nat) st => sort_inner (length l) inc 0 st) (fun _ st =>
    length (fst st) = length (snd st) /\ fst st ≡ₚ seq 0 (length l) /\ snd st ≡ₚ l /\ Forall2 (fun i v => l !! i = Some v) (fst st) (snd st))
    0 (length l - 1) (seq 0 (length l), l)) as ([ix d] & E & H0 & H1 & H2 & H3); cbn [fst snd] in *.
  - rewrite seq_length. repeat (split; [done|]). apply Forall2_same_length_lookup_2; [by rewrite seq_length|].
    intros i x y [-> _]%lookup_seq Hy. done.
  - intros i [ix d] _ (L0 & P1 & P2 & HF). cbn [fst snd] in *.
    destruct (sort_inner_ok (length l) inc 0 ix d l L0 HF) as (ix' & d' & E & L1 & L2 & P1' & P2' & HF').
    exists (ix', d'). split; [done|]. cbn. split; [congruence|]. split; [by rewrite P1'|]. split; [by rewrite P2'|]. done.
  - eauto 10.
Qed.

(* heaps *)
(* SPEC: what a heap is ordered by *)
Definition key (mh : bool) (v : Z) : Z := if mh then v else (- v)%Z.
(* SPEC: the children of p are not above p *)
Definition heap_at (mh : bool) (m : nat) (l : list Z) (p : nat) : Prop :=
  forall c v w, (c = 2 * p + 1 \/ c = 2 * p + 2) -> c < m -> l !! p = Some v -> l !! c = Some w -> (key mh w <= key mh v)%Z.
Lemma above_key mh a b : above mh a b = true <-> (key mh b < key mh a)%Z.
Proof. unfold above, key. destruct mh; rewrite Z.ltb_lt; lia. Qed.
Lemma above_key_false mh a b : above mh a b = false <-> (key mh a <= key mh b)%Z.
Proof. unfold above, key. destruct mh; rewrite Z.ltb_ge; lia. Qed.

Lemma heap_adjust_ok mh m lo fuel : forall i l, m <= length l -> m < fuel + i -> lo <= i ->
  (forall p, lo <= p -> p <> i -> heap_at mh m l p) ->
  (forall p c v w, lo <= p -> (i = 2 * p + 1 \/ i = 2 * p + 2) -> (c = 2 * i + 1 \/ c = 2 * i + 2) -> c < m ->
     l !! p = Some v -> l !! c = Some w -> (key mh w <= key mh v)%Z) ->
  0 < fuel ->
  exists l', heap_adjust fuel mh m i l = Some l' /\ l' ≡ₚ l /\ (forall p, lo <= p -> heap_at mh m l' p) /\
    (forall k, m <= k -> l' !! k = l !! k).
Proof.
  induction fuel as [|fuel IH]; intros i l Hm Hf Hlo HH HC H0; [lia|]. cbn [heap_adjust]. clear H0.
  destruct (Nat.leb_spec m (i * 2 + 1)) as [Hl|Hl].
  { exists l. split; [done|]. split; [done|]. split; [|done]. intros p Hp. destruct (decide (p = i)) as [->|]; [|by apply HH].
    intros c v w Hc Hcm. lia. }
  destruct (lookup_lt_is_Some_2 l i ltac:(lia)) as [x Hx]. destruct (lookup_lt_is_Some_2 l (i * 2 + 1) ltac:(lia)) as [y1 Hy1].
  assert (exists sel y, (if i * 2 + 1 + 1 <? m then
       match l !! (i * 2 + 1 + 1), l !! (i * 2 + 1) with
       | Some r, Some v => Some (if above mh r v then i * 2 + 1 + 1 else i * 2 + 1)
       | _, _ => None end else Some (i * 2 + 1)) = Some sel /\ (sel = 2 * i + 1 \/ sel = 2 * i + 2) /\ sel < m /\ l !! sel = Some y /\
       forall c w, (c = 2 * i + 1 \/ c = 2 * i + 2) -> c < m -> l !! c = Some w -> (key mh w <= key mh y)%Z) as (sel & y & -> & Hsel & Hsm & Hy & Hbest).
  { destruct (Nat.ltb_spec (i * 2 + 1 + 1) m) as [Hr|Hr].
    - destruct (lookup_lt_is_Some_2 l (i * 2 + 1 + 1) ltac:(lia)) as [y2 Hy2]. rewrite Hy1, Hy2.
      destruct (above mh y2 y1) eqn:E; [apply above_key in E|apply above_key_false in E].
      + exists (i * 2 + 1 + 1), y2. split; [done|]. split; [lia|]. split; [lia|]. split; [done|]. intros c w [->| ->] _ Hw.
        * replace (2 * i + 1) with (i * 2 + 1) in Hw by lia. assert (w = y1) as -> by congruence. lia.
        * replace (2 * i + 2) with (i * 2 + 1 + 1) in Hw by lia. assert (w = y2) as -> by congruence. lia.
      + exists (i * 2 + 1), y1. split; [done|]. split; [lia|]. split; [lia|]. split; [done|]. intros c w [->| ->] _ Hw.
        * replace (2 * i + 1) with (i * 2 + 1) in Hw by lia. assert (w = y1) as -> by congruence. lia.
        * replace (2 * i + 2) with (i * 2 + 1 + 1) in Hw by lia. assert (w = y2) as -> by congruence. lia.
    - exists (i * 2 + 1), y1. split; [done|]. split; [lia|]. split; [lia|]. split; [done|]. intros c w [->| ->] Hcm Hw; [|lia].
      replace (2 * i + 1) with (i * 2 + 1) in Hw by lia. assert (w = y1) as -> by congruence. lia. }
  rewrite Hx, Hy. destruct (above mh y x) eqn:E; [apply above_key in E|apply above_key_false in E].
  - destruct (swap_at_ok i sel l) as (x' & y' & Hx' & Hy' & ->); [lia|lia|].
    assert (x' = x) as -> by congruence. assert (y' = y) as -> by congruence.
    assert (i <> sel) as Hne by lia.
    assert (forall k, <[sel := x]> (<[i := y]> l) !! k = if decide (k = sel) then Some x else if decide (k = i) then Some y else l !! k) as HK.
    { intros k. destruct (decide (k = sel)) as [->|]; [rewrite list_lookup_insert by (rewrite insert_length; lia); done|].
      rewrite list_lookup_insert_ne by done. destruct (decide (k = i)) as [->|]; [by rewrite list_lookup_insert by lia|].
      by rewrite list_lookup_insert_ne. }
    destruct (IH sel (<[sel := x]> (<[i := y]> l))) as (l' & E' & P' & HH' & HK').
    + rewrite !insert_length. lia.
    + lia.
    + lia.
    + intros p Hp Hps c v w Hc Hcm. rewrite !HK. rewrite (decide_False (P := p = sel)) by done.
      destruct (decide (p = i)) as [->|Hpi].
      * intros [= <-]. destruct (decide (c = sel)) as [->|]; [intros [= <-]; lia|]. rewrite decide_False by lia. intros Hw. eauto.
      * intros Hv. rewrite (decide_False (P := c = sel)) by lia. destruct (decide (c = i)) as [->|].
        -- intros [= <-]. apply (HC p sel v y); auto.
        -- intros Hw. apply (HH p Hp Hpi c v w); auto.
    + intros p c v w Hp Hps Hcs Hcm. assert (p = i) as -> by lia. rewrite !HK.
      rewrite (decide_False (P := i = sel)) by done. rewrite decide_True by done. intros [= <-].
      rewrite !decide_False by lia. intros Hw. apply (HH sel ltac:(lia) ltac:(lia) c y w); auto.
    + lia.
    + exists l'. split; [done|]. split; [rewrite P'; by apply swap_perm|]. split; [done|].
      intros k Hk. rewrite HK' by done. rewrite HK, !decide_False by lia. done.
  - exists l. split; [done|]. split; [done|]. split; [|done]. intros p Hp. destruct (decide (p = i)) as [->|]; [|by apply HH].
    intros c v w Hc Hcm Hv Hw. assert (v = x) as -> by congruence. specialize (Hbest c w Hc Hcm Hw). lia.
Qed.

Lemma init_heap_ok mh l : exists l', init_heap mh l = Some l' /\ l' ≡ₚ l /\ forall p, heap_at mh (length l) l' p.
Proof.
  unfold init_heap. destruct (for_each_down (fun i l => heap_adjust (S (length l)) mh (length l) i l)
    (fun i l' => l' ≡ₚ l /\ forall p, i <= p -> heap_at mh (length l) l' p) (length l / 2) l) as (l' & E & H1 & H2).
  - split; [done|]. intros p Hp c v w Hc Hcm. pose proof (Nat.div_mod_eq (length l) 2). pose proof (Nat.mod_upper_bound (length l) 2). lia.
  - intros i l1 Hi (P1 & H1). assert (length l1 = length l) as HL by (by rewrite P1). rewrite HL.
    destruct (heap_adjust_ok mh (length l) i (S (length l)) i l1) as (l2 & E & P2 & HH & _); try lia.
    + intros p Hp Hne. apply H1. lia.
    + exists l2. split; [done|]. split; [by rewrite P2|]. done.
  - exists l'. split; [done|]. split; [done|]. intros p. apply H2. lia.
Qed.
Lemma heap_root mh m l v0 : (forall p, heap_at mh m l p) -> m <= length l -> l !! 0 = Some v0 ->
  forall k v, k < m -> l !! k = Some v -> (key mh v <= key mh v0)%Z.
Proof.
  intros HH Hm H0 k. induction (lt_wf k) as [k _ IH]. intros v Hk Hv. destruct (decide (k = 0)) as [->|Hne].
  - assert (v = v0) as -> by congruence. lia.
  - set (p := (k - 1) / 2). pose proof (Nat.div_mod_eq (k - 1) 2). pose proof (Nat.mod_upper_bound (k - 1) 2). fold p in H.
    destruct (lookup_lt_is_Some_2 l p ltac:(lia)) as [w Hw]. specialize (IH p ltac:(lia) w ltac:(lia) Hw).
    specialize (HH p k w v ltac:(lia) Hk Hw Hv). lia.
Qed.

Lemma key_order inc v w : (key inc v <= key inc w)%Z <-> in_order inc v w.
Proof. unfold key, in_order. destruct inc; lia. Qed.
Lemma heap_sort_ok inc l : exists l', heap_sort inc l = Some l' /\ l' ≡ₚ l /\ ordered inc l'.
Proof.
  unfold heap_sort. destruct (init_heap_ok inc l) as (l0 & -> & P0 & H0). assert (length l0 = length l) as HL0 by (by rewrite P0).
  rewrite HL0. set (n := length l) in *.
  destruct (for_each_ind (fun i l1 => let e := length l1 - 1 - i in
        match swap_at 0 e l1 with Some l' => heap_adjust (S (length l1)) inc e 0 l' | None => None end)
     (fun i l1 => l1 ≡ₚ l /\ (forall p, heap_at inc (n - i) l1 p) /\
       forall p q v w, p < q -> n - i <= q -> l1 !! p = Some v -> l1 !! q = Some w -> in_order inc v w) 0 (n - 1) l0) as (l' & E & H1 & H2 & H3).
  - split; [done|]. rewrite Nat.sub_0_r. split; [done|]. intros p q v w _ Hq _ Hw. apply lookup_lt_Some in Hw. lia.
  - intros i l1 Hi (P1 & HH & HO). assert (length l1 = n) as HL by (by rewrite P1). rewrite HL. set (e := n - 1 - i).
    destruct (swap_at_ok 0 e l1) as (a & b & Ha & Hb & E); [lia|lia|]. cbn zeta. rewrite E. set (l2 := <[e := a]> (<[0 := b]> l1)) in *.
    assert (l2 ≡ₚ l1) as P2 by (by apply swap_perm).
    assert (forall k, l2 !! k = if decide (k = e) then Some a else if decide (k = 0) then Some b else l1 !! k) as HK.
    { intros k. unfold l2. destruct (decide (k = e)) as [->|]; [rewrite list_lookup_insert by (rewrite insert_length; lia); done|].
      rewrite list_lookup_insert_ne by done. destruct (decide (k = 0)) as [->|]; [by rewrite list_lookup_insert by lia|].
      by rewrite list_lookup_insert_ne. }
    assert (forall k v, k < n - i -> l1 !! k = Some v -> (key inc v <= key inc a)%Z) as Hroot.
    { apply heap_root; auto. lia. }
    destruct (heap_adjust_ok inc e 0 (S n) 0 l2) as (l3 & E3 & P3 & HH3 & K3); try lia.
    + rewrite P2. lia.
    + intros p _ Hp c v w Hc Hcm. rewrite !HK. rewrite (decide_False (P := p = 0)) by done.
      rewrite (decide_False (P := p = e)) by lia. rewrite !decide_False by lia. intros Hv Hw. eapply (HH p c); eauto. lia.
    + exists l3. split; [done|]. split; [by rewrite P3, P2|]. replace (n - (i + 1)) with e by lia. split; [intros p; apply HH3; lia|].
      intros p q v w Hpq Hq Hv Hw. rewrite K3 in Hw by done.
      (* where v stood before *)
      assert (length l3 = n) as HL3 by (by rewrite P3, P2).
      assert (exists k, l1 !! k = Some v /\ (p < e -> k <= e) /\ (e <= p -> l2 !! p = Some v)) as (k & Hk & Hkp & Hke).
      { destruct (decide (p < e)) as [Hpe|].
        - assert (v ∈ take e l3) as Hin by (eapply elem_of_list_lookup_2; by rewrite lookup_take).
          assert (take e l3 ≡ₚ take e l2) as HT.
          { assert (drop e l3 = drop e l2) as HD by (apply list_eq; intros k; rewrite !lookup_drop; apply K3; lia).
            apply (Permutation_app_inv_r (drop e l3)). rewrite take_drop, HD, take_drop. done. }
          rewrite HT in Hin. apply elem_of_list_lookup in Hin as (k & Hk). apply lookup_take_Some in Hk as [Hk1 Hk2].
          rewrite HK in Hk1. rewrite decide_False in Hk1 by lia. destruct (decide (k = 0)) as [->|].
          + exists e. split; [congruence|]. split; lia.
          + exists k. split; [done|]. split; lia.
        - rewrite K3 in Hv by lia. rewrite HK in Hv. destruct (decide (p = e)) as [->|].
          + exists 0. split; [congruence|]. split; [lia|]. intros _. rewrite HK, decide_True; [|done]. done.
          + rewrite decide_False in Hv by lia. exists p. split; [done|]. split; [lia|]. intros _. rewrite HK, !decide_False by lia. done. }
      rewrite HK in Hw. destruct (decide (q = e)) as [->|].
      * injection Hw as <-. apply key_order. apply (Hroot k); [lia|done].
      * rewrite decide_False in Hw by lia. destruct (decide (p < e)).
        -- apply (HO k q); auto; lia.
        -- specialize (Hke ltac:(lia)). rewrite HK in Hke. destruct (decide (p = e)) as [->|].
           ++ injection Hke as <-. apply (HO 0 q); auto; lia.
           ++ rewrite decide_False in Hke by lia. apply (HO p q); auto; lia.
  - exists l'. split; [done|]. split; [done|]. intros i j v w Hij Hv Hw. apply (H3 i j); auto.
    apply lookup_lt_Some in Hw as Hl. rewrite (Permutation_length H1) in Hl. fold n in Hl. lia.
Qed.

(* top k *)
(* SPEC: the values kept are k of those fed, or all if fewer, and none of the others is
   better *)
Definition best_of (k : nat) (big : bool) (vs kept : list Z) : Prop :=
  exists others, vs ≡ₚ kept ++ others /\ length kept = k `min` length vs /\
    forall v w, v ∈ kept -> w ∈ others -> if big then (w <= v)%Z else (v <= w)%Z.

Lemma top_k_ok k big vs : 0 < k -> exists kept, top_k k big vs = Some kept /\ best_of k big vs kept.
Proof.
  intros Hk. cut (exists kept, top_k k big vs = Some kept /\ best_of k big vs kept /\ (length kept = k -> forall p, heap_at (negb big) k kept p)); [naive_solver|].
  unfold top_k. induction vs as [|v vs IH] using rev_ind.
  - exists []. split; [done|]. split; [|cbn; lia]. exists []. split; [done|]. split; [cbn; lia|]. intros v w Hv. by apply elem_of_nil in Hv.
  - destruct IH as (kept & E & (others & HP & HL & HB) & HH).
    assert (forall xs s, for_each (top_traverse k big) (xs ++ [v]) s = match for_each (top_traverse k big) xs s with Some s' => top_traverse k big v s' | None => None end) as HA.
    { clear. induction xs as [|x xs IH]; intros s; cbn.
      - by destruct (top_traverse k big v s).
      - destruct (top_traverse k big x s); auto. }
    rewrite HA, E. clear HA E. unfold top_traverse. destruct (Nat.ltb_spec (length kept) k) as [Hlt|Hge].
    + assert (others = []) as ->.
      { apply nil_length_inv. apply Permutation_length in HP. rewrite app_length in HP. lia. }
      rewrite app_nil_r in HP. assert (forall l', l' ≡ₚ kept ++ [v] -> best_of k big (vs ++ [v]) l') as HX.
      { intros l' Hl'. exists []. rewrite app_nil_r, Hl', HP. split; [done|]. rewrite !app_length. cbn.
        apply Permutation_length in HP. split; [|by intros ? ? _ ?%elem_of_nil]. 
        rewrite ?Hl', ?app_length. cbn. lia. }
      rewrite app_length. cbn [length]. destruct (Nat.eqb_spec (length kept + 1) k) as [He|Hne].
      * destruct (init_heap_ok (negb big) (kept ++ [v])) as (l' & -> & P' & H'). exists l'. split; [done|]. split; [auto|].
        intros _. rewrite app_length in H'. cbn [length] in H'. by rewrite He in H'.
      * eexists. split; [done|]. split; [by apply HX|]. rewrite app_length. cbn. lia.
    + assert (length kept = k) as HLk by lia. destruct kept as [|x kept]; [cbn in *; lia|]. cbn [lookup list_lookup].
      assert (forall y, y ∈ x :: kept -> if big then (x <= y)%Z else (y <= x)%Z) as Hroot.
      { intros y (i & Hi)%elem_of_list_lookup. apply lookup_lt_Some in Hi as Hl.
        pose proof (heap_root (negb big) k (x :: kept) x (HH HLk) ltac:(lia) eq_refl i y ltac:(lia) Hi) as Hr. unfold key in Hr.
        destruct big; cbn in Hr; lia. }
      destruct (above big v x) eqn:EA; [apply above_key in EA|apply above_key_false in EA].
      * cbn [insert list_insert]. destruct (heap_adjust_ok (negb big) k 0 (S k) 0 (v :: kept)) as (l' & -> & P' & H' & _); try (cbn in *; lia).
        -- intros p _ Hp c y z Hc Hcm Hy Hz. destruct p as [|p]; [lia|]. destruct c as [|c]; [lia|]. cbn in Hy, Hz.
           apply (HH HLk (S p) (S c) y z); auto.
        -- exists l'. split; [done|]. split.
           ++ exists (x :: others). rewrite P', HP. split; [|split].
              ** cbn. rewrite <-(Permutation_middle kept others x). rewrite Permutation_app_comm. cbn. constructor.
              ** apply Permutation_length in HP. rewrite !app_length in *. cbn in *. lia.
              ** intros y z Hy Hz. rewrite P' in Hy. unfold key in EA.
                 assert (if big then (z <= x)%Z else (x <= z)%Z) as Hzx.
                 { apply elem_of_cons in Hz as [->|Hz]; [destruct big; lia|]. apply HB; [left|done]. }
                 assert (if big then (x <= y)%Z else (y <= x)%Z) as Hxy.
                 { apply elem_of_cons in Hy as [->|Hy]; [destruct big; lia|]. apply Hroot. by right. }
                 destruct big; lia.
           ++ intros _ p. apply H'. lia.
      * exists (x :: kept). split; [done|]. split; [|auto]. exists (others ++ [v]). rewrite HP. split; [by rewrite app_assoc|]. split.
        -- apply Permutation_length in HP. rewrite !app_length in *. cbn in *. lia.
        -- intros y z Hy [Hz| ->%elem_of_list_singleton]%elem_of_app; [by apply HB|]. specialize (Hroot y Hy). unfold key in EA. destruct big; lia.
Qed.

Lemma index_sort_fails : exists l ix d, index_sort true l = Some (ix, d) /\ ~ ordered true d.
Proof.
  exists [3; 2; 1]%Z, [1; 0; 2], [2; 3; 1]%Z. split; [done|]. intros H. specialize (H 1 2 3%Z 1%Z ltac:(lia) eq_refl eq_refl). cbn in H. lia.
Qed.
