(* Forests of numbered records whose parents come later, the pixels of a record in the
   order in which extraction stores them, and where extraction puts them. *)
From stdpp Require Import sorting relations functions list_numbers list.
Local Open Scope nat_scope.

Lemma NoDup_bind {X Y} (f : X -> list Y) l :
  (forall x1 x2 y, x1 ∈ l -> x2 ∈ l -> y ∈ f x1 -> y ∈ f x2 -> x1 = x2) ->
  (forall x, x ∈ l -> NoDup (f x)) -> NoDup l -> NoDup (l ≫= f).
Proof.
  intros H1 H2. induction 1 as [|x l Hx Hl IH]; cbn; [apply NoDup_nil_2|]. apply NoDup_app. split; [apply H2; left|]. split.
  - intros y Hy Hy'. apply elem_of_list_bind in Hy' as (x' & Hy' & Hx'). apply Hx.
    rewrite (H1 x x' y); auto; [left|by right].
  - apply IH; [|intros y Hy; apply H2; by right]. intros x1 x2 y ? ? ? ?. eapply H1; eauto; by right.
Qed.

Section forest.
Context (n : nat) (vp : nat -> option nat) (Hvp : forall i j, vp i = Some j -> i < j /\ j < n).

(* the children of j among the first i records, all children of j *)
Definition procs (i j : nat) : list nat := filter (fun c => vp c = Some j) (seq 0 i).
Definition chl (j : nat) : list nat := procs j j.

Lemma elem_procs i j c : c ∈ procs i j <-> vp c = Some j /\ c < i.
Proof. unfold procs. rewrite elem_of_list_filter, elem_of_seq. intuition lia. Qed.
Lemma elem_chl j c : c ∈ chl j <-> vp c = Some j.
Proof. unfold chl. rewrite elem_procs. split; [tauto|]. intros H. split; auto. by apply Hvp. Qed.
Lemma procs_NoDup i j : NoDup (procs i j).
Proof. apply NoDup_filter, NoDup_seq. Qed.
Lemma procs_S i j : procs (S i) j = procs i j ++ (if decide (vp i = Some j) then [i] else []).
Proof. unfold procs. rewrite seq_S, filter_app. cbn. by destruct (decide _). Qed.
Lemma procs_later i j : j <= i -> procs i j = chl j.
Proof.
  induction 1 as [|i Hle IH]; [done|]. rewrite procs_S, IH. destruct (decide _) as [E|]; [|by rewrite app_nil_r].
  apply Hvp in E. lia.
Qed.

Lemma fdec (Q : nat -> Prop) : (forall j, (forall i, i < j -> Q i) -> Q j) -> forall j, Q j.
Proof. intros H j. induction j as [j IH] using lt_wf_ind. auto. Qed.

(* ---------- depth first lists ---------- *)
Section pts.
Context {A : Type} (own : nat -> nat -> list A).
Definition rest (j : nat) : list A := own 1 j ++ own 2 j ++ own 3 j.
Fixpoint ptsF (f j : nat) : list A :=
  match f with
  | O => []
  | S f' => own 0 j ++ (chl j ≫= ptsF f') ++ rest j
  end.
Definition pts (j : nat) : list A := ptsF (S j) j.

Lemma bind_ext_in {X Y} (f g : X -> list Y) l : (forall x, x ∈ l -> f x = g x) -> l ≫= f = l ≫= g.
Proof.
  induction l as [|x l IH]; intros H; [done|]. cbn. rewrite (H x) by left. f_equal. apply IH. intros y Hy. apply H. by right.
Qed.
Lemma ptsF_irr f g j : j < f -> j < g -> ptsF f j = ptsF g j.
Proof.
  revert g j. induction f as [|f IH]; intros [|g] j Hf Hg; try lia. cbn. f_equal. f_equal. apply bind_ext_in.
  intros c Hc. apply elem_chl, Hvp in Hc. apply IH; lia.
Qed.
Lemma pts_eq j : pts j = own 0 j ++ (chl j ≫= pts) ++ rest j.
Proof.
  unfold pts at 1. cbn [ptsF]. f_equal. f_equal. apply bind_ext_in. intros c Hc. apply elem_chl, Hvp in Hc. apply ptsF_irr; lia.
Qed.

Definition reach : nat -> nat -> Prop := rtc (fun i j => vp i = Some j).
Lemma reach_le i j : reach i j -> i <= j.
Proof. induction 1 as [|i k j H _ IH]; [lia|]. apply Hvp in H. lia. Qed.
Lemma reach_lt i j : reach i j -> i < n -> j < n.
Proof. induction 1 as [|i k j H _ IH]; [done|]. intros _. apply IH. by eapply Hvp. Qed.
Lemma reach_r i c j : reach i c -> vp c = Some j -> reach i j.
Proof. intros H E. eapply rtc_r; eauto. Qed.
Lemma reach_inv_r i j : reach i j -> i = j \/ exists c, vp c = Some j /\ reach i c.
Proof. intros H. apply rtc_inv_r in H as [?|(c & ? & ?)]; [auto|]. right. eauto. Qed.
Lemma reach_linear i j k : reach i j -> reach i k -> reach j k \/ reach k j.
Proof.
  induction 1 as [i|i i' j E H1 IH]; intros H2; [auto|].
  apply rtc_inv in H2 as [->|(i2 & E2 & H2)]; [right; eapply rtc_l; eauto; done|].
  assert (i2 = i') as -> by congruence. auto.
Qed.
Lemma child_apart i c d j : vp c = Some j -> vp d = Some j -> reach i c -> reach i d -> c = d.
Proof.
  intros Hc Hd H1 H2. destruct (reach_linear i c d H1 H2) as [H|H].
  - apply rtc_inv in H as [?|(x & E & H)]; [done|]. assert (x = j) as -> by congruence.
    apply reach_le in H. apply Hvp in Hd. lia.
  - apply rtc_inv in H as [?|(x & E & H)]; [done|]. assert (x = j) as -> by congruence.
    apply reach_le in H. apply Hvp in Hc. lia.
Qed.

Lemma elem_own0 j p : p ∈ own 0 j \/ p ∈ rest j <-> exists k, k < 4 /\ p ∈ own k j.
Proof.
  unfold rest. rewrite !elem_of_app. split.
  - intros [H|[H|[H|H]]]; [exists 0|exists 1|exists 2|exists 3]; split; auto; lia.
  - intros ([|[|[|[|k]]]] & Hk & H); auto; lia.
Qed.
Lemma elem_pts j p : p ∈ pts j <-> exists i k, reach i j /\ k < 4 /\ p ∈ own k i.
Proof.
  revert j. apply (fdec (fun j => p ∈ pts j <-> exists i k, reach i j /\ k < 4 /\ p ∈ own k i)). intros j IH.
  rewrite pts_eq, !elem_of_app, elem_of_list_bind. split.
  - intros [H|[(c & H & Hc)|H]].
    + exists j, 0. split; [apply rtc_refl|]. split; [lia|done].
    + apply elem_chl in Hc. pose proof (Hvp _ _ Hc). apply IH in H as (i & k & Hr & H); [|lia].
      exists i, k. split; [by eapply reach_r|done].
    + assert (p ∈ own 0 j \/ p ∈ rest j) as (k & ?)%elem_own0 by auto. exists j, k. split; [apply rtc_refl|done].
  - intros (i & k & Hr & Hk & H). apply reach_inv_r in Hr as [->|(c & Ec & Hr)].
    + assert (p ∈ own 0 j \/ p ∈ rest j) as [?|?] by (apply elem_own0; eauto); auto.
    + right. left. exists c. split; [|by apply elem_chl]. pose proof (Hvp _ _ Ec). apply IH; [lia|eauto].
Qed.

Context (Hown : forall i i' k k' p, k < 4 -> k' < 4 -> p ∈ own k i -> p ∈ own k' i' -> i = i' /\ k = k').
Context (Hnd : forall i k, k < 4 -> NoDup (own k i)).

Lemma rest_NoDup j : NoDup (rest j).
Proof.
  assert (forall k k' p, k < 4 -> k' < 4 -> k <> k' -> p ∈ own k j -> p ∈ own k' j -> False) as HD.
  { intros k k' p ? ? ? H1 H2. by destruct (Hown j j k k' p). }
  unfold rest. apply NoDup_app. split; [apply Hnd; lia|]. split.
  { intros p H1 H2. apply elem_of_app in H2 as [H2|H2]; [apply (HD 1 2 p)|apply (HD 1 3 p)]; auto; lia. }
  apply NoDup_app. split; [apply Hnd; lia|]. split; [|apply Hnd; lia].
  intros p H1 H2. apply (HD 2 3 p); auto; lia.
Qed.

Lemma pts_NoDup j : NoDup (pts j).
Proof.
  revert j. apply (fdec (fun j => NoDup (pts j))). intros j IH. rewrite pts_eq.
  assert (forall p c, c ∈ chl j -> p ∈ pts c -> p ∈ own 0 j \/ p ∈ rest j -> False) as HC.
  { intros p c Hc Hp Hk. apply elem_own0 in Hk as (k & Hk & H).
    apply elem_pts in Hp as (i & k' & Hr & Hk' & H'). destruct (Hown i j k' k p) as [-> _]; auto.
    apply elem_chl, Hvp in Hc. apply reach_le in Hr. lia. }
  apply NoDup_app. split; [apply Hnd; lia|]. split.
  { intros p Hp H. apply elem_of_app in H as [H|H].
    - apply elem_of_list_bind in H as (c & H & Hc). eapply HC; eauto.
    - assert (exists k, 0 < k < 4 /\ p ∈ own k j) as (k & Hk & H').
      { unfold rest in H. rewrite !elem_of_app in H. destruct H as [H|[H|H]]; [exists 1|exists 2|exists 3]; split; auto; lia. }
      destruct (Hown j j 0 k p); auto; lia. }
  apply NoDup_app. split.
  { apply NoDup_bind.
    - intros c d p Hc Hd H1 H2. apply elem_chl in Hc, Hd. apply elem_pts in H1 as (i & k & Hr & Hk & H1).
      apply elem_pts in H2 as (i' & k' & Hr' & Hk' & H2). destruct (Hown i i' k k' p) as [-> _]; auto.
      eapply child_apart; eauto.
    - intros c Hc. apply IH. apply elem_chl in Hc. by apply Hvp.
    - apply procs_NoDup. }
  split; [|apply rest_NoDup]. intros p H Hr. apply elem_of_list_bind in H as (c & H & Hc). eapply HC; eauto.
Qed.
End pts.

(* the records below j *)
Definition nodes (j : nat) : list nat := pts (fun k i => if k =? 0 then [i] else []) j.
Lemma nodes_eq j : nodes j = j :: (chl j ≫= nodes).
Proof. unfold nodes. rewrite pts_eq. cbn. by rewrite app_nil_r. Qed.
Lemma elem_nodes j i : i ∈ nodes j <-> reach i j.
Proof.
  unfold nodes. rewrite elem_pts. split.
  - intros (i' & k & Hr & _ & H). destruct (k =? 0); [|by apply elem_of_nil in H]. by apply elem_of_list_singleton in H as ->.
  - intros H. exists i, 0. split; auto. split; [lia|]. by apply elem_of_list_singleton.
Qed.
Lemma nodes_NoDup j : NoDup (nodes j).
Proof.
  apply pts_NoDup.
  - intros i i' k k' p _ _ H H'. destruct (Nat.eqb_spec k 0); [|by apply elem_of_nil in H].
    destruct (Nat.eqb_spec k' 0); [|by apply elem_of_nil in H'].
    apply elem_of_list_singleton in H, H'. by subst.
  - intros i k _. destruct (k =? 0); [apply NoDup_singleton|apply NoDup_nil_2].
Qed.
Lemma nodes_len j : j < n -> length (nodes j) <= n.
Proof.
  intros Hj. rewrite <-(seq_length n 0). apply submseteq_length, NoDup_submseteq; [apply nodes_NoDup|].
  intros i Hi. apply elem_nodes in Hi. apply elem_of_seq. apply reach_le in Hi. lia.
Qed.

(* ---------- the layout ---------- *)
Section layout.
Context {A : Type} (own : nat -> nat -> list A) (sh : nat -> bool).
Notation pts := (pts own).
Definition nk (k j : nat) : nat := length (own k j).
Definition kpx (j : nat) : nat := length (chl j ≫= pts).
Definition kn (j : nat) : nat := (2 + length (chl j)) / 2.
Definition blk (j : nat) : nat := 4 + (if sh j then nk 0 j + kpx j else kn j + nk 0 j).
Fixpoint sumto (f : nat -> nat) (i : nat) : nat := match i with O => 0 | S i' => sumto f i' + f i' end.
Definition hp (i : nat) : nat := sumto blk i.
Definition cum (k i : nat) : nat := sumto (nk k) i.

Lemma pts_len j : length (pts j) = nk 0 j + kpx j + nk 1 j + nk 2 j + nk 3 j.
Proof. rewrite pts_eq, !app_length. unfold rest, nk, kpx. rewrite !app_length. lia. Qed.
Lemma sumto_mono f i j : i < j -> sumto f i + f i <= sumto f j.
Proof. induction 1 as [|j H IH]; cbn; lia. Qed.
Lemma sumto_le f i j : i <= j -> sumto f i <= sumto f j.
Proof. induction 1 as [|j H IH]; cbn; lia. Qed.

Inductive slot := Hd | Ch | Bk (k : nat).
Global Instance slot_dec : EqDecision slot.
Proof. solve_decision. Defined.
Definition okslot (s : slot) : Prop := match s with Bk k => k < 4 | _ => True end.

Definition total : nat := hp n + cum 1 n + cum 2 n + cum 3 n.
Definition bpos (k i : nat) : nat :=
  match k with
  | O => hp i + 4 + (if sh i then 0 else kn i)
  | 1 => hp n + cum 1 i
  | 2 => hp n + cum 1 n + cum 2 i
  | _ => hp n + cum 1 n + cum 2 n + cum 3 i
  end.
Definition pos (i : nat) (s : slot) : nat :=
  match s with Hd => hp i | Ch => hp i + 4 | Bk k => bpos k i end.
Definition len (i : nat) (s : slot) : nat :=
  match s with
  | Hd => 4
  | Ch => if sh i then 0 else kn i
  | Bk k => nk k i + (if k =? 0 then if sh i then kpx i else 0 else 0)
  end.

Lemma bpos_hi k i : 0 < k < 4 -> i < n -> hp n + cum 1 n * (if 1 <? k then 1 else 0) + cum 2 n * (if 2 <? k then 1 else 0) <= bpos k i /\
  bpos k i + nk k i <= hp n + cum 1 n + cum 2 n * (if 1 <? k then 1 else 0) + cum 3 n * (if 2 <? k then 1 else 0).
Proof.
  intros Hk Hi. pose proof (sumto_mono (nk k) i n Hi) as HM. fold (cum k i) (cum k n) in HM.
  destruct k as [|[|[|[|k]]]]; try lia; unfold bpos; cbn [Nat.ltb Nat.leb]; lia.
Qed.
Lemma seg_low i s : i < n -> (s = Hd \/ s = Ch \/ s = Bk 0) -> hp i <= pos i s /\ pos i s + len i s <= hp i + blk i.
Proof.
  intros Hi [->|[->| ->]]; unfold pos, len, blk, bpos; [|destruct (sh i); lia|].
  - destruct (sh i); lia.
  - cbn [Nat.eqb]. destruct (sh i); lia.
Qed.
Lemma seg_in i s : i < n -> okslot s -> pos i s + len i s <= total.
Proof.
  intros Hi Hs. assert (hp i + blk i <= hp n) as HM by (by apply sumto_mono).
  assert (s = Hd \/ s = Ch \/ s = Bk 0 \/ exists k, s = Bk (S k)) as [->|[->|[->|[k ->]]]].
  { destruct s as [| |[|k]]; eauto. }
  - pose proof (seg_low i Hd Hi). unfold total. intuition lia.
  - pose proof (seg_low i Ch Hi). unfold total. intuition lia.
  - pose proof (seg_low i (Bk 0) Hi). unfold total. intuition lia.
  - cbn in Hs. pose proof (bpos_hi (S k) i). unfold pos, len, total.
    destruct k as [|[|[|k]]]; cbn [Nat.eqb Nat.ltb Nat.leb] in *; lia.
Qed.

Lemma seg_apart i j s t : i < n -> j < n -> okslot s -> okslot t -> (i, s) <> (j, t) ->
  pos i s + len i s <= pos j t \/ pos j t + len j t <= pos i s.
Proof.
  intros Hi Hj Hs Ht Hne.
  assert (forall s, (s = Hd \/ s = Ch \/ s = Bk 0) \/ exists k, s = Bk (S k)) as HC by (intros [| |[|k]]; eauto).
  assert (hp i + blk i <= hp n) as HMi by (by apply sumto_mono).
  assert (hp j + blk j <= hp n) as HMj by (by apply sumto_mono).
  destruct (HC s) as [Ls|[k ->]]; destruct (HC t) as [Lt|[k' ->]].
  - destruct (lt_eq_lt_dec i j) as [[Hij|Hij]|Hij].
    + left. pose proof (seg_low i s Hi Ls). pose proof (seg_low j t Hj Lt). pose proof (sumto_mono blk i j Hij). unfold hp in *. lia.
    + subst j. clear -Ls Lt Hne. destruct Ls as [->|[->| ->]]; destruct Lt as [->|[->| ->]]; try done;
        unfold pos, len, bpos; destruct (sh i); lia.
    + right. pose proof (seg_low i s Hi Ls). pose proof (seg_low j t Hj Lt). pose proof (sumto_mono blk j i Hij). unfold hp in *. lia.
  - left. pose proof (seg_low i s Hi Ls). cbn in Ht. destruct (bpos_hi (S k') j ltac:(lia) Hj) as [HB _]. cbn [pos]. lia.
  - right. pose proof (seg_low j t Hj Lt). cbn in Hs. destruct (bpos_hi (S k) i ltac:(lia) Hi) as [HB _]. cbn [pos]. lia.
  - cbn in Hs, Ht. destruct (decide (k = k')) as [->|Hk].
    + assert (i <> j) as Hij by congruence.
      assert (forall a b, a < b -> cum (S k') a + nk (S k') a <= cum (S k') b) as HM by (intros; by apply sumto_mono).
      unfold pos, len. cbn [Nat.eqb]. destruct (decide (i < j)) as [H|H].
      * left. specialize (HM i j H). destruct k' as [|[|[|k']]]; unfold bpos; lia.
      * right. specialize (HM j i ltac:(lia)). destruct k' as [|[|[|k']]]; unfold bpos; lia.
    + destruct (bpos_hi (S k) i ltac:(lia) Hi) as [A1 A2]. destruct (bpos_hi (S k') j ltac:(lia) Hj) as [B1 B2].
      unfold pos, len. cbn [Nat.eqb].
      destruct k as [|[|[|k]]]; destruct k' as [|[|[|k']]]; cbn [Nat.ltb Nat.leb] in *; lia.
Qed.

(* the point places are used up by the parts *)
Lemma seg_cover p : p < total -> exists i s q, i < n /\ okslot s /\ q < len i s /\ p = pos i s + q.
Proof.
  intros Hp.
  assert (forall f m x, x < sumto f m -> exists i, i < m /\ sumto f i <= x < sumto f i + f i) as HS.
  { intros f m x. induction m as [|m IH]; cbn; [lia|]. intros Hx. destruct (decide (x < sumto f m)) as [H|H].
    - destruct (IH H) as (i & ? & ?). exists i. split; [lia|done].
    - exists m. lia. }
  destruct (decide (p < hp n)) as [H|H].
  { destruct (HS blk n p H) as (i & Hi & H1). fold (hp i) in H1.
    destruct (decide (p < hp i + 4)). { exists i, Hd, (p - hp i). cbn. split; auto. split; auto. lia. }
    destruct (decide (p < bpos 0 i)).
    { exists i, Ch, (p - (hp i + 4)). split; auto. split; [done|]. unfold bpos, pos, len in *. destruct (sh i); lia. }
    exists i, (Bk 0), (p - bpos 0 i). split; auto. split; [cbn; lia|].
    unfold pos, len, bpos, blk in *. cbn [Nat.eqb]. destruct (sh i); lia. }
  unfold total in Hp. destruct (decide (p < hp n + cum 1 n)).
  { destruct (HS (nk 1) n (p - hp n)) as (i & Hi & H1); [unfold cum in *; lia|].
    exists i, (Bk 1), (p - bpos 1 i). split; auto. split; [cbn; lia|]. unfold pos, len, bpos, cum. cbn [Nat.eqb]. lia. }
  destruct (decide (p < hp n + cum 1 n + cum 2 n)).
  { destruct (HS (nk 2) n (p - hp n - cum 1 n)) as (i & Hi & H1); [unfold cum in *; lia|].
    exists i, (Bk 2), (p - bpos 2 i). split; auto. split; [cbn; lia|]. unfold pos, len, bpos. cbn [Nat.eqb]. unfold cum in *. lia. }
  destruct (HS (nk 3) n (p - hp n - cum 1 n - cum 2 n)) as (i & Hi & H1); [unfold cum in *; lia|].
  exists i, (Bk 3), (p - bpos 3 i). split; auto. split; [cbn; lia|]. unfold pos, len, bpos. cbn [Nat.eqb]. unfold cum in *. lia.
Qed.
End layout.
End forest.
