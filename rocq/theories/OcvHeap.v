(* Boundary stacks of the OpenCV3-style extraction: 256 stacks in one array. *)
From stdpp Require Import sorting relations functions list.
From Coq Require Import NArith ZArith.
From Verif Require Import Spec FloodAbs FloodAbsInv FloodAbsProof FloodModel LinkedHeap OcvModel.
Local Open Scope nat_scope.

Section heap.
Context (cap base : nat -> nat).
Context (Hbase : forall g, base (S g) = base g + cap g + 1).

(* the stacks of the code hold the stacks of the abstract machine *)
Definition heapO (heap : list (option nat)) (hs : list nat) (ah : nat -> list nat) : Prop :=
  length hs = 256 /\ base 255 + cap 255 < length heap /\
  forall g, g <= 255 ->
    hs !! g = Some (base g + length (ah g)) /\
    heap !! base g = Some None /\
    forall i x, rev (ah g) !! i = Some x -> heap !! (base g + 1 + i) = Some (Some x).

Lemma otop_spec heap hs ah g : heapO heap hs ah -> g <= 255 ->
  heap_top heap hs g = Some (match ah g with [] => None | p :: _ => Some p end).
Proof.
  intros (_ & _ & H) Hg. destruct (H g Hg) as (H1 & H2 & H3). unfold heap_top. rewrite H1.
  destruct (ah g) as [|p l] eqn:E; simpl.
  - by rewrite Nat.add_0_r.
  - replace (base g + S (length l)) with (base g + 1 + length l) by lia.
    apply H3. simpl. rewrite lookup_app_r by (rewrite rev_length; lia).
    rewrite rev_length. by rewrite Nat.sub_diag.
Qed.

Lemma opush_spec heap hs ah g p :
  heapO heap hs ah -> g <= 255 -> (forall g', length (ah g') <= cap g') -> S (length (ah g)) <= cap g ->
  exists heap' hs', heap_push heap hs g p = Some (heap', hs') /\ length heap' = length heap /\
    heapO heap' hs' (<[g := p :: ah g]> ah).
Proof using Hbase.
  intros (HH1 & HH2 & H) Hg Hc Hcg. destruct (H g ltac:(lia)) as (H1 & H2 & H3). unfold heap_push. rewrite H1.
  assert (S (base g + length (ah g)) < length heap) as Hlt.
  { destruct (decide (g = 255)) as [->|]; [lia|]. pose proof (lbase_mono cap base Hbase g 255). lia. }
  unfold store. destruct (Nat.ltb_spec (S (base g + length (ah g))) (length heap)) as [_|]; [|lia].
  eexists _, _. split; [done|]. rewrite insert_length. split; [done|]. split; [by rewrite insert_length|]. split; [by rewrite insert_length|].
  intros g' Hg'. destruct (H g' Hg') as (K1 & K2 & K3). destruct (decide (g = g')) as [<-|Hne].
  - rewrite fn_lookup_insert. rewrite list_lookup_insert by lia. split; [f_equal; simpl; lia|]. split.
    + rewrite list_lookup_insert_ne by lia. auto.
    + intros i x Hx. simpl in Hx. apply lookup_app_Some in Hx as [Hx|[Hx1 Hx2]].
      * pose proof (lookup_lt_Some _ _ _ Hx). rewrite rev_length in *.
        rewrite list_lookup_insert_ne by lia. auto.
      * rewrite rev_length in *. apply list_lookup_singleton_Some in Hx2 as [Hx2 <-].
        replace (base g + 1 + i) with (S (base g + length (ah g))) by lia.
        by rewrite list_lookup_insert.
  - rewrite fn_lookup_insert_ne by auto. rewrite list_lookup_insert_ne by auto. split; auto. split.
    + rewrite list_lookup_insert_ne; auto. intros He. apply Hne.
      apply (lbase_disj cap base Hbase g g' (S (length (ah g))) 0); lia.
    + intros i x Hx. pose proof (lookup_lt_Some _ _ _ Hx). rewrite rev_length in *.
      rewrite list_lookup_insert_ne; auto. intros He. apply Hne.
      pose proof (Hc g').
      apply (lbase_disj cap base Hbase g g' (S (length (ah g))) (1 + i)); lia.
Qed.

Lemma opop_spec heap hs ah g p l :
  heapO heap hs ah -> g <= 255 -> ah g = p :: l ->
  exists hs', heap_pop hs g = Some hs' /\ heapO heap hs' (<[g := l]> ah).
Proof.
  intros (HH1 & HH2 & H) Hg He. destruct (H g Hg) as (H1 & H2 & H3). unfold heap_pop. rewrite H1, He.
  simpl. rewrite <-plus_n_Sm. eexists. split; [done|].
  split; [by rewrite insert_length|]. split; [done|].
  intros g' Hg'. destruct (H g' Hg') as (K1 & K2 & K3). destruct (decide (g = g')) as [<-|Hne].
  - rewrite fn_lookup_insert. rewrite list_lookup_insert by lia. split; auto. split; auto.
    intros i x Hx. apply K3. rewrite He. simpl. by apply lookup_app_l_Some.
  - rewrite fn_lookup_insert_ne by auto. rewrite list_lookup_insert_ne by auto. auto.
Qed.

Lemma ofind_spec heap hs ah g n : heapO heap hs ah -> g + n <= 256 ->
  ofind heap hs g n = Some (find_level ah g n).
Proof.
  intros H. revert g. induction n as [|n IH]; intros g Hg; simpl; auto.
  rewrite (otop_spec heap hs ah) by (auto; lia).
  destruct (ah g); auto. apply IH. lia.
Qed.
Lemma find_level_snoc ah g n : ah (g + n) = [] -> find_level ah g (S n) = find_level ah g n.
Proof.
  revert g. induction n as [|n IH]; intros g Hg.
  - cbn. rewrite Nat.add_0_r in Hg. by rewrite Hg.
  - change (match ah g with [] => find_level ah (S g) (S n) | _ => Some g end =
            match ah g with [] => find_level ah (S g) n | _ => Some g end). destruct (ah g); [|done]. rewrite IH; [done|]. by replace (S g + n) with (g + S n) by lia.
Qed.
End heap.
