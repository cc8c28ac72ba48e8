(* Boundary stacks and counting bounds for any pixel graph. *)
From stdpp Require Import sorting relations functions list.
From Coq Require Import NArith ZArith.
From Verif Require Import Spec FloodAbs FloodAbsInv FloodAbsProof FloodModel LinkedModel.
Local Open Scope nat_scope.

Section heap.
Context (f : nat -> nat) (cap base : nat -> nat).
Context (Hbase : forall g, base (S g) = base g + cap g + 1).

(* the boundary stacks of the code hold the stacks of the abstract machine *)
Definition heapL (heap : list (option nat)) (hs : list nat) (ah : nat -> list nat) : Prop :=
  length hs = 257 /\ length heap = base 256 + 1 /\
  forall g, g <= 256 ->
    hs !! g = Some (base g + length (ah g)) /\
    heap !! base g = Some None /\
    forall i x, rev (ah g) !! i = Some x -> heap !! (base g + 1 + i) = Some (Some (f x)).

Lemma lbase_mono g g' : g < g' -> base g + cap g < base g'.
Proof using Hbase.
  intros H. induction g' as [|g' IH]; [lia|]. rewrite Hbase.
  destruct (decide (g = g')) as [->|]; [lia|]. pose proof (IH ltac:(lia)). lia.
Qed.
Lemma lbase_disj g g' i j : i <= cap g -> j <= cap g' -> base g + i = base g' + j -> g = g'.
Proof using Hbase.
  intros Hi Hj He. destruct (lt_eq_lt_dec g g') as [[H|H]|H]; auto; exfalso.
  - apply lbase_mono in H. lia.
  - apply lbase_mono in H. lia.
Qed.

Lemma ltop_spec heap hs ah g : heapL heap hs ah -> g <= 256 ->
  heap_top heap hs g = Some (match ah g with [] => None | p :: _ => Some (f p) end).
Proof.
  intros (_ & _ & H) Hg. destruct (H g Hg) as (H1 & H2 & H3). unfold heap_top. rewrite H1.
  destruct (ah g) as [|p l] eqn:E; simpl.
  - by rewrite Nat.add_0_r.
  - replace (base g + S (length l)) with (base g + 1 + length l) by lia.
    apply H3. simpl. rewrite lookup_app_r by (rewrite rev_length; lia).
    rewrite rev_length. by rewrite Nat.sub_diag.
Qed.

Lemma lpush_spec heap hs ah g p :
  heapL heap hs ah -> g <= 255 -> (forall g', length (ah g') <= cap g') -> S (length (ah g)) <= cap g ->
  exists heap' hs', heap_push heap hs g (f p) = Some (heap', hs') /\
    heapL heap' hs' (<[g := p :: ah g]> ah).
Proof using Hbase.
  intros (HH1 & HH2 & H) Hg Hc Hcg. destruct (H g ltac:(lia)) as (H1 & H2 & H3). unfold heap_push. rewrite H1.
  assert (S (base g + length (ah g)) < length heap) as Hlt.
  { rewrite HH2. pose proof (lbase_mono g 256). lia. }
  unfold store. destruct (Nat.ltb_spec (S (base g + length (ah g))) (length heap)) as [_|]; [|lia].
  eexists _, _. split; [done|]. split; [by rewrite insert_length|]. split; [by rewrite insert_length|].
  intros g' Hg'. destruct (H g' Hg') as (K1 & K2 & K3). destruct (decide (g = g')) as [<-|Hne].
  - rewrite fn_lookup_insert. rewrite list_lookup_insert by lia. split; [f_equal; simpl; lia|]. split.
    + rewrite list_lookup_insert_ne by lia. auto.
    + intros i x Hx. simpl in Hx. apply lookup_app_Some in Hx as [Hx|[Hx1 Hx2]].
      * pose proof (lookup_lt_Some _ _ _ Hx). rewrite rev_length in *.
        rewrite list_lookup_insert_ne by lia. auto.
      * rewrite rev_length in *. apply list_lookup_singleton_Some in Hx2 as [Hx2 <-].
        replace (base g + 1 + i) with (S (base g + length (ah g))) by lia.
        by rewrite list_lookup_insert.
  - rewrite fn_lookup_insert_ne by auto. rewrite list_lookup_insert_ne by auto. split; auto. split.
    + rewrite list_lookup_insert_ne; auto. intros He. apply Hne.
      apply (lbase_disj g g' (S (length (ah g))) 0); lia.
    + intros i x Hx. pose proof (lookup_lt_Some _ _ _ Hx). rewrite rev_length in *.
      rewrite list_lookup_insert_ne; auto. intros He. apply Hne.
      pose proof (Hc g').
      apply (lbase_disj g g' (S (length (ah g))) (1 + i)); lia.
Qed.

Lemma lpop_spec heap hs ah g p l :
  heapL heap hs ah -> g <= 256 -> ah g = p :: l ->
  exists hs', heap_pop hs g = Some hs' /\ heapL heap hs' (<[g := l]> ah).
Proof.
  intros (HH1 & HH2 & H) Hg He. destruct (H g Hg) as (H1 & H2 & H3). unfold heap_pop. rewrite H1, He.
  simpl. rewrite <-plus_n_Sm. eexists. split; [done|].
  split; [by rewrite insert_length|]. split; [done|].
  intros g' Hg'. destruct (H g' Hg') as (K1 & K2 & K3). destruct (decide (g = g')) as [<-|Hne].
  - rewrite fn_lookup_insert. rewrite list_lookup_insert by lia. split; auto. split; auto.
    intros i x Hx. apply K3. rewrite He. simpl. by apply lookup_app_l_Some.
  - rewrite fn_lookup_insert_ne by auto. rewrite list_lookup_insert_ne by auto. auto.
Qed.

Lemma lfind_spec heap hs ah g n : heapL heap hs ah -> g + n <= 257 ->
  lfind heap hs g g n = Some ((fun x => (x, x)) <$> find_level ah g n).
Proof.
  intros H. revert g. induction n as [|n IH]; intros g Hg; simpl; auto.
  rewrite (ltop_spec heap hs ah) by (auto; lia).
  destruct (ah g); auto. apply IH. lia.
Qed.
End heap.

Section count.
Context (G : pgraph).

Lemma lheap_cap (cap : nat -> nat) px cur d heap g :
  (forall g, length (filter (fun p => g_gray G p = g) (g_nodes G)) <= cap g) ->
  InvA G px cur d heap -> length (heap g) <= cap g.
Proof.
  intros Hcap HA. etrans; [|apply Hcap]. apply submseteq_length, NoDup_submseteq.
  { apply (i_hnd _ _ _ _ _ HA). }
  intros p Hp. destruct (i_heap _ _ _ _ _ HA g p Hp) as (Hg & _ & (d0 & Hd & _)).
  apply elem_of_list_filter. split; auto. apply (i_dom _ _ _ _ _ HA). congruence.
Qed.

Lemma lcomps_bound s : gray_bound G -> Inv G s -> length (a_comps s) <= 256.
Proof.
  intros Hgb [HA HB HC]. rewrite <-(seq_length 256 0).
  rewrite <-(map_length cg). apply submseteq_length, NoDup_submseteq.
  - pose proof (i_sorted _ _ _ _ _ HB) as Hs. clear - Hs. induction Hs as [|x l Hs IH HF]; constructor; auto.
    intros Hin. rewrite Forall_forall in HF. apply HF in Hin. lia.
  - intros g Hg. apply elem_of_list_fmap in Hg as (c & -> & Hc). apply elem_of_seq.
    destruct HC as (c0 & rest & He & Hcg & Hb). rewrite He in Hc. apply elem_of_cons in Hc as [->|Hc].
    + rewrite Hcg. assert (g_gray G (a_cur s) <= 255); [|lia]. apply Hgb. apply (i_cur _ _ _ _ _ HA).
    + pose proof (Hb c Hc) as Hne. destruct (a_heap s (cg c)) as [|p l] eqn:E; [done|].
      destruct (i_heap _ _ _ _ _ HA (cg c) p) as (Hg & _ & (d0 & Hd & _)).
      { rewrite E. apply elem_of_cons; auto. }
      rewrite <-Hg. assert (g_gray G p <= 255); [|lia]. apply Hgb. apply (i_dom _ _ _ _ _ HA). congruence.
Qed.

Definition lowner (s : ast) (p r : nat) : Prop :=
  a_px s p = PD r \/ exists c d, c ∈ a_comps s /\ cr c = r /\ a_px s p = PW d /\ g_gray G p = cg c.

Lemma lowner_fun s p r r' : Inv G s -> lowner s p r -> lowner s p r' -> r = r'.
Proof.
  intros [HA HB HC] [H|(c & d & Hc & <- & Hd & Hg)] [H'|(c' & d' & Hc' & <- & Hd' & Hg')]; try congruence.
  f_equal. pose proof (i_sorted _ _ _ _ _ HB) as Hs.
  apply elem_of_list_lookup in Hc as [i Hi]. apply elem_of_list_lookup in Hc' as [j Hj].
  destruct (lt_eq_lt_dec i j) as [[H|H]|H].
  - exfalso. assert (cg c < cg c'); [|lia].
    eapply (elem_of_StronglySorted_app lt (take (S i) (map cg (a_comps s))) (drop (S i) (map cg (a_comps s)))).
    + by rewrite take_drop.
    + eapply elem_of_list_lookup. exists i. rewrite lookup_take by lia. rewrite list_lookup_fmap, Hi. done.
    + eapply elem_of_list_lookup. exists (j - S i). rewrite lookup_drop. replace (S i + (j - S i)) with j by lia.
      rewrite list_lookup_fmap, Hj. done.
  - subst. congruence.
  - exfalso. assert (cg c' < cg c); [|lia].
    eapply (elem_of_StronglySorted_app lt (take (S j) (map cg (a_comps s))) (drop (S j) (map cg (a_comps s)))).
    + by rewrite take_drop.
    + eapply elem_of_list_lookup. exists j. rewrite lookup_take by lia. rewrite list_lookup_fmap, Hj. done.
    + eapply elem_of_list_lookup. exists (i - S j). rewrite lookup_drop. replace (S j + (i - S j)) with i by lia.
      rewrite list_lookup_fmap, Hi. done.
Qed.

Lemma lowner_exists s r : Inv G s -> r < length (a_regs s) -> exists p, p ∈ g_nodes G /\ lowner s p r.
Proof.
  intros [HA HB HC] Hr. destruct (lookup_lt_is_Some_2 _ _ Hr) as [a Ha].
  destruct (decide (r ∈ map cr (a_comps s))) as [Hin|Hni].
  - apply elem_of_list_fmap in Hin as (c & -> & Hc).
    destruct HC as (c0 & rest & He & Hcg & Hb). pose proof Hc as Hc'. rewrite He in Hc. apply elem_of_cons in Hc as [->|Hc].
    + destruct (i_cur _ _ _ _ _ HA) as (Hcn & (d0 & Hd0) & _). exists (a_cur s). split; auto.
      right. exists c0, d0. auto.
    + pose proof (Hb c Hc) as Hne. destruct (a_heap s (cg c)) as [|p l] eqn:E; [done|].
      destruct (i_heap _ _ _ _ _ HA (cg c) p) as (Hg & _ & (d0 & Hd & _)).
      { rewrite E. apply elem_of_cons; auto. }
      exists p. split; [apply (i_dom _ _ _ _ _ HA); congruence|]. right. exists c, d0. auto.
  - destruct (i_closed _ _ _ _ _ HB r a Ha Hni) as [[(p & Hp) _ _] _]. exists p.
    split; [apply (i_dom _ _ _ _ _ HA); congruence|]. by left.
Qed.

Lemma lregs_bound s : Inv G s -> length (a_regs s) <= length (g_nodes G).
Proof.
  intros HI.
  assert (forall n, n <= length (a_regs s) -> exists l, length l = n /\
    forall i p, l !! i = Some p -> p ∈ g_nodes G /\ lowner s p i) as Hl.
  { induction n as [|n IH]; intros Hn.
    - exists []. split; auto. intros i p H. done.
    - destruct IH as (l & Hlen & Hown); [lia|].
      destruct (lowner_exists s n HI) as (p & Hp & Ho); [lia|].
      exists (l ++ [p]). rewrite app_length. split; [simpl; lia|].
      intros i q Hq. apply lookup_app_Some in Hq as [Hq|[Hi Hq]]; auto.
      apply list_lookup_singleton_Some in Hq as [Hi' <-].
      replace i with n by lia. auto. }
  destruct (Hl _ (le_n _)) as (l & Hlen & Hown). rewrite <-Hlen.
  apply submseteq_length, NoDup_submseteq.
  - apply NoDup_alt. intros i j p Hi Hj. apply Hown in Hi as [_ Hi], Hj as [_ Hj].
    by eapply lowner_fun.
  - intros p Hp. apply elem_of_list_lookup in Hp as [i Hi]. apply Hown in Hi as [? _]. auto.
Qed.
End count.
