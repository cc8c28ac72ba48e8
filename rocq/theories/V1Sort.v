(* The counting sort of the positions of a seam: every position once. *)
From stdpp Require Import sorting relations functions list.
From Coq Require Import NArith ZArith.
From Verif Require Import FloodModel PartModel RecogModel RecogOrder MergeProof V1JoinModel V1Model V1BuildModel.
Local Open Scope nat_scope.

Lemma sweep_inv {S A} (f : S -> A -> option S) (I : list A -> S -> Prop) l s :
  I [] s -> (forall pre x suf t, l = pre ++ x :: suf -> I pre t -> exists t', f t x = Some t' /\ I (pre ++ [x]) t') ->
  exists t, sweep f l s = Some t /\ I l t.
Proof.
  intros H0 Hs. assert (forall suf pre t, l = pre ++ suf -> I pre t -> exists t', sweep f suf t = Some t' /\ I l t') as H.
  { induction suf as [|x suf IH]; intros pre t E HI.
    - rewrite app_nil_r in E. subst pre. exists t. done.
    - destruct (Hs pre x suf t E HI) as (t' & Ht & HI'). cbn [sweep]. rewrite Ht.
      apply (IH (pre ++ [x])); [|done]. by rewrite <-app_assoc. }
  by apply (H l []).
Qed.

Section sort.
Context (key : nat -> nat) (n : nat) (Hk : forall i, i < n -> key i < 256).
Notation ky := (fun i => key i).
Definition at_key (g i : nat) : bool := key i =? g.
Definition buckets : list (list nat) := (fun g => List.filter (at_key g) (seq 0 n)) <$> seq 0 256.
Definition sorted_pos : list nat := concat buckets.

Lemma buckets_lookup g : g < 256 -> buckets !! g = Some (List.filter (at_key g) (seq 0 n)).
Proof. intros Hg. unfold buckets. rewrite list_lookup_fmap, lookup_seq_lt by lia. done. Qed.
Lemma buckets_length : length buckets = 256.
Proof. unfold buckets. by rewrite fmap_length, seq_length. Qed.

Lemma sorted_perm : sorted_pos ≡ₚ seq 0 n.
Proof using Hk.
  unfold sorted_pos, buckets. rewrite <-flat_map_concat_map. apply NoDup_Permutation.
  - apply NoDup_flat_map.
    + apply NoDup_seq.
    + intros g _. apply NoDup_ListNoDup, List.NoDup_filter, NoDup_ListNoDup, NoDup_seq.
    + intros g g' i _ _ H1 H2. apply elem_of_list_In, filter_In in H1 as [_ H1], H2 as [_ H2].
      unfold at_key in *. apply Nat.eqb_eq in H1, H2. congruence.
  - apply NoDup_seq.
  - intros i. rewrite elem_of_list_In, in_flat_map. split.
    + intros (g & _ & H). apply filter_In in H as [H _]. by apply elem_of_list_In.
    + intros Hi. exists (key i). pose proof Hi as Hi'. apply elem_of_seq in Hi'. split.
      * apply elem_of_list_In, elem_of_seq. specialize (Hk i ltac:(lia)). lia.
      * apply filter_In. split; [by apply elem_of_list_In|]. unfold at_key. apply Nat.eqb_refl.
Qed.

Context (k : nat -> option nat) (Hkk : forall i, i < n -> k i = Some (key i)).

Lemma seq_at pre x suf : seq 0 n = pre ++ x :: suf -> x < n.
Proof. intros E. assert (x ∈ seq 0 n) as H by (rewrite E, elem_of_app, elem_of_cons; auto). apply elem_of_seq in H. lia. Qed.

Lemma tally_ok : exists num, sweep (tally k) (seq 0 n) (replicate 256 0) = Some num /\ num = length <$> buckets.
Proof using All.
  destruct (sweep_inv (tally k) (fun pre num => length num = 256 /\ forall g, g < 256 -> num !! g = Some (length (List.filter (at_key g) pre)))
    (seq 0 n) (replicate 256 0)) as (num & E & L & H).
  - split; [apply replicate_length|]. intros g Hg. by apply lookup_replicate.
  - intros pre x suf num Ev [L H]. pose proof (seq_at _ _ _ Ev) as Hx. unfold tally. rewrite Hkk by done.
    pose proof (Hk x Hx) as Hg. rewrite (H _ Hg). eexists. split; [done|]. split; [by rewrite insert_length|].
    intros g Hgg. rewrite List.filter_app, app_length. cbn [List.filter]. destruct (decide (g = key x)) as [->|Hne].
    + rewrite list_lookup_insert by lia. assert (at_key (key x) x = true) as -> by (unfold at_key; apply Nat.eqb_refl).
      cbn. f_equal. lia.
    + rewrite list_lookup_insert_ne by auto.
      assert (at_key g x = false) as ->. { unfold at_key. destruct (Nat.eqb_spec (key x) g); [congruence|done]. }
      rewrite (H g Hgg). cbn. f_equal. lia.
  - exists num. split; [done|]. apply list_eq. intros g. rewrite list_lookup_fmap.
    destruct (decide (g < 256)) as [Hg|Hg].
    + rewrite buckets_lookup, H by done. done.
    + rewrite !lookup_ge_None_2; [done|rewrite buckets_length; lia|lia].
Qed.

Lemma offs_buckets g : g <= 256 -> offs buckets g = sum_list (take g (length <$> buckets)).
Proof.
  induction g as [|g IH]; intros Hg; [done|].
  rewrite (offs_S buckets g (List.filter (at_key g) (seq 0 n))) by (apply buckets_lookup; lia). rewrite IH by lia.
  rewrite (take_S_r (length <$> buckets) g (length (List.filter (at_key g) (seq 0 n)))) by (rewrite list_lookup_fmap, buckets_lookup by lia; done).
  rewrite list_numbers.sum_list_with_app. cbn. lia.
Qed.

Lemma order_ok : seam_order k n = Some (Some <$> sorted_pos).
Proof using All.
  unfold seam_order. destruct tally_ok as (num & -> & ->).
  pose proof (Permutation_length sorted_perm) as Hlen. rewrite seq_length in Hlen.
  destruct (sweep_inv (place k) (fun pre t => length (fst t) = n /\ length (snd t) = 257 /\
      forall g, g < 256 -> snd t !! g = Some (offs buckets g + length (List.filter (at_key g) pre)) /\
        forall j x, List.filter (at_key g) pre !! j = Some x -> fst t !! (offs buckets g + j) = Some (Some x))
    (seq 0 n) (replicate n None, integral 0 (length <$> buckets))) as ([ord st] & -> & P1 & P2 & P3).
  - cbn [fst snd]. split; [apply replicate_length|]. split.
    + assert (forall acc l, length (integral acc l) = S (length l)) as Hil.
      { clear. intros acc l. revert acc. induction l; intros; cbn; auto. }
      rewrite Hil, fmap_length, buckets_length. done.
    + intros g Hg. rewrite integral_lookup by (rewrite fmap_length, buckets_length; lia).
      rewrite offs_buckets by lia. split; [cbn; f_equal; lia|]. intros j x Hj. cbn [List.filter] in Hj. by rewrite lookup_nil in Hj.
  - intros pre x suf [ord st] Ev (P1 & P2 & P3). cbn [fst snd] in *. pose proof (seq_at _ _ _ Ev) as Hx.
    unfold place. cbn [fst snd]. rewrite Hkk by done. pose proof (Hk x Hx) as Hg. destruct (P3 _ Hg) as [-> P3a].
    assert (at_key (key x) x = true) as Hu by (unfold at_key; apply Nat.eqb_refl).
    assert (length (List.filter (at_key (key x)) pre) < length (List.filter (at_key (key x)) (seq 0 n))) as Hlt.
    { rewrite Ev, List.filter_app, app_length. cbn [List.filter]. rewrite Hu. cbn [length]. lia. }
    pose proof (offs_le buckets (key x) _ _ (buckets_lookup _ Hg) Hlt) as Hpos. fold sorted_pos in Hpos.
    destruct (Nat.ltb_spec (offs buckets (key x) + length (List.filter (at_key (key x)) pre)) (length ord)); [|lia].
    eexists. split; [reflexivity|]. cbn [fst snd]. split; [by rewrite insert_length|]. split; [by rewrite insert_length|].
    intros g Hgg. destruct (P3 g Hgg) as [Q1 Q2]. rewrite List.filter_app. cbn [List.filter].
    destruct (decide (g = key x)) as [->|Hne].
    + rewrite Hu, app_length. cbn [length]. split; [rewrite list_lookup_insert by lia; f_equal; lia|].
      intros j y Hj. destruct (decide (j < length (List.filter (at_key (key x)) pre))) as [Hj'|Hj'].
      * rewrite lookup_app_l in Hj by auto. rewrite list_lookup_insert_ne by lia. by apply Q2.
      * rewrite lookup_app_r in Hj by lia. pose proof (lookup_lt_Some _ _ _ Hj) as Hj2. cbn [length] in Hj2.
        replace (j - length (List.filter (at_key (key x)) pre)) with 0 in Hj by lia. injection Hj as <-.
        replace j with (length (List.filter (at_key (key x)) pre)) by lia. apply list_lookup_insert. auto.
    + assert (at_key g x = false) as Hu'. { unfold at_key. destruct (Nat.eqb_spec (key x) g); [congruence|done]. }
      rewrite Hu', app_nil_r. rewrite list_lookup_insert_ne by auto. split; auto. intros j y Hj.
      rewrite list_lookup_insert_ne; [by apply Q2|].
      pose proof (lookup_lt_Some _ _ _ Hj).
      assert (length (List.filter (at_key g) pre) <= length (List.filter (at_key g) (seq 0 n))).
      { rewrite Ev, List.filter_app, app_length. lia. }
      apply (offs_disjoint buckets _ _ _ _ _ _ (buckets_lookup _ Hg) (buckets_lookup _ Hgg)); auto. lia.
  - f_equal. cbn [fst snd] in *. apply list_eq. intros i. rewrite list_lookup_fmap.
    destruct (decide (i < n)) as [Hi|Hi].
    + destruct (concat_index buckets i) as (g & l & j & Hg & Hj & ->). { fold sorted_pos. lia. }
      pose proof (lookup_lt_Some _ _ _ Hg) as Hg'. rewrite buckets_length in Hg'.
      pose proof (concat_lookup buckets g l j Hg Hj) as Hc. fold sorted_pos in Hc. rewrite Hc.
      rewrite (buckets_lookup g Hg') in Hg. injection Hg as <-.
      destruct (P3 g Hg') as [_ Q]. destruct (lookup_lt_is_Some_2 _ _ Hj) as [x Hx]. rewrite (Q j x Hx), Hx. done.
    + rewrite !lookup_ge_None_2 by lia. done.
Qed.
End sort.

(* every position of the seam is visited exactly once *)
Lemma seam_order_ok (k : nat -> option nat) n : (forall i, i < n -> exists g, k i = Some g /\ g < 256) ->
  exists l, seam_order k n = Some (Some <$> l) /\ l ≡ₚ seq 0 n.
Proof.
  intros H. set (key := fun i => match k i with Some g => g | None => 0 end).
  assert (forall i, i < n -> key i < 256 /\ k i = Some (key i)) as Hk.
  { intros i Hi. destruct (H i Hi) as (g & E & Hg). unfold key. rewrite E. auto. }
  exists (sorted_pos key n). split.
  - apply order_ok; intros i Hi; by apply Hk.
  - apply sorted_perm. intros i Hi. by apply Hk.
Qed.
