(* The preparation of a pass of the OpenCV3-style extraction leaves the buffers as the loop
   expects: border words around zeroed pixels, and stacks with room for the pixels of each
   level - for the first pass when it searches dark regions, and for the bright pass after it. *)
From stdpp Require Import sorting relations functions list_numbers list.
From Coq Require Import NArith ZArith SpecFloat.
From Verif Require Import Spec FloodAbs FloodAbsInv FloodAbsProof Grid FloodModel FloodInit FloodCorrect FloatModel RectModel RecogModel CvExtract
  LinkedHeap OcvModel OcvWords OcvHeap OcvTree OcvComp OcvStack OcvRefine OcvRun.
Local Open Scope nat_scope.

Lemma for_from_inv {A} (I : nat -> A -> Prop) a n body (s : A) : I a s ->
  (forall i s, a <= i < a + n -> I i s -> exists s', body i s = Some s' /\ I (S i) s') ->
  exists s', for_from a n body s = Some s' /\ I (a + n) s'.
Proof.
  revert a s. induction n as [|n IH]; intros a s Hs Hb; cbn [for_from]; [rewrite Nat.add_0_r; eauto|].
  destruct (Hb a s ltac:(lia) Hs) as (s' & -> & Hs'). destruct (IH (S a) s' Hs') as (s'' & -> & H).
  - intros i x Hi. apply Hb. lia.
  - exists s''. split; [done|]. by rewrite Nat.add_succ_r.
Qed.

Lemma filter_ext_in (A B : nat -> Prop) `{!forall x, Decision (A x), !forall x, Decision (B x)} (l : list nat) :
  (forall x, x ∈ l -> A x <-> B x) -> filter A l = filter B l.
Proof.
  induction l as [|x l IH]; intros Hi; [done|]. rewrite !filter_cons. rewrite IH by (intros y Hy; apply Hi; by right).
  pose proof (Hi x ltac:(left)). destruct (decide (A x)), (decide (B x)); tauto.
Qed.

Section init.
Context (src : list N) (rows cols : nat).
Context (Hrows : 3 <= rows) (Hcols : 3 <= cols) (Hlen : length src = rows * cols) (Hbytes : Forall (fun v => (v < 256)%N) src).
Notation area := (rows * cols).
Notation nodes := (rect_nodes cols 1 1 (cols - 2) (rows - 2)).
Notation val := (level src 0).

Definition want (x : nat) : N := if decide (x ∈ nodes) then 0%N else border_word.

(* the positions in W have been written *)
Definition good (W : nat -> Prop) (pix : list N) : Prop := length pix = area /\ forall x, x < area -> W x -> pix !! x = Some (want x).

Lemma good_store W (W' : nat -> Prop) pix p v : good W pix -> p < area -> v = want p -> (forall x, W' x -> W x \/ x = p) ->
  exists pix', store pix p v = Some pix' /\ good W' pix'.
Proof using Hrows Hcols Hlen Hbytes.
  intros [Hl Hg] Hp -> HW. rewrite store_ok by lia. eexists. split; [done|]. split; [by rewrite insert_length|].
  intros x Hx HWx. destruct (decide (x = p)) as [->|Hne]; [apply list_lookup_insert; lia|]. rewrite list_lookup_insert_ne by done.
  apply Hg; [done|]. destruct (HW x HWx); done.
Qed.

Lemma pos_split r c r' c' : c < cols -> c' < cols -> r * cols + c = r' * cols + c' -> r = r' /\ c = c'.
Proof using Hrows Hcols Hlen Hbytes.
  clear. intros Hc Hc' H. pose proof (Nat.div_unique (r * cols + c) cols r c Hc ltac:(lia)) as Q1.
  pose proof (Nat.div_unique (r * cols + c) cols r' c' Hc' ltac:(lia)) as Q2. nia.
Qed.
Lemma in_nodes r c : c < cols -> r * cols + c ∈ nodes <-> 1 <= r <= rows - 2 /\ 1 <= c <= cols - 2.
Proof using Hrows Hcols Hlen Hbytes.
  intros Hc. rewrite elem_rect. unfold gid. split.
  - intros (r' & c' & Hr' & Hc' & He). destruct (pos_split r c (1 + r') (1 + c') Hc ltac:(lia) He). lia.
  - intros [H1 H2]. exists (r - 1), (c - 1). split; [lia|]. split; [lia|]. f_equal; [f_equal|]; lia.
Qed.
Lemma want_in r c : 1 <= r <= rows - 2 -> 1 <= c <= cols - 2 -> want (r * cols + c) = 0%N.
Proof using Hrows Hcols Hlen Hbytes. intros. unfold want. rewrite decide_True; [done|]. apply in_nodes; lia. Qed.
Lemma want_out r c : c < cols -> r = 0 \/ r >= rows - 1 \/ c = 0 \/ c = cols - 1 -> want (r * cols + c) = border_word.
Proof using Hrows Hcols Hlen Hbytes. intros. unfold want. rewrite decide_False; [done|]. rewrite in_nodes by lia. lia. Qed.
Lemma pos_lt r c : r < rows -> c < cols -> r * cols + c < area.
Proof using Hrows Hcols Hlen Hbytes. clear. nia. Qed.
Lemma pos_of x : x < area -> exists r c, r < rows /\ c < cols /\ x = r * cols + c.
Proof using Hrows Hcols Hlen Hbytes.
  intros Hx. exists (x / cols), (x mod cols). split; [apply Nat.div_lt_upper_bound; lia|]. split; [apply Nat.mod_upper_bound; lia|].
  rewrite Nat.mul_comm. apply Nat.div_mod. lia.
Qed.

(* 378-381 *)
Lemma borders_ok pix : length pix = area -> exists pix', for_from 0 cols (oborder_rows rows cols) pix = Some pix' /\
  good (fun x => exists r c, c < cols /\ (r = 0 \/ r = rows - 1) /\ x = r * cols + c) pix'.
Proof using Hrows Hcols Hlen Hbytes.
  intros Hl. destruct (for_from_inv (fun j pix => good (fun x => exists r c, c < j /\ (r = 0 \/ r = rows - 1) /\ x = r * cols + c) pix) 0 cols (oborder_rows rows cols) pix)
    as (pix' & -> & H); [| |eauto].
  - split; [done|]. intros x _ (r & c & Hc & _). lia.
  - intros j s Hj Hs. unfold oborder_rows. rewrite (Nat.add_comm j).
    destruct (good_store _ (fun x => (exists r c, c < j /\ (r = 0 \/ r = rows - 1) /\ x = r * cols + c) \/ x = (rows - 1) * cols + j) s ((rows - 1) * cols + j) border_word Hs) as (s1 & -> & H1).
    { apply pos_lt; lia. } { symmetry. apply want_out; lia. } { tauto. }
    eapply good_store; [exact H1| | |].
    + pose proof (pos_lt 0 j). lia.
    + symmetry. apply (want_out 0 j); lia.
    + intros x (r & c & Hc & Hr & ->). destruct (decide (c = j)) as [->|].
      * destruct Hr as [-> | ->]; [right; lia|]. left. by right.
      * left. left. exists r, c. split; [lia|done].
Qed.

Definition rowdone (i x : nat) : Prop := exists r c, c < cols /\ (r < i \/ r = rows - 1) /\ x = r * cols + c.

Lemma src_at r c : r < rows -> c < cols -> exists v, src !! (r * cols + c) = Some v /\ (v < 256)%N /\ val (r * cols + c) = N.to_nat v.
Proof using Hrows Hcols Hlen Hbytes.
  intros Hr Hc. destruct (lookup_lt_is_Some_2 src (r * cols + c)) as [v Hv]; [rewrite Hlen; by apply pos_lt|]. exists v. split; [done|].
  rewrite Forall_forall in Hbytes. split; [apply Hbytes; by eapply elem_of_list_lookup_2|]. unfold level. by rewrite (nth_lookup_Some _ _ _ _ Hv), N.lxor_0_r.
Qed.

Definition lvl_ok (lvl : list nat) (dn : list nat) : Prop := length lvl = 256 /\ forall v, v < 256 -> lvl !! v = Some (lcount val dn v).

Lemma lvl_add lvl dn p v : lvl_ok lvl dn -> (v < 256)%N -> val p = N.to_nat v -> exists k, lvl !! N.to_nat v = Some k /\ lvl_ok (<[N.to_nat v := S k]> lvl) (dn ++ [p]).
Proof using Hrows Hcols Hlen Hbytes.
  clear. intros [H1 H2] Hv Hp. exists (lcount val dn (N.to_nat v)). split; [apply H2; lia|]. split; [by rewrite insert_length|].
  intros u Hu. rewrite lcount_app. unfold lcount at 3. rewrite filter_cons, filter_nil. rewrite Hp.
  destruct (decide (N.to_nat v = u)) as [<-|Hne].
  - rewrite list_lookup_insert by lia. f_equal. cbn [length]. lia.
  - rewrite list_lookup_insert_ne by done. rewrite H2 by done. f_equal. cbn [length]. lia.
Qed.

Definition orowsl (n : nat) : list nat := rect_nodes cols 1 1 (cols - 2) n.
Lemma orowsl_S n : orowsl (S n) = orowsl n ++ map (fun c => gid cols 1 1 n c) (seq 0 (cols - 2)).
Proof using Hrows Hcols Hlen Hbytes.
  clear. unfold orowsl, rect_nodes. rewrite seq_S, flat_map_app. cbn [flat_map]. by rewrite app_nil_r, Nat.add_0_l.
Qed.

(* 383-394 *)
Lemma inner_row_ok i s : 1 <= i <= rows - 2 -> good (rowdone i) (fst s) -> lvl_ok (snd s) (orowsl (i - 1)) ->
  exists s', oinner_row src cols i s = Some s' /\ good (rowdone (S i)) (fst s') /\ lvl_ok (snd s') (orowsl i).
Proof using Hrows Hcols Hlen Hbytes.
  intros Hi Hg Hl. unfold oinner_row.
  destruct (good_store _ (fun x => rowdone i x \/ x = i * cols + (cols - 1)) (fst s) (i * cols + (cols - 1)) border_word Hg) as (p1 & -> & Hg1).
  { apply pos_lt; lia. } { symmetry. apply want_out; lia. } { tauto. }
  destruct (good_store _ (fun x => (rowdone i x \/ x = i * cols + (cols - 1)) \/ x = i * cols) p1 (i * cols) border_word Hg1) as (p2 & -> & Hg2).
  { pose proof (pos_lt i 0). lia. } { symmetry. rewrite <-(Nat.add_0_r (i * cols)). apply want_out; lia. } { tauto. }
  destruct (for_from_inv (fun j s => good (fun x => ((rowdone i x \/ x = i * cols + (cols - 1)) \/ x = i * cols) \/ exists c, 1 <= c < j /\ x = i * cols + c) (fst s) /\
      lvl_ok (snd s) (orowsl (i - 1) ++ map (fun c => gid cols 1 1 (i - 1) c) (seq 0 (j - 1)))) 1 (cols - 2) (oinner src cols i) (p2, snd s)) as (s' & -> & Hg3 & Hl3).
  - cbn [fst snd]. split.
    + destruct Hg2 as [H1 H2]. split; [done|]. intros x Hx [H|(c & Hc & _)]; [auto|lia].
    + cbn [Nat.sub seq map]. by rewrite app_nil_r.
  - intros j t Hj [Ht1 Ht2]. unfold oinner. destruct (src_at i j) as (v & -> & Hv & Hval); [lia|lia|].
    destruct (lvl_add _ _ _ v Ht2 Hv Hval) as (k & -> & Hl').
    destruct (good_store _ (fun x => ((rowdone i x \/ x = i * cols + (cols - 1)) \/ x = i * cols) \/ exists c, 1 <= c < S j /\ x = i * cols + c) (fst t) (i * cols + j) 0%N Ht1) as (p3 & -> & Hg3).
    { apply pos_lt; lia. } { symmetry. apply want_in; lia. }
    { intros x [H|(c & Hc & ->)]; [tauto|]. destruct (decide (c = j)) as [->|]; [by right|]. left. right. exists c. split; [lia|done]. }
    eexists. split; [done|]. cbn [fst snd]. split; [done|].
    replace (S j - 1) with (S (j - 1)) by lia. rewrite seq_S, map_app. cbn [map]. rewrite app_assoc.
    replace (gid cols 1 1 (i - 1) (0 + (j - 1))) with (i * cols + j); [done|]. unfold gid. replace (1 + (i - 1)) with i by lia. lia.
  - eexists. split; [done|]. split.
    + destruct Hg3 as [H1 H2]. split; [done|]. intros x Hx (r & c & Hc & Hr & ->). apply H2; [done|].
      destruct (decide (r = i)) as [->|Hne].
      * destruct (decide (c = 0)) as [->|]; [left; right; lia|]. destruct (decide (c = cols - 1)) as [->|]; [left; left; by right|].
        right. exists c. split; [lia|done].
      * left. left. left. exists r, c. split; [done|]. split; [lia|done].
    + replace (orowsl i) with (orowsl (S (i - 1))) by (f_equal; lia). rewrite orowsl_S. replace (1 + (cols - 2) - 1) with (cols - 2) in Hl3 by lia. done.
Qed.

(* 366-398 *)
Lemma prepare_first_ok pix : length pix = area -> exists pix' lvl, oprepare_first src rows cols pix = Some (pix', lvl) /\
  good (fun _ => True) pix' /\ lvl_ok lvl nodes.
Proof using Hrows Hcols Hlen Hbytes.
  intros Hl. unfold oprepare_first. destruct (borders_ok pix Hl) as (pix1 & -> & Hg1).
  destruct (for_from_inv (fun i s => good (rowdone i) (fst s) /\ lvl_ok (snd s) (orowsl (i - 1))) 1 (rows - 2) (oinner_row src cols) (pix1, replicate 256 0))
    as ([pix' lvl] & -> & Hg2 & Hl2).
  - cbn [fst snd]. split.
    + destruct Hg1 as [H1 H2]. split; [done|]. intros x Hx (r & c & Hc & Hr & ->). apply H2; [done|]. exists r, c. split; [done|]. split; [lia|done].
    + split; [by rewrite replicate_length|]. intros v Hv. by rewrite lookup_replicate_2.
  - intros i s Hi [H1 H2]. destruct (inner_row_ok i s ltac:(lia) H1 H2) as (s' & -> & H3 & H4). eexists. split; [done|]. split; [done|].
    by rewrite Nat.sub_succ, Nat.sub_0_r.
  - exists pix', lvl. split; [done|]. cbn [fst snd] in *. split.
    + destruct Hg2 as [H1 H2]. split; [done|]. intros x Hx _. apply H2; [done|]. destruct (pos_of x Hx) as (r & c & Hr & Hc & ->).
      exists r, c. split; [done|]. split; [lia|done].
    + replace (1 + (rows - 2) - 1) with (rows - 2) in Hl2 by lia. done.
Qed.

(* 399-413 *)
Lemma prepare_second_ok pix lvl : good (fun x => x ∉ nodes) pix -> lvl_ok lvl nodes -> exists pix' lvl', oprepare_second rows cols pix lvl = Some (pix', lvl') /\
  good (fun _ => True) pix' /\ length lvl' = 256 /\ forall v, v < 256 -> lvl' !! v = Some (lcount (level src 255) nodes v).
Proof using Hrows Hcols Hlen Hbytes.
  intros Hg [Hl1 Hl2]. unfold oprepare_second.
  destruct (for_from_inv (fun i l => length l = 256 /\ forall v, v < 256 -> l !! v = Some (if decide (v < i \/ 255 - i < v) then lcount val nodes (255 - v) else lcount val nodes v))
    0 128 oswap_levels lvl) as (lvl' & -> & Hs1 & Hs2).
  { split; [done|]. intros v Hv. rewrite decide_False by lia. auto. }
  { intros i l Hi [H1 H2]. unfold oswap_levels. rewrite !H2 by lia. rewrite !decide_False by lia. eexists. split; [done|].
    split; [by rewrite !insert_length|]. intros v Hv. destruct (decide (v = 255 - i)) as [->|].
    - rewrite list_lookup_insert by (rewrite insert_length; lia). rewrite decide_True by lia. f_equal. f_equal. lia.
    - rewrite list_lookup_insert_ne by done. destruct (decide (v = i)) as [->|].
      + rewrite list_lookup_insert by lia. by rewrite decide_True by lia.
      + rewrite list_lookup_insert_ne by done. rewrite H2 by done. f_equal.
        destruct (decide (v < i \/ 255 - i < v)), (decide (v < S i \/ 255 - S i < v)); auto; exfalso; lia. }
  destruct (for_from_inv (fun i p => good (fun x => x ∉ nodes \/ exists r c, c < cols /\ r < i /\ x = r * cols + c) p) 1 (rows - 2) (oclear_row cols) pix) as (pix' & -> & Hg').
  { destruct Hg as [H1 H2]. split; [done|]. intros x Hx [H|(r & c & Hc & Hr & ->)]; [auto|]. apply H2; [done|]. rewrite in_nodes by done. lia. }
  { intros i s Hi Hs. unfold oclear_row.
    destruct (for_from_inv (fun j p => good (fun x => (x ∉ nodes \/ exists r c, c < cols /\ r < i /\ x = r * cols + c) \/ exists c, c < j /\ x = i * cols + c) p) 1 (cols - 2)
      (fun j pix => store pix (i * cols + j) 0%N) s) as (s' & -> & Hs').
    - destruct Hs as [H1 H2]. split; [done|]. intros x Hx [H|(c & Hc & ->)]; [auto|]. apply H2; [done|]. left. rewrite in_nodes by lia. lia.
    - intros j p Hj Hp. eapply good_store; [exact Hp|apply pos_lt; lia|symmetry; apply want_in; lia|].
      intros x [H|(c & Hc & ->)]; [tauto|]. destruct (decide (c = j)) as [->|]; [by right|]. left. right. exists c. split; [lia|done].
    - eexists. split; [done|]. destruct Hs' as [H1 H2]. split; [done|]. intros x Hx [H|(r & c & Hc & Hr & ->)]; [auto|].
      destruct (decide (r * cols + c ∈ nodes)) as [Hin|]; [|auto]. apply in_nodes in Hin; [|done]. apply H2; [done|].
      destruct (decide (r = i)) as [->|]; [right; exists c; split; [lia|done]|]. left. right. exists r, c. split; [done|]. split; [lia|done]. }
  exists pix', lvl'. split; [done|]. split.
  { destruct Hg' as [H1 H2]. split; [done|]. intros x Hx _. apply H2; [done|]. destruct (pos_of x Hx) as (r & c & Hr & Hc & ->).
    destruct (decide (r < rows - 1)); [right; exists r, c; split; [done|]; split; [lia|done]|]. left. rewrite in_nodes by done. lia. }
  split; [done|]. intros v Hv. rewrite Hs2 by done.
  assert (lcount (level src 255) nodes v = lcount val nodes (255 - v)) as Hlc.
  { unfold lcount. f_equal. apply filter_ext_in. intros p Hp. destruct (src_at (p / cols) (p mod cols)) as (w & Hw & Hb & Hval).
    { apply Nat.div_lt_upper_bound; [lia|]. pose proof (node_range rows cols Hrows Hcols p Hp). lia. }
    { apply Nat.mod_upper_bound. lia. }
    rewrite (Nat.mul_comm _ cols), <-Nat.div_mod in Hw, Hval by lia. rewrite Hval. unfold level. rewrite (nth_lookup_Some _ _ _ _ Hw), lxor_byte by done. lia. }
  rewrite Hlc. f_equal. destruct (decide (v < 0 + 128 \/ 255 - (0 + 128) < v)); [done|]. f_equal. lia.
Qed.

(* 415-422 *)
Lemma oheaps_ok gm lvl heap hs : length lvl = 256 -> (forall v, v < 256 -> lvl !! v = Some (lcount (level src gm) nodes v)) ->
  (forall p, p ∈ nodes -> level src gm p < 256) -> length heap = area + 256 -> length hs = 256 ->
  exists heap' hs', oheaps lvl heap hs = Some (heap', hs') /\ length heap' = area + 256 /\
    heapO (cap_of lvl) (base_of lvl) heap' hs' (fun _ => []).
Proof using Hrows Hcols Hlen Hbytes.
  intros Hll Hlv Hlt Hhl Hhs. unfold oheaps. rewrite !store_ok by lia.
  assert (base_of lvl 256 = (cols - 2) * (rows - 2) + 256) as Hb.
  { unfold base_of. f_equal. rewrite <-(length_rect cols 1 1), <-(lcount_sum (level src gm) nodes 256) by done.
    f_equal. apply map_ext_in. intros v Hv. apply in_seq in Hv. unfold cap_of. by rewrite Hlv by lia. }
  assert (base_of lvl 256 <= area + 256) as Hb' by (rewrite Hb; nia).
  destruct (for_from_inv (fun i (s : list (option nat) * list nat) => length (fst s) = area + 256 /\ length (snd s) = 256 /\
      forall g, g < i -> snd s !! g = Some (base_of lvl g) /\ fst s !! base_of lvl g = Some None)
    1 255 (oheap_start lvl) (<[0 := None]> heap, <[0 := 0]> hs)) as ([heap' hs'] & -> & HI1 & HI2 & HI3).
  { cbn [fst snd]. rewrite !insert_length. split; [done|]. split; [done|]. intros g Hg. replace g with 0 by lia.
    change (base_of lvl 0) with 0. split; apply list_lookup_insert; lia. }
  { intros i [heap1 hs1] Hi (I1 & I2 & I3). cbn [fst snd] in *. unfold oheap_start. cbn [fst snd].
    destruct (I3 (i - 1)) as [H1 H2]; [lia|]. rewrite H1. rewrite (Hlv (i - 1)) by lia.
    assert (base_of lvl i = base_of lvl (i - 1) + lcount (level src gm) nodes (i - 1) + 1) as HbS.
    { replace i with (S (i - 1)) at 1 by lia. rewrite base_of_S. unfold cap_of. by rewrite Hlv by lia. }
    rewrite <-HbS. pose proof (base_of_le lvl i 256 ltac:(lia)). pose proof (base_of_S lvl 255). assert (base_of lvl i < base_of lvl 256) as Hlt2.
    { pose proof (base_of_le lvl i 255 ltac:(lia)). lia. }
    rewrite !store_ok by lia. eexists. split; [done|]. cbn [fst snd]. split; [by rewrite insert_length|]. split; [by rewrite insert_length|].
    intros g Hg. destruct (decide (g = i)) as [->|Hgi].
    - rewrite !list_lookup_insert by lia. done.
    - rewrite list_lookup_insert_ne by done. destruct (I3 g) as [G1 G2]; [lia|]. split; [done|].
      rewrite list_lookup_insert_ne; [done|]. intros He. apply base_of_inj in He. lia. }
  cbn [fst snd] in *. exists heap', hs'. split; [done|]. split; [done|]. split; [done|]. split.
  { rewrite HI1. pose proof (base_of_S lvl 255). lia. }
  intros g Hg. destruct (HI3 g) as [G1 G2]; [lia|]. cbn [length rev]. rewrite Nat.add_0_r. split; [done|]. split; [done|].
  intros i x Hx. rewrite lookup_nil in Hx. done.
Qed.

Lemma level_lt gm p : gm = 0%N \/ gm = 255%N -> p ∈ nodes -> get_gray src gm p = Some (level src gm p) /\ level src gm p < 256.
Proof using Hrows Hcols Hlen Hbytes.
  intros Hgm Hp. destruct (lookup_lt_is_Some_2 src p) as [v Hv]; [rewrite Hlen; by apply (node_range rows cols)|].
  rewrite Forall_forall in Hbytes. assert (v < 256)%N as Hb by (apply Hbytes; by eapply elem_of_list_lookup_2).
  unfold get_gray, level. rewrite Hv, (nth_lookup_Some _ _ _ _ Hv). split; [done|]. destruct Hgm as [-> | ->]; [rewrite N.lxor_0_r|rewrite lxor_byte by done]; lia.
Qed.

(* buffers as resized; their contents are arbitrary *)
Record obuf_ok (b : obuf) : Prop := {
  bo_pix : length (ob_pix b) = area; bo_heap : length (ob_heap b) = area + 256; bo_hs : length (ob_hs b) = 256
}.
(* buffers a dark pass has left *)
Record obuf_second (b : obuf) : Prop := {
  b2_ok : obuf_ok b;
  b2_bd : forall x, x < area -> x ∉ nodes -> ob_pix b !! x = Some border_word;
  b2_lvl : lvl_ok (ob_lvl b) nodes
}.

Lemma ready_of gm b pix lvl : gm = 0%N \/ gm = 255%N -> good (fun _ => True) pix -> length lvl = 256 ->
  (forall v, v < 256 -> lvl !! v = Some (lcount (level src gm) nodes v)) -> obuf_ok b ->
  exists heap hs, oheaps lvl (ob_heap b) (ob_hs b) = Some (heap, hs) /\
    (forall g, length (filter (fun p => level src gm p = g) nodes) <= cap_of lvl g) /\
    oready rows cols (cap_of lvl) (base_of lvl) (OBuf pix heap hs lvl).
Proof using Hrows Hcols Hlen Hbytes.
  intros Hgm [Hg1 Hg2] Hll Hlv [B1 B2 B3].
  assert (forall p, p ∈ nodes -> level src gm p < 256) as Hlt by (intros p Hp; by apply level_lt).
  destruct (oheaps_ok gm lvl (ob_heap b) (ob_hs b)) as (heap & hs & He & Hhl & HH); auto.
  exists heap, hs. split; [done|]. split.
  - intros g. unfold cap_of. destruct (decide (g < 256)) as [Hg|Hg]; [by rewrite Hlv|].
    destruct (filter (fun p => level src gm p = g) nodes) as [|p l] eqn:E; [cbn; lia|]. exfalso.
    assert (p ∈ filter (fun p => level src gm p = g) nodes) as Hp by (rewrite E; left).
    apply elem_of_list_filter in Hp as [Hp1 Hp2]. apply Hlt in Hp2. lia.
  - constructor; cbn [ob_pix ob_heap ob_hs]; auto.
    + intros p Hp. rewrite Hg2; [|by apply (node_range rows cols)|done]. unfold want. by rewrite decide_True.
    + intros x Hx Hn. rewrite Hg2 by done. unfold want. by rewrite decide_False.
Qed.
End init.
