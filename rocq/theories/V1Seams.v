(* The seams of Fast MSER V1: every pair of neighbouring pixels in different partitions
   is joined, and joining gives the tree and pixel lists of the whole image. *)
From stdpp Require Import sorting relations functions list.
From Coq Require Import NArith ZArith.
From Verif Require Import Spec TreeSpec TreeFacts JoinMath Grid FloodAbs FloodModel FloodRefine FloodInit FloodTree FloodCorrect
  ConnectModel ConnectProof PartModel PartProof MergeProof WholeModel WholeProof LinkedHeap LinkedInit
  V1JoinModel V1Heap V1Lists V1Cut V1Connect V1Loop V1Conn V1Model V1FloodLists V1FloodRefine V1FloodInit V1FloodCorrect
  V1BuildModel V1Sort V1Union.
Local Open Scope nat_scope.

Lemma mapM_forall2 {A B} (f : A -> option B) (l : list A) (k : list B) : Forall2 (fun x y => f x = Some y) l k -> mapM f l = Some k.
Proof. intros H. by apply mapM_Some. Qed.

Section lanes.
Context (hpn vpn cols rows : nat) (Hh : 0 < hpn) (Hv : 0 < vpn) (Hc : hpn <= cols) (Hr : vpn <= rows).
Notation R := (rects hpn vpn cols rows).

(* a lane: the seam right of column c of the grid (true), or below row c *)
Definition lane_in (l : bool * nat) : Prop := if fst l then S (snd l) < hpn else S (snd l) < vpn.
Definition lane_len (l : bool * nat) : nat := if fst l then rows else cols.
(* a plan element follows a lane: its partition lies along it, and for each position
   the two partitions and the offset inside them are found *)
Definition lane_ok (s : bool * nat * vpick) (l : bool * nat) : Prop :=
  fst (fst s) = fst l /\ snd (fst s) < vpn * hpn /\
  if fst l then snd (fst s) mod hpn = snd l /\
    forall i, i < rows -> exists split, snd s i =
      Some (cut_idx vpn rows i * hpn + snd l, cut_idx vpn rows i * hpn + snd l + 1, i - cut_start vpn rows (cut_idx vpn rows i), split)
  else snd (fst s) / hpn = snd l /\
    forall i, i < cols -> exists split, snd s i =
      Some (snd l * hpn + cut_idx hpn cols i, snd l * hpn + cut_idx hpn cols i + hpn, i - cut_start hpn cols (cut_idx hpn cols i), split).

Definition lane_call (l : bool * nat) : list nat * nat * bool :=
  if fst l then ((fun v => v * hpn + snd l) <$> seq 0 vpn, 1, true)
  else ((fun h => snd l * hpn + h) <$> seq 0 hpn, hpn, false).

Lemma idx_eq n total i : 2 <= n -> n <= total ->
  (if n - 1 <=? i / cut_size n total 0 then n - 1 else i / cut_size n total 0) = cut_idx n total i.
Proof.
  clear. intros Hn Ht. unfold cut_idx, cut_size. destruct (Nat.eqb_spec 1 n); [lia|].
  assert (0 < total / n) by (apply Nat.div_str_pos; lia). set (p := total / n) in *.
  assert (n - 1 <= i / p <-> (n - 1) * p <= i) as He.
  { split; intros H'.
    - pose proof (Nat.mul_div_le i p ltac:(lia)). nia.
    - apply Nat.div_le_lower_bound; nia. }
  destruct (Nat.leb_spec (n - 1) (i / p)), (Nat.leb_spec ((n - 1) * p) i); auto; lia.
Qed.
Lemma start_eq n total i : 2 <= n -> i * cut_size n total 0 = cut_start n total i.
Proof. clear. intros Hn. unfold cut_start, cut_size. destruct (Nat.eqb_spec 1 n); [lia|done]. Qed.

Lemma seq_first (f : nat -> nat) n : 0 < n -> exists ks, f <$> seq 0 n = f 0 :: ks.
Proof. clear. destruct n; [lia|]. intros _. eexists. reflexivity. Qed.
Lemma call_ok l : 2 <= hpn -> 2 <= vpn -> lane_in l ->
  exists s, plan_step R (fst (fst (lane_call l))) (snd (fst (lane_call l))) (snd (lane_call l)) = Some s /\ lane_ok s l.
Proof using All.
  intros H2h H2v Hl. destruct l as [[|] c]; unfold lane_in in Hl; cbn [fst snd] in Hl; unfold lane_call; cbn [fst snd].
  - destruct (seq_first (fun v => v * hpn + c) vpn Hv) as (ks & Eks).
    unfold plan_step. rewrite Eks.
    rewrite (rects_at hpn vpn cols rows 0 c) by lia. eexists. split; [done|].
    split; [done|]. cbn [fst snd]. split; [nia|]. split; [rewrite Nat.mod_small; lia|].
    intros i Hi. unfold pick_step. rewrite <-Eks. cbn [rect_at r_h].
    pose proof (cut_pos vpn rows 0 ltac:(lia) Hr). destruct (Nat.eqb_spec (cut_size vpn rows 0) 0); [lia|].
    rewrite fmap_length, seq_length, (idx_eq vpn rows i) by lia. rewrite start_eq by lia.
    destruct (cut_idx_ok vpn rows i Hv Hi) as [Hx _].
    rewrite !list_lookup_fmap, !lookup_seq_lt by lia. cbn [fmap option_fmap option_map]. eauto.
  - destruct (seq_first (fun h => c * hpn + h) hpn Hh) as (ks & Eks).
    unfold plan_step. rewrite Eks.
    rewrite (rects_at hpn vpn cols rows c 0) by lia. eexists. split; [done|].
    split; [done|]. cbn [fst snd]. split; [nia|]. split; [rewrite Nat.div_add_l, Nat.div_small by lia; lia|].
    intros i Hi. unfold pick_step. rewrite <-Eks. cbn [rect_at r_w].
    pose proof (cut_pos hpn cols 0 ltac:(lia) Hc). destruct (Nat.eqb_spec (cut_size hpn cols 0) 0); [lia|].
    rewrite fmap_length, seq_length, (idx_eq hpn cols i) by lia. rewrite start_eq by lia.
    destruct (cut_idx_ok hpn cols i Hh Hi) as [Hx _].
    rewrite !list_lookup_fmap, !lookup_seq_lt by lia. cbn [fmap option_fmap option_map]. eauto.
Qed.
Lemma calls_ok ls : 2 <= hpn -> 2 <= vpn -> Forall lane_in ls ->
  exists plan, mapM (fun c => plan_step R (fst (fst c)) (snd (fst c)) (snd c)) (lane_call <$> ls) = Some plan /\
    Forall2 lane_ok plan ls.
Proof using All.
  intros H2h H2v. induction 1 as [|l ls Hl _ (plan & E & HF)].
  - exists []. done.
  - destruct (call_ok l H2h H2v Hl) as (s & Es & Hs). exists (s :: plan). split; [|by constructor].
    apply mapM_forall2. cbn [fmap list_fmap]. constructor; [done|]. by apply mapM_Some in E.
Qed.
End lanes.

(* the lanes in the order joined *)
Definition lanes_of (threads : nat) : list (bool * nat) :=
  if threads =? 1 then []
  else if threads =? 2 then [(true, 0)]
  else if threads =? 4 then [(true, 0); (false, 0)]
  else if threads =? 8 then [(true, 0); (true, 2); (true, 1); (false, 0)]
  else if threads =? 16 then [(true, 0); (true, 2); (true, 1); (false, 0); (false, 2); (false, 1)]
  else [(true, 0); (true, 2); (true, 4); (true, 6); (true, 1); (true, 5); (true, 3); (false, 0); (false, 2); (false, 1)].

Lemma plan_ok threads hpn vpn cols rows : v1_grid threads = Some (hpn, vpn) -> hpn <= cols -> vpn <= rows ->
  0 < hpn /\ 0 < vpn /\ threads = vpn * hpn /\
  exists plan, vplan_of threads (rects hpn vpn cols rows) = Some plan /\
    Forall2 (lane_ok hpn vpn cols rows) plan (lanes_of threads) /\
    Forall (lane_in hpn vpn) (lanes_of threads) /\
    forall l, lane_in hpn vpn l -> l ∈ lanes_of threads.
Proof.
  intros Hg Hc Hr. unfold v1_grid in Hg.
  assert (forall m, forall P : nat -> Prop, (forall c, c < m -> P c) -> forall c, S c < S m -> P c) as Hlt.
  { intros m P HP c Hc'. apply HP. lia. }
  assert (0 < hpn /\ 0 < vpn /\ threads = vpn * hpn) as (Hh & Hv & Ht).
  { destruct (Nat.eqb_spec threads 1) as [->|]; [injection Hg as <- <-; lia|].
    destruct (Nat.eqb_spec threads 2) as [->|]; [injection Hg as <- <-; lia|].
    destruct (Nat.eqb_spec threads 4) as [->|]; [injection Hg as <- <-; lia|].
    destruct (Nat.eqb_spec threads 8) as [->|]; [injection Hg as <- <-; lia|].
    destruct (Nat.eqb_spec threads 16) as [->|]; [injection Hg as <- <-; lia|].
    destruct (Nat.eqb_spec threads 32) as [->|]; [injection Hg as <- <-; lia|done]. }
  split; [done|]. split; [done|]. split; [done|].
  assert (forall l, lane_in hpn vpn l -> l ∈ lanes_of threads) as Hall.
  { intros [lr c] Hl. unfold lane_in in Hl. cbn [fst snd] in Hl.
    destruct (Nat.eqb_spec threads 1) as [->|]; [injection Hg as <- <-; destruct lr; lia|].
    destruct (Nat.eqb_spec threads 2) as [->|].
    { injection Hg as <- <-. destruct lr; [|lia]. assert (c = 0) as -> by lia. cbn. set_solver. }
    destruct (Nat.eqb_spec threads 4) as [->|].
    { injection Hg as <- <-. assert (c = 0) as -> by (destruct lr; lia). cbn. destruct lr; set_solver. }
    destruct (Nat.eqb_spec threads 8) as [->|].
    { injection Hg as <- <-. cbn. destruct lr; [do 3 (destruct c as [|c]; [set_solver|])|destruct c as [|c]; [set_solver|]]; lia. }
    destruct (Nat.eqb_spec threads 16) as [->|].
    { injection Hg as <- <-. cbn. destruct lr; do 3 (destruct c as [|c]; [set_solver|]); lia. }
    destruct (Nat.eqb_spec threads 32) as [->|]; [|done].
    injection Hg as <- <-. cbn. destruct lr; [do 7 (destruct c as [|c]; [set_solver|])|do 3 (destruct c as [|c]; [set_solver|])]; lia. }
  assert (rects hpn vpn cols rows !! 0 = Some (rect_at hpn vpn cols rows 0 0)) as E0.
  { apply (rects_at hpn vpn cols rows 0 0); lia. }
  unfold vplan_of. rewrite E0. unfold lanes_of in *.
  destruct (Nat.eqb_spec threads 1) as [->|].
  { exists []. split_and!; auto. }
  destruct (Nat.eqb_spec threads 2) as [->|].
  { injection Hg as <- <-. eexists. split; [done|]. split_and!; auto.
    - constructor; [|constructor]. split; [done|]. cbn [fst snd]. split; [lia|]. split; [done|].
      intros i Hi. unfold pick2. exists 0. unfold cut_idx, cut_start. cbn. repeat f_equal. lia.
    - constructor; [|constructor]. unfold lane_in. cbn. lia. }
  destruct (Nat.eqb_spec threads 4) as [->|].
  { injection Hg as <- <-. eexists. split; [done|]. split_and!; auto.
    - constructor; [|constructor; [|constructor]].
      + split; [done|]. cbn [fst snd]. split; [lia|]. split; [done|].
        intros i Hi. unfold pick4_lr. cbn [rect_at r_h]. rewrite <-(idx_eq 2 rows i) by lia.
        rewrite <-start_eq by lia. pose proof (cut_pos 2 rows 0 ltac:(lia) Hr) as Hp. set (p := cut_size 2 rows 0) in *.
        destruct (Nat.ltb_spec i p).
        * rewrite Nat.div_small by lia. cbn. eexists. repeat f_equal. lia.
        * assert (1 <= i / p) as H1 by (apply Nat.div_le_lower_bound; lia). cbn [Nat.sub].
          destruct (Nat.leb_spec 1 (i / p)); [|lia]. eexists. repeat f_equal. lia.
      + split; [done|]. cbn [fst snd]. split; [lia|]. split; [done|].
        intros i Hi. unfold pick4_tb. cbn [rect_at r_w]. rewrite <-(idx_eq 2 cols i) by lia.
        rewrite <-start_eq by lia. pose proof (cut_pos 2 cols 0 ltac:(lia) Hc) as Hp. set (p := cut_size 2 cols 0) in *.
        destruct (Nat.ltb_spec i p).
        * rewrite Nat.div_small by lia. cbn. eexists. repeat f_equal. lia.
        * assert (1 <= i / p) as H1 by (apply Nat.div_le_lower_bound; lia). cbn [Nat.sub].
          destruct (Nat.leb_spec 1 (i / p)); [|lia]. eexists. repeat f_equal. lia.
    - repeat constructor; unfold lane_in; cbn; lia. }
  destruct (Nat.eqb_spec threads 8) as [->|].
  { injection Hg as <- <-. set (ls := [(true, 0); (true, 2); (true, 1); (false, 0)]) in *.
    assert (Forall (lane_in 4 2) ls) as Hin by (repeat constructor; unfold lane_in; cbn; lia).
    destruct (calls_ok 4 2 cols rows Hh Hv Hc Hr ls) as (plan & E & HF); auto; try lia. exists plan. auto. }
  destruct (Nat.eqb_spec threads 16) as [->|].
  { injection Hg as <- <-. set (ls := [(true, 0); (true, 2); (true, 1); (false, 0); (false, 2); (false, 1)]) in *.
    assert (Forall (lane_in 4 4) ls) as Hin by (repeat constructor; unfold lane_in; cbn; lia).
    destruct (calls_ok 4 4 cols rows Hh Hv Hc Hr ls) as (plan & E & HF); auto; try lia. exists plan. auto. }
  destruct (Nat.eqb_spec threads 32) as [->|]; [|done].
  injection Hg as <- <-.
  set (ls := [(true, 0); (true, 2); (true, 4); (true, 6); (true, 1); (true, 5); (true, 3); (false, 0); (false, 2); (false, 1)]) in *.
  assert (Forall (lane_in 8 4) ls) as Hin by (repeat constructor; unfold lane_in; cbn; lia).
  destruct (calls_ok 8 4 cols rows Hh Hv Hc Hr ls) as (plan & E & HF); auto; try lia. exists plan. auto.
Qed.

(* the two pixels at position i of a lane *)
Section lane_px.
Context (hpn vpn cols rows : nat) (Hh : 0 < hpn) (Hv : 0 < vpn) (Hc : hpn <= cols) (Hr : vpn <= rows).
Notation R := (rects hpn vpn cols rows).
Definition lane_px (l : bool * nat) (i : nat) : nat * nat :=
  if fst l then (i * cols + cut_start hpn cols (S (snd l)), i * cols + (cut_start hpn cols (S (snd l)) - 1))
  else (cut_start vpn rows (S (snd l)) * cols + i, (cut_start vpn rows (S (snd l)) - 1) * cols + i).

Lemma start_pos n total c : 0 < n -> n <= total -> 0 < cut_start n total (S c).
Proof. clear. intros Hn Ht. unfold cut_start. assert (0 < total / n) by (apply Nat.div_str_pos; lia). nia. Qed.
Lemma start_in n total c : S c < n -> n <= total -> cut_start n total (S c) < total.
Proof. clear. intros Hn Ht. pose proof (cut_inside n total (S c) Hn). pose proof (cut_pos n total (S c) Hn Ht). lia. Qed.

Lemma lane_px_in l i : lane_in hpn vpn l -> i < lane_len cols rows l ->
  fst (lane_px l i) < rows * cols /\ snd (lane_px l i) < rows * cols /\ next_px cols (snd (lane_px l i)) (fst (lane_px l i)).
Proof using All.
  destruct l as [[|] c]; unfold lane_in, lane_len, lane_px; cbn [fst snd]; intros Hl Hi.
  - pose proof (start_pos hpn cols c Hh Hc). pose proof (start_in hpn cols c Hl Hc). set (e := cut_start hpn cols (S c)) in *.
    split; [nia|]. split; [nia|]. left.
    destruct (coord cols i e) as [-> ->]; [lia|]. destruct (coord cols i (e - 1)) as [-> ->]; [lia|]. lia.
  - pose proof (start_pos vpn rows c Hv Hr). pose proof (start_in vpn rows c Hl Hr). set (e := cut_start vpn rows (S c)) in *.
    split; [nia|]. split; [nia|]. right.
    destruct (coord cols e i) as [-> ->]; [lia|]. destruct (coord cols (e - 1) i) as [-> ->]; [lia|]. lia.
Qed.

(* neighbours in different partitions lie on a lane *)
Lemma lane_find p q : p < rows * cols -> q < rows * cols -> next_px cols p q ->
  partf hpn vpn cols rows p <> partf hpn vpn cols rows q ->
  exists l i, lane_in hpn vpn l /\ i < lane_len cols rows l /\ lane_px l i = (q, p).
Proof using All.
  intros Hp Hq Hn Hne. destruct (next_seam hpn vpn cols rows Hh Hv Hc Hr p q Hp Hq Hn Hne) as (s & Hs & Hin).
  destruct (seam_rects hpn vpn cols rows Hh Hv Hc Hr s Hs) as (v & h & Hv' & Hh' & Hka & Hra & Hb).
  unfold px_of in Hin. rewrite Hra in Hin. destruct (snd s) eqn:Es.
  - destruct Hb as (Hh2 & Hkb & Hrb). rewrite Hrb in Hin. unfold seam_px in Hin.
    apply elem_of_list_fmap in Hin as (i & [= -> ->] & Hi%elem_of_seq). cbn [rect_at r_top r_left r_w r_h] in *.
    exists (true, h), (cut_start vpn rows v + i). pose proof (cut_inside vpn rows v Hv'). pose proof (cut_pos hpn cols h Hh' Hc).
    unfold lane_in, lane_len, lane_px. cbn [fst snd]. split; [done|]. split; [lia|].
    rewrite (cut_next hpn cols h Hh2). f_equal; f_equal; lia.
  - destruct Hb as (Hv2 & Hkb & Hrb). rewrite Hrb in Hin. unfold seam_px in Hin.
    apply elem_of_list_fmap in Hin as (i & [= -> ->] & Hi%elem_of_seq). cbn [rect_at r_top r_left r_w r_h] in *.
    exists (false, v), (cut_start hpn cols h + i). pose proof (cut_inside hpn cols h Hh'). pose proof (cut_pos vpn rows v Hv' Hr).
    unfold lane_in, lane_len, lane_px. cbn [fst snd]. split; [done|]. split; [lia|].
    rewrite (cut_next vpn rows v Hv2). f_equal; f_equal; [f_equal|f_equal]; lia.
Qed.

(* the sort key of every position is read inside the image *)
Lemma lane_key img gm s l r i : rows * cols <= length img -> (forall j v, img !! j = Some v -> (v < 256)%N) ->
  lane_in hpn vpn l -> lane_ok hpn vpn cols rows s l -> R !! snd (fst s) = Some r -> i < lane_len cols rows l ->
  exists g, seam_key img gm cols (fst (fst s)) r i = Some g /\ g < 256.
Proof using All.
  intros Hlen Hbyte Hl (Hlr & Hk & Hs) Hr' Hi. rewrite Hlr.
  destruct (rects_inv hpn vpn cols rows Hh Hv _ r Hr') as (v & h & Hv' & Hh' & Ek & ->).
  assert (forall pos nb, pos < rows * cols -> pos + nb < rows * cols -> pos + 1 < rows * cols ->
    exists g, seam_gray img gm pos nb = Some g /\ g < 256) as Hg.
  { intros pos nb H1 H2 H3. unfold seam_gray.
    destruct (lookup_lt_is_Some_2 img pos ltac:(lia)) as [a Ha]. destruct (lookup_lt_is_Some_2 img (pos + nb) ltac:(lia)) as [b Hb].
    destruct (lookup_lt_is_Some_2 img (pos + 1) ltac:(lia)) as [e He]. rewrite Ha, Hb, He.
    pose proof (Hbyte _ _ Ha). pose proof (Hbyte _ _ He).
    destruct (if (gm =? 0)%N then (b <? a)%N else (a <? b)%N); eexists; (split; [reflexivity|lia]). }
  unfold seam_key. destruct l as [[|] c]; unfold lane_in, lane_len in *; cbn [fst snd rect_at r_left r_w r_top r_h] in *.
  - destruct Hs as [Hc' _]. rewrite Ek in Hc'. rewrite Nat.add_comm, Nat.mod_add, Nat.mod_small in Hc' by lia. subst c.
    pose proof (cut_pos hpn cols h Hh' Hc). pose proof (cut_next hpn cols h Hl). pose proof (start_in hpn cols h Hl Hc).
    apply Hg; nia.
  - destruct Hs as [Hc' _]. rewrite Ek in Hc'. rewrite Nat.div_add_l, Nat.div_small in Hc' by lia. rewrite Nat.add_0_r in Hc'. subst c.
    pose proof (cut_pos vpn rows v Hv' Hr). pose proof (cut_next vpn rows v Hl). pose proof (start_in vpn rows v Hl Hr).
    apply Hg; nia.
Qed.
End lane_px.
