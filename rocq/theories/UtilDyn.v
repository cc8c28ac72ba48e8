(* Proofs about the maximal run, the 0-1 bag, common substrings and odd-even sorting. *)
From stdpp Require Import sorting relations functions list_numbers list.
From Coq Require Import ZArith.
From Verif Require Import UtilModel UtilSort UtilFacts.
Local Open Scope nat_scope.

(* SPEC: a value of type i32 *)
Definition fits32 (z : Z) : Prop := (- 2 ^ 31 <= z < 2 ^ 31)%Z.
Lemma add32_ok a b : fits32 (a + b) -> add32 a b = Some (a + b)%Z.
Proof.
  intros [H1 H2]. unfold add32. cbn zeta. rewrite (proj2 (Z.leb_le _ _) H1), (proj2 (Z.ltb_lt _ _) H2). done.
Qed.

(* the maximal run *)
(* SPEC: the n elements from b on, at least one, are elements of vs; their sum *)
Definition run_in (vs : list Z) (b n : nat) : Prop := 1 <= n /\ b + n <= length vs.
Definition run_sum (vs : list Z) (b n : nat) : Z := zsum (take n (drop b vs)).
(* SPEC: all sums of runs are values of type i32 *)
Definition sums_fit (vs : list Z) : Prop := forall b n, run_in vs b n -> fits32 (run_sum vs b n).

Lemma run_one vs b v : vs !! b = Some v -> run_sum vs b 1 = v.
Proof. intros H. unfold run_sum. rewrite (drop_S _ _ _ H). cbn. rewrite take_0. cbn. lia. Qed.
Lemma run_more vs b n v : vs !! (b + n) = Some v -> run_sum vs b (n + 1) = (run_sum vs b n + v)%Z.
Proof. intros H. unfold run_sum. rewrite Nat.add_1_r. apply zsum_snoc. by rewrite lookup_drop. Qed.

Lemma max_sum_ok vs : vs <> [] -> sums_fit vs -> exists m b n, max_sum vs = Some (m, b, n) /\ run_in vs b n /\ run_sum vs b n = m /\
  forall b' n', run_in vs b' n' -> (run_sum vs b' n' <= m)%Z.
Proof.
  intros Hne Hfit. assert (0 < length vs) as HL by (destruct vs; cbn; [done|lia]). unfold max_sum.
  destruct (lookup_lt_is_Some_2 vs 0 HL) as [v0 Hv0]. rewrite Hv0.
  destruct (for_each_ind (max_sum_step vs) (fun i s =>
    (1 <= q_len s /\ q_begin s + q_len s <= i /\ run_sum vs (q_begin s) (q_len s) = q_max s) /\
    (1 <= q_tlen s /\ q_tbegin s + q_tlen s = i /\ run_sum vs (q_tbegin s) (q_tlen s) = q_tsum s) /\
    (forall b n, 1 <= n -> b + n <= i -> (run_sum vs b n <= q_max s)%Z) /\
    (forall b n, 1 <= n -> b + n = i -> (run_sum vs b n <= q_tsum s)%Z)) 1 (length vs - 1) (MSum v0 0 1 v0 0 1))
    as (s & E & (A1 & A2 & A3) & _ & A4 & _).
  - cbn [q_max q_begin q_len q_tsum q_tbegin q_tlen]. assert (forall b n, 1 <= n -> b + n <= 1 -> (run_sum vs b n <= v0)%Z) as H.
    { intros b n H1 H2. assert (b = 0) as -> by lia. assert (n = 1) as -> by lia. rewrite (run_one _ _ _ Hv0). lia. }
    rewrite (run_one _ _ _ Hv0). split; [lia|]. split; [lia|]. split; [done|]. intros b n H1 H2. apply H; lia.
  - intros i s Hi ((A1 & A2 & A3) & (B1 & B2 & B3) & C1 & C2). unfold max_sum_step.
    destruct (lookup_lt_is_Some_2 vs i ltac:(lia)) as [v Hv]. rewrite Hv.
    assert (run_sum vs (q_tbegin s) (q_tlen s + 1) = q_tsum s + v)%Z as HT by (rewrite run_more with (v := v); [by rewrite B3|by rewrite B2]).
    assert (fits32 (q_tsum s + v)) as HF by (rewrite <-HT; apply Hfit; split; lia).
    rewrite (add32_ok _ _ HF).
    set (s3 := if (q_tsum s + v <? v)%Z then (v, i, 1) else ((q_tsum s + v)%Z, q_tbegin s, q_tlen s + 1)).
    assert (1 <= snd s3 /\ snd (fst s3) + snd s3 = i + 1 /\ run_sum vs (snd (fst s3)) (snd s3) = fst (fst s3) /\
      forall b n, 1 <= n -> b + n = i + 1 -> (run_sum vs b n <= fst (fst s3))%Z) as (D1 & D2 & D3 & D4).
    { assert (forall b n, 1 <= n -> b + n = i + 1 -> (run_sum vs b n <= v \/ run_sum vs b n <= q_tsum s + v)%Z) as HB.
      { intros b n Hn Hbn. destruct (decide (n = 1)) as [->|].
        - left. assert (b = i) as -> by lia. rewrite (run_one _ _ _ Hv). lia.
        - right. replace n with ((n - 1) + 1) by lia. rewrite run_more with (v := v) by (replace (b + (n - 1)) with i by lia; done).
          specialize (C2 b (n - 1) ltac:(lia) ltac:(lia)). lia. }
      unfold s3. destruct (Z.ltb_spec (q_tsum s + v) v); cbn [fst snd].
      - rewrite (run_one _ _ _ Hv). split; [lia|]. split; [lia|]. split; [done|]. intros b n Hn Hbn. destruct (HB b n Hn Hbn); lia.
      - split; [lia|]. split; [lia|]. split; [done|]. intros b n Hn Hbn. destruct (HB b n Hn Hbn); lia. }
    destruct s3 as [[t b] n] eqn:E3. cbn [fst snd] in *. eexists. split; [done|].
    destruct (Z.ltb_spec (q_max s) t); cbn [q_max q_begin q_len q_tsum q_tbegin q_tlen].
    + split; [lia|]. split; [lia|]. split; [|done]. intros b' n' Hn' Hb'. destruct (decide (b' + n' = i + 1)); [auto|].
      specialize (C1 b' n' Hn' ltac:(lia)). lia.
    + split; [split; [lia|]; split; [lia|done]|]. split; [lia|]. split; [|done]. intros b' n' Hn' Hb'. destruct (decide (b' + n' = i + 1)).
      * specialize (D4 b' n' Hn' ltac:(done)). lia.
      * apply C1; lia.
  - rewrite E. cbn. exists (q_max s), (q_begin s), (q_len s). split; [done|]. split; [split; lia|]. split; [done|].
    intros b n [Hn Hb]. apply A4; lia.
Qed.

(* the 0-1 bag *)
(* SPEC: the sum of the xs that are chosen *)
Fixpoint chosen (ch : list bool) (xs : list Z) : Z :=
  match ch, xs with c :: ch, x :: xs => ((if c then x else 0) + chosen ch xs)%Z | _, _ => 0%Z end.
(* SPEC: v is the greatest value of a choice of the items that fits in w *)
Definition best_choice (ws vs : list Z) (w v : Z) : Prop :=
  (exists ch, length ch = length ws /\ (chosen ch ws <= w)%Z /\ chosen ch vs = v) /\
  forall ch, length ch = length ws -> (chosen ch ws <= w)%Z -> (chosen ch vs <= v)%Z.
(* SPEC: values of choices are of type i32 *)
Definition values_fit (vs : list Z) : Prop := forall ch, fits32 (chosen ch vs).

Lemma chosen_snoc ch c xs x : length ch = length xs -> chosen (ch ++ [c]) (xs ++ [x]) = (chosen ch xs + if c then x else 0)%Z.
Proof. revert xs. induction ch as [|b ch IH]; intros [|y xs] HL; cbn in *; try lia. rewrite IH by lia. lia. Qed.
Lemma chosen_take ch xs n : n <= length ch -> chosen (take n ch) xs = chosen (take n ch) (take n xs).
Proof. revert ch xs. induction n as [|n IH]; intros [|c ch] [|x xs] H; cbn in *; try done; try lia. rewrite IH by lia. done. Qed.
Lemma chosen_short ch xs n : length ch <= n -> chosen ch (take n xs) = chosen ch xs.
Proof. revert ch xs. induction n as [|n IH]; intros [|c ch] [|x xs] H; cbn in *; try done; try lia. rewrite IH by lia. done. Qed.
Lemma chosen_bound ch ws : (forall x, x ∈ ws -> (0 <= x)%Z) -> (0 <= chosen ch ws)%Z.
Proof.
  revert ws. induction ch as [|c ch IH]; intros [|w ws] H; cbn; try lia. pose proof (H w ltac:(left)).
  specialize (IH ws ltac:(intros; apply H; by right)). destruct c; lia.
Qed.
Lemma best_unique ws vs w v v' : best_choice ws vs w v -> best_choice ws vs w v' -> v = v'.
Proof. intros [(ch & H1 & H2 & <-) H3] [(ch' & H1' & H2' & <-) H3']. specialize (H3 ch' H1' H2'). specialize (H3' ch H1 H2). lia. Qed.

Section bag.
Context (ws vs : list Z) (Hlen : length ws = length vs) (Hpos : forall x, x ∈ ws -> (0 <= x)%Z) (Hfit : values_fit vs).
Notation best n w v := (best_choice (take n ws) (take n vs) w v).
Definition caches_ok (cs : list bcache) : Prop :=
  forall c, c ∈ cs -> bc_range c < length ws /\ (0 <= bc_weight c)%Z /\ best (S (bc_range c)) (bc_weight c) (bc_value c).

Lemma best_skip r w v wr : ws !! r = Some wr -> best r w v -> (w < wr)%Z -> best (S r) w v.
Proof using Hlen Hpos.
  intros Hwr [(ch & L & Hw & Hv) Hmax] Hlt. destruct (lookup_lt_is_Some_2 vs r) as [vr Hvr].
  { rewrite <-Hlen. by eapply lookup_lt_Some. }
  apply lookup_lt_Some in Hwr as Hr. rewrite (take_S_r _ _ _ Hwr), (take_S_r _ _ _ Hvr).
  assert (length (take r ws) = r /\ length (take r vs) = r) as [Lw Lv] by (rewrite !take_length; lia). split.
  - exists (ch ++ [false]). rewrite !app_length, !chosen_snoc by lia. cbn. split; [lia|]. split; [lia|]. rewrite Hv. lia.
  - intros ch' L' Hw'. rewrite app_length in L'. cbn in L'. destruct (exists_last (l := ch')) as (ch0 & c & ->); [intros ->; cbn in L'; lia|].
    rewrite app_length in L'. cbn in L'. rewrite chosen_snoc in Hw' by lia. rewrite chosen_snoc by lia.
    assert (0 <= chosen ch0 (take r ws))%Z as H0.
    { apply chosen_bound. intros x Hx. apply Hpos. eapply elem_of_submseteq; [exact Hx|]. apply sublist_submseteq, sublist_take. }
    destruct c; [lia|]. specialize (Hmax ch0 ltac:(lia) ltac:(lia)). lia.
Qed.
Lemma best_take r w v0 v1 wr vr : ws !! r = Some wr -> vs !! r = Some vr -> best r w v0 -> best r (w - wr) v1 ->
  best (S r) w (v0 `max` (v1 + vr)).
Proof using Hlen.
  intros Hwr Hvr [(ch & L & Hw & Hv) Hmax] [(ch1 & L1 & Hw1 & Hv1) Hmax1].
  apply lookup_lt_Some in Hwr as Hr. rewrite (take_S_r _ _ _ Hwr), (take_S_r _ _ _ Hvr).
  assert (length (take r ws) = r /\ length (take r vs) = r) as [Lw Lv] by (rewrite !take_length; lia). split.
  - destruct (Z.max_spec v0 (v1 + vr)) as [[_ ->]|[_ ->]].
    + exists (ch1 ++ [true]). rewrite !app_length, !chosen_snoc by lia. cbn. split; [lia|]. split; [lia|]. lia.
    + exists (ch ++ [false]). rewrite !app_length, !chosen_snoc by lia. cbn. split; [lia|]. split; [lia|]. lia.
  - intros ch' L' Hw'. rewrite app_length in L'. cbn in L'. destruct (exists_last (l := ch')) as (ch0 & c & ->); [intros ->; cbn in L'; lia|].
    rewrite app_length in L'. cbn in L'. rewrite chosen_snoc in Hw' by lia. rewrite chosen_snoc by lia.
    destruct c; [specialize (Hmax1 ch0 ltac:(lia) ltac:(lia))|specialize (Hmax ch0 ltac:(lia) ltac:(lia))]; lia.
Qed.
Lemma best_fits n w v vr : vs !! n = Some vr -> best n w v -> fits32 (v + vr).
Proof using Hlen Hfit.
  intros Hvr [(ch & L & _ & <-) _]. apply lookup_lt_Some in Hvr as Hn. rewrite take_length in L.
  specialize (Hfit (ch ++ [true])). rewrite <-(chosen_short (ch ++ [true]) vs (S n)) in Hfit by (rewrite app_length; cbn; lia).
  rewrite (take_S_r _ _ _ Hvr), chosen_snoc in Hfit; [done|]. rewrite take_length. lia.
Qed.
Lemma bag_value_ok n : n <= length ws -> forall w cs, (0 <= w)%Z -> caches_ok cs ->
  exists v cs', bag_value ws vs n w cs = Some (v, cs') /\ caches_ok cs' /\ best n w v.
Proof using Hlen Hpos Hfit.
  induction n as [|r IH]; intros Hn w cs Hw HC; cbn [bag_value].
  - exists 0%Z, cs. split; [done|]. split; [done|]. split.
    + exists []. cbn. auto.
    + intros [|c ch] H; [done|]. rewrite take_0 in H. discriminate.
  - destruct (list_find _ cs) as [[k c]|] eqn:EF.
    + apply list_find_Some in EF as (Hk & [E1 E2] & _). exists (bc_value c), cs. split; [done|]. split; [done|].
      destruct (HC c) as (_ & _ & H); [by eapply elem_of_list_lookup_2|]. by rewrite E1, E2 in H.
    + clear EF. destruct (IH ltac:(lia) w cs Hw HC) as (v0 & cs1 & -> & HC1 & H0).
      destruct (lookup_lt_is_Some_2 ws r ltac:(lia)) as [wr Hwr]. destruct (lookup_lt_is_Some_2 vs r ltac:(lia)) as [vr Hvr]. rewrite Hwr.
      destruct (Z.leb_spec wr w) as [Hle|Hgt].
      * destruct (IH ltac:(lia) (w - wr)%Z cs1 ltac:(lia) HC1) as (v1 & cs2 & -> & HC2 & H1). rewrite Hvr.
        rewrite (add32_ok v1 vr) by (by eapply best_fits). eexists _, _. split; [done|].
        pose proof (best_take r w v0 v1 wr vr Hwr Hvr H0 H1) as HB. split; [|done].
        intros c [Hc| ->%elem_of_list_singleton]%elem_of_app; [auto|]. cbn. split; [lia|]. split; done.
      * eexists _, _. split; [done|]. pose proof (best_skip r w v0 wr Hwr H0 Hgt) as HB. split; [|done].
        intros c [Hc| ->%elem_of_list_singleton]%elem_of_app; [auto|]. cbn. split; [lia|]. split; done.
Qed.
Lemma bag_flags_total n : n <= length vs -> forall v cs fl, exists fl', bag_flags vs cs n v fl = Some fl' /\ length fl' = length fl.
Proof using Hlen.
  induction n as [|r IH]; intros Hn v cs fl; cbn [bag_flags]; [eauto|].
  assert (forall cs1 fl, exists fl', for_each (fun c fl =>
        if ((bc_value c =? v)%Z && (bc_range c <? S r))%bool then
          match vs !! bc_range c with
          | None => None
          | Some x => if bag_find cs r (v - x)%Z then bag_flags vs cs r (v - x)%Z (<[bc_range c := true]> fl) else Some fl
          end
        else Some fl) cs1 fl = Some fl' /\ length fl' = length fl) as H; [|by apply H].
  induction cs1 as [|c cs1 IH1]; intros fl1; cbn [for_each]; [eauto|].
  destruct ((bc_value c =? v)%Z && (bc_range c <? S r)) eqn:EB; [|apply IH1].
  apply andb_prop in EB as [_ EB]. apply Nat.ltb_lt in EB. destruct (lookup_lt_is_Some_2 vs (bc_range c) ltac:(lia)) as [x ->].
  destruct (bag_find cs r (v - x)); [|apply IH1].
  destruct (IH ltac:(lia) (v - x)%Z cs (<[bc_range c:=true]> fl1)) as (fl2 & -> & L2). destruct (IH1 fl2) as (fl3 & -> & L3).
  exists fl3. split; [done|]. rewrite L3, L2, insert_length. done.
Qed.
Lemma bag_ok w : (0 <= w)%Z -> exists v fl, bag ws vs w = Some (v, fl) /\ length fl = length ws /\ best_choice ws vs w v.
Proof using Hlen Hpos Hfit.
  intros Hw. unfold bag. destruct (bag_value_ok (length ws) ltac:(done) w [] Hw) as (v & cs & -> & _ & HB).
  { intros c Hc. by apply elem_of_nil in Hc. }
  destruct (bag_flags_total (length ws) ltac:(lia) v cs (replicate (length ws) false)) as (fl & -> & L). rewrite replicate_length in L.
  exists v, fl. split; [done|]. split; [done|]. rewrite Hlen in HB at 2. by rewrite !firstn_all in HB.
Qed.
End bag.

(* common substrings *)
(* SPEC: a from p on and b from q on agree for n elements *)
Definition common (a b : list Z) (p q n : nat) : Prop := forall k, k < n -> exists x, a !! (p + k) = Some x /\ b !! (q + k) = Some x.

(* the length of the longest common substring ending at i and j *)
Definition same_at (a b : list Z) (i j : nat) : bool :=
  match a !! i, b !! j with Some x, Some y => (x =? y)%Z | _, _ => false end.
Fixpoint suf (a b : list Z) (i j : nat) : nat :=
  if same_at a b i j then match i, j with S i', S j' => suf a b i' j' + 1 | _, _ => 1 end else 0.
Lemma same_at_true a b i j : same_at a b i j = true -> exists x, a !! i = Some x /\ b !! j = Some x.
Proof. unfold same_at. destruct (a !! i), (b !! j); try done. intros ->%Z.eqb_eq. eauto. Qed.
Lemma same_at_intro a b i j x : a !! i = Some x -> b !! j = Some x -> same_at a b i j = true.
Proof. unfold same_at. intros -> ->. apply Z.eqb_refl. Qed.
Lemma suf_common a b : forall i j, suf a b i j <= S i /\ suf a b i j <= S j /\ common a b (S i - suf a b i j) (S j - suf a b i j) (suf a b i j).
Proof.
  induction i as [|i IH]; intros j.
  - cbn [suf]. destruct (same_at a b 0 j) eqn:E; [|split; [lia|]; split; [lia|]; intros k Hk; lia].
    split; [lia|]. split; [lia|]. intros k Hk. assert (k = 0) as -> by lia. apply same_at_true in E. by rewrite !Nat.add_0_r, !Nat.sub_succ, !Nat.sub_0_r.
  - cbn [suf]. destruct (same_at a b (S i) j) eqn:E; [|split; [lia|]; split; [lia|]; intros k Hk; lia].
    apply same_at_true in E. destruct j as [|j].
    + split; [lia|]. split; [lia|]. intros k Hk. assert (k = 0) as -> by lia. rewrite !Nat.add_0_r. done.
    + destruct (IH j) as (H1 & H2 & H3). split; [lia|]. split; [lia|]. intros k Hk. set (n := suf a b i j) in *.
      replace (S (S i) - (n + 1)) with (S i - n) by lia. replace (S (S j) - (n + 1)) with (S j - n) by lia.
      destruct (decide (k = n)) as [->|]; [|apply H3; lia].
      replace (S i - n + n) with (S i) by lia. replace (S j - n + n) with (S j) by lia. done.
Qed.
Lemma suf_max a b : forall n p q, common a b p q (S n) -> S n <= suf a b (p + n) (q + n).
Proof.
  induction n as [|n IH]; intros p q H.
  - rewrite !Nat.add_0_r. destruct (H 0 ltac:(lia)) as (x & H1 & H2). rewrite !Nat.add_0_r in *. pose proof (same_at_intro a b p q x H1 H2) as HS.
    destruct p; cbn [suf]; rewrite HS; [lia|]. destruct q; lia.
  - specialize (IH p q ltac:(intros k Hk; apply H; lia)). destruct (H (S n) ltac:(lia)) as (x & H1 & H2).
    pose proof (same_at_intro a b _ _ x H1 H2) as HS. rewrite !Nat.add_succ_r in *. cbn [suf]. rewrite HS. lia.
Qed.

Section lcs.
Context (a b : list Z).
Notation na := (length a). Notation nb := (length b).
(* what the matrix holds before cell (i,j) is filled *)
Definition cell (i j i' j' : nat) : nat := if (i' <? i) || ((i' =? i) && (j' <? j)) then suf a b i' j' else 0.
Definition mat_ok (i j : nat) (m : list nat) : Prop :=
  length m = na * nb /\ forall i' j', i' < na -> j' < nb -> m !! (j' * na + i') = Some (cell i j i' j').
Definition found (s : lcs) (n : nat) (i j : nat) : Prop :=
  n = suf a b i j /\ 1 <= j < nb /\ i < na /\ l_a s = (Z.of_nat i - Z.of_nat n + 1)%Z /\ l_b s = (Z.of_nat j - Z.of_nat n + 1)%Z.
Definition len_ok (i j : nat) (s : lcs) : Prop :=
  (l_len s = 0 \/ exists i' j', found s (l_len s) i' j') /\
  (forall i' j', 1 <= j' < nb -> (i' < i \/ (i' = i /\ j' < j)) -> suf a b i' j' <= l_len s).

Lemma idx_eq i j i' j' : i < na -> i' < na -> j * na + i = j' * na + i' -> i = i' /\ j = j'.
Proof using. intros H1 H2 E. assert (j = j') as -> by nia. lia. Qed.
Lemma idx_lt i j : i < na -> j < nb -> j * na + i < na * nb.
Proof using. intros H1 H2. assert (j * na + na <= nb * na) by nia. lia. Qed.

Lemma cell_ok i j s : i < na -> 1 <= j < nb -> mat_ok i j (l_mat s) -> len_ok i j s ->
  exists s', lcs_cell a b i j s = Some s' /\ mat_ok i (S j) (l_mat s') /\ len_ok i (S j) s'.
Proof using.
  intros Hi Hj [HL HM] HN. unfold lcs_cell. destruct (lookup_lt_is_Some_2 a 0 ltac:(lia)) as [a0 Ha0].
  destruct (lookup_lt_is_Some_2 b j ltac:(lia)) as [bj Hbj]. destruct (lookup_lt_is_Some_2 a i Hi) as [ai Hai]. rewrite Ha0, Hbj, Hai.
  unfold mat_put at 1. pose proof (idx_lt 0 j ltac:(lia) ltac:(lia)) as I0. rewrite Nat.add_0_r in I0.
  rewrite (proj2 (Nat.ltb_lt _ _)) by lia.
  set (v0 := if (a0 =? bj)%Z then 1 else 0).
  assert (suf a b 0 j = v0) as Hv0.
  { cbn [suf]. unfold same_at. rewrite Ha0, Hbj. done. }
  set (m1 := <[j * na:=v0]> (l_mat s)). assert (length m1 = na * nb) as HL1 by (unfold m1; by rewrite insert_length).
  assert (forall i' j', i' < na -> j' < nb -> m1 !! (j' * na + i') = Some (if decide (i' = 0 /\ j' = j) then v0 else cell i j i' j')) as HM1.
  { intros i' j' H1 H2. unfold m1. destruct (decide (i' = 0 /\ j' = j)) as [[-> ->]|Hne].
    - rewrite Nat.add_0_r, list_lookup_insert by lia. done.
    - rewrite list_lookup_insert_ne; [auto|]. intros E. apply Hne. destruct (idx_eq 0 j i' j'); lia. }
  set (s1 := LCS m1 (l_len s) (l_a s) (l_b s)).
  pose proof (idx_lt i j Hi ltac:(lia)) as Iij.
  assert (exists s2, (if (0 <? i) && (0 <? j) && (ai =? bj)%Z
     then match l_mat s1 !! ((j - 1) * na + i - 1) with Some v => mat_put s1 (j * na + i) (v + 1) | None => None end
     else Some s1) = Some s2 /\ length (l_mat s2) = na * nb /\ l_len s2 = l_len s /\ l_a s2 = l_a s /\ l_b s2 = l_b s /\
     forall i' j', i' < na -> j' < nb -> l_mat s2 !! (j' * na + i') = Some (cell i (S j) i' j')) as (s2 & -> & HL2 & N1 & N2 & N3 & HM2).
  { assert (forall i' j', i' < na -> j' < nb -> cell i (S j) i' j' = if decide (i' = i /\ j' = j) then suf a b i j else cell i j i' j') as HC.
    { intros i' j' H1 H2. unfold cell. destruct (decide (i' = i /\ j' = j)) as [[-> ->]|Hne].
      - rewrite Nat.eqb_refl, (proj2 (Nat.ltb_lt j (S j))) by lia. cbn. by rewrite orb_true_r.
      - destruct (Nat.ltb_spec i' i), (Nat.eqb_spec i' i), (Nat.ltb_spec j' j), (Nat.ltb_spec j' (S j)); try done; lia. }
    destruct i as [|i].
    - cbn [Nat.ltb Nat.leb andb]. exists s1. split; [done|]. split; [done|]. do 3 (split; [done|]).
      intros i' j' H1 H2. rewrite HC by done. unfold s1. cbn [l_mat]. rewrite HM1 by done.
      destruct (decide (i' = 0 /\ j' = j)); [by rewrite Hv0|done].
    - rewrite (proj2 (Nat.ltb_lt 0 (S i))), (proj2 (Nat.ltb_lt 0 j)) by lia. cbn [andb].
      assert (same_at a b (S i) j = (ai =? bj)%Z) as HSA by (unfold same_at; by rewrite Hai, Hbj).
      assert (forall i' j', i' < na -> j' < nb -> m1 !! (j' * na + i') = Some (cell (S i) j i' j')) as HM1'.
      { intros i' j' H1 H2. rewrite HM1 by done. destruct (decide (i' = 0 /\ j' = j)) as [[-> ->]|]; [|done].
        rewrite <-Hv0. unfold cell. by rewrite (proj2 (Nat.ltb_lt 0 (S i))) by lia. }
      destruct j as [|j]; [lia|]. destruct (ai =? bj)%Z.
      + replace ((S j - 1) * na + S i - 1) with (j * na + i) by lia. cbn [l_mat s1]. unfold s1. cbn [l_mat]. rewrite HM1' by lia.
        assert (cell (S i) (S j) i j = suf a b i j) as -> by (unfold cell; by rewrite (proj2 (Nat.ltb_lt i (S i))) by lia).
        unfold mat_put. cbn [l_mat l_len l_a l_b]. rewrite (proj2 (Nat.ltb_lt _ _)) by (rewrite HL1; exact Iij).
        eexists. split; [done|]. cbn [l_mat l_len l_a l_b]. split; [by rewrite insert_length|]. do 3 (split; [done|]).
        intros i' j' H1 H2. rewrite HC by done. destruct (decide (i' = S i /\ j' = S j)) as [[-> ->]|Hne].
        * rewrite list_lookup_insert by (rewrite HL1; exact Iij). cbn [suf]. by rewrite HSA.
        * rewrite list_lookup_insert_ne; [by apply HM1'|]. intros E. apply Hne. destruct (idx_eq (S i) (S j) i' j'); lia.
      + exists s1. split; [done|]. split; [done|]. do 3 (split; [done|]). intros i' j' H1 H2. rewrite HC by done. unfold s1. cbn [l_mat].
        rewrite HM1' by done. destruct (decide (i' = S i /\ j' = S j)) as [[-> ->]|]; [|done].
        f_equal. unfold cell. cbn [suf]. rewrite HSA. rewrite Nat.ltb_irrefl, Nat.eqb_refl, Nat.ltb_irrefl. done. }
  rewrite HM2 by lia. assert (cell i (S j) i j = suf a b i j) as ->.
  { unfold cell. rewrite Nat.eqb_refl, (proj2 (Nat.ltb_lt j (S j))) by lia. cbn. by rewrite orb_true_r. }
  rewrite N1. destruct HN as [HF HB]. eexists. split; [done|]. destruct (Nat.ltb_spec (l_len s) (suf a b i j)) as [Hlt|Hge].
  - split; [split; done|]. split.
    + right. exists i, j. unfold found. cbn. split; [done|]. split; [done|]. split; [done|]. split; done.
    + cbn. intros i' j' H1 H2. destruct (decide (i' = i /\ j' = j)) as [[-> ->]|]; [lia|].
      specialize (HB i' j' H1 ltac:(lia)). lia.
  - split; [split; done|]. split.
    + rewrite N1. destruct HF as [HF|(i' & j' & HF)]; [by left|]. right. exists i', j'. unfold found in *. by rewrite N2, N3.
    + rewrite N1. intros i' j' H1 H2. destruct (decide (i' = i /\ j' = j)) as [[-> ->]|]; [lia|]. apply HB; lia.
Qed.
Lemma lcs_row_ok i s : b <> [] -> i < na -> mat_ok i 0 (l_mat s) -> len_ok i 0 s ->
  exists s', lcs_row a b i s = Some s' /\ mat_ok (S i) 0 (l_mat s') /\ len_ok (S i) 0 s'.
Proof using.
  intros Hb Hi [HL HM] HN. assert (0 < nb) as Hnb by (destruct b; cbn; [done|lia]). unfold lcs_row.
  destruct (lookup_lt_is_Some_2 b 0 Hnb) as [b0 Hb0]. destruct (lookup_lt_is_Some_2 a i Hi) as [ai Hai]. rewrite Hb0, Hai.
  unfold mat_put. pose proof (idx_lt i 0 Hi Hnb) as I0. cbn [Nat.mul Nat.add] in I0. rewrite (proj2 (Nat.ltb_lt _ _)) by lia.
  set (v := if (b0 =? ai)%Z then 1 else 0). assert (suf a b i 0 = v) as Hv.
  { destruct i; cbn [suf]; unfold same_at; rewrite Hai, Hb0, Z.eqb_sym; done. }
  destruct (for_each_ind (lcs_cell a b i) (fun j s => mat_ok i j (l_mat s) /\ len_ok i j s) 1 (nb - 1)
    (LCS (<[i:=v]> (l_mat s)) (l_len s) (l_a s) (l_b s))) as (s' & E & [HL' HM'] & HF & HB).
  - cbn. split.
    + split; [by rewrite insert_length|]. intros i' j' H1 H2. destruct (decide (i' = i /\ j' = 0)) as [[-> ->]|Hne].
      * cbn [Nat.mul Nat.add]. rewrite list_lookup_insert by lia. unfold cell. rewrite Nat.eqb_refl. cbn. by rewrite orb_true_r, Hv.
      * rewrite list_lookup_insert_ne.
        -- rewrite HM by done. unfold cell. destruct (Nat.ltb_spec i' i), (Nat.eqb_spec i' i), (Nat.ltb_spec j' 0), (Nat.ltb_spec j' 1); try done; lia.
        -- intros E. apply Hne. destruct (idx_eq i 0 i' j'); lia.
    + destruct HN as [HF HB]. split.
      * cbn. destruct HF as [HF|(i' & j' & HF)]; [by left|right]. exists i', j'. done.
      * cbn. intros i' j' H1 H2. apply HB; lia.
  - intros j s1 Hj [H1 H2]. rewrite Nat.add_1_r. apply cell_ok; auto. lia.
  - exists s'. split; [done|]. replace (1 + (nb - 1)) with nb in * by lia. split.
    + split; [done|]. intros i' j' H1 H2. rewrite HM' by done. unfold cell.
      destruct (Nat.ltb_spec i' i), (Nat.ltb_spec i' (S i)), (Nat.eqb_spec i' i), (Nat.eqb_spec i' (S i)), (Nat.ltb_spec j' nb), (Nat.ltb_spec j' 0); try done; lia.
    + split; [done|]. intros i' j' H1 H2. apply HB; lia.
Qed.
(* the reported length is the greatest one among common substrings that do not end at the
   first element of b *)
Lemma lcs_ok : a <> [] -> b <> [] -> exists s, lcs_run a b = Some s /\
  (l_len s = 0 \/ exists p q, l_a s = Z.of_nat p /\ l_b s = Z.of_nat q /\ common a b p q (l_len s)) /\
  forall p q n, 1 <= n -> 2 <= q + n -> common a b p q n -> n <= l_len s.
Proof using.
  intros Ha Hb. assert (0 < na) as Hna by (destruct a; cbn; [done|lia]). assert (0 < nb) as Hnb by (destruct b; cbn; [done|lia]). unfold lcs_run.
  destruct (for_each_ind (lcs_row a b) (fun i s => mat_ok i 0 (l_mat s) /\ len_ok i 0 s) 0 na
    (LCS (replicate (na * nb) 0) 0 (-1) (-1))) as (s & E & _ & HF & HB).
  - cbn. split.
    + split; [apply replicate_length|]. intros i' j' H1 H2. rewrite lookup_replicate_2 by (by apply idx_lt). unfold cell.
      destruct (Nat.ltb_spec i' 0), (Nat.ltb_spec j' 0); try lia. by rewrite andb_false_r.
    + split; [by left|]. intros; lia.
  - intros i s Hi [H1 H2]. rewrite Nat.add_1_r. apply lcs_row_ok; auto. lia.
  - exists s. split; [done|]. split.
    + destruct HF as [HF|(i & j & HS & Hj & Hi & E1 & E2)]; [by left|right]. destruct (suf_common a b i j) as (C1 & C2 & C3). rewrite <-HS in *.
      exists (S i - l_len s), (S j - l_len s). split; [lia|]. split; [lia|]. done.
    + intros p q n Hn Hq HC. destruct n as [|n]; [lia|]. pose proof (suf_max a b n p q HC) as HM.
      destruct (HC n ltac:(lia)) as (x & H1 & H2). apply lookup_lt_Some in H1, H2. specialize (HB (p + n) (q + n) ltac:(lia) ltac:(lia)). lia.
Qed.
End lcs.

(* odd-even sorting that keeps the order *)
(* SPEC: the elements that are to come first *)
Definition goes_first (odd_front : bool) (v : Z) : bool := if odd_front then Z.odd v else Z.even v.
Lemma rem2 v : (0 <= v)%Z -> Z.rem v 2 = if Z.odd v then 1%Z else 0%Z.
Proof. intros H. rewrite Z.rem_mod_nonneg by lia. apply Zmod_odd. Qed.

Section parity.
Context (f : bool).
Notation gf := (goes_first f).
Lemma step_cond a b : (0 <= a)%Z -> (0 <= b)%Z ->
  (if f then (Z.rem a 2 =? 0)%Z && (Z.rem b 2 =? 1)%Z else (Z.rem a 2 =? 1)%Z && (Z.rem b 2 =? 0)%Z) = negb (gf a) && gf b.
Proof using. intros Ha Hb. rewrite !rem2 by done. unfold goes_first. rewrite <-!Z.negb_odd. destruct f, (Z.odd a), (Z.odd b); done. Qed.
Definition nonneg (l : list Z) : Prop := forall v, v ∈ l -> (0 <= v)%Z.
(* both classes keep their order *)
Definition kept (l l' : list Z) : Prop := l' ≡ₚ l /\ filter (fun v => gf v = true) l' = filter (fun v => gf v = true) l /\
  filter (fun v => gf v = false) l' = filter (fun v => gf v = false) l.
Lemma kept_trans l1 l2 l3 : kept l1 l2 -> kept l2 l3 -> kept l1 l3.
Proof using. intros (P1 & H1 & H2) (P2 & H3 & H4). split; [by rewrite P2|]. split; congruence. Qed.
Lemma swap_kept j l a b : l !! j = Some a -> l !! S j = Some b -> gf a = false -> gf b = true -> kept l (<[S j := a]> (<[j := b]> l)).
Proof using.
  intros Ha Hb Fa Fb. split; [by apply swap_perm|]. destruct (split_two j (S j) l a b ltac:(lia) Ha Hb) as (l1 & l2 & l3 & -> & <- & H2).
  assert (l2 = []) as -> by (destruct l2; cbn in H2; [done|lia]). cbn [app].
  rewrite insert_mid. assert (<[S (length l1) := a]> (l1 ++ b :: b :: l3) = l1 ++ b :: a :: l3) as ->.
  { replace (l1 ++ b :: b :: l3) with ((l1 ++ [b]) ++ b :: l3) by (by rewrite <-app_assoc).
    replace (S (length l1)) with (length (l1 ++ [b])) by (rewrite app_length; cbn; lia). rewrite insert_mid. by rewrite <-app_assoc. }
  rewrite !filter_app, !filter_cons, Fa, Fb. repeat case_decide; try done.
Qed.
Lemma step_ok j l fl : nonneg l -> S j < length l -> exists l' fl', odd_even_step f j (l, fl) = Some (l', fl') /\ kept l l' /\
  (forall i, i <> j -> i <> S j -> l' !! i = l !! i) /\ (fl = true -> fl' = true) /\ (fl' = false -> l' = l) /\
  exists a b, l' !! j = Some a /\ l' !! S j = Some b /\ (gf b = true -> gf a = true) /\
    ((l !! j = Some a /\ l !! S j = Some b) \/ (l !! j = Some b /\ l !! S j = Some a)).
Proof using.
  intros HN Hj. destruct (swap_at_ok j (S j) l) as (a & b & Ha & Hb & E); [lia|lia|]. unfold odd_even_step. rewrite Ha, Hb.
  rewrite step_cond by (apply HN; by eapply elem_of_list_lookup_2). rewrite E.
  destruct (gf a) eqn:Fa; cbn [negb andb]; [|destruct (gf b) eqn:Fb].
  - eexists _, _. split; [done|]. split; [done|]. split; [done|]. split; [done|]. split; [done|]. exists a, b. rewrite Fa. split; [done|]. split; [done|]. split; [done|]. auto.
  - cbn [option_map]. eexists _, _. split; [done|]. split; [by apply swap_kept|]. split; [intros i H1 H2; by rewrite !list_lookup_insert_ne by lia|].
    split; [done|]. split; [done|]. exists b, a. rewrite list_lookup_insert_ne, !list_lookup_insert by (rewrite ?insert_length; lia).
    split; [done|]. split; [done|]. rewrite Fb. split; [done|]. auto.
  - eexists _, _. split; [done|]. split; [done|]. split; [done|]. split; [done|]. split; [done|]. exists a, b. rewrite Fb. split; [done|]. split; [done|]. split; [done|]. auto.
Qed.
Lemma kept_nonneg l l' : nonneg l -> kept l l' -> nonneg l'.
Proof using. intros H (P & _) v Hv. apply H. by rewrite <-P. Qed.
Lemma kept_len l l' : kept l l' -> length l' = length l.
Proof using. intros [P _]. by apply Permutation_length. Qed.
Lemma kept_refl l : kept l l.
Proof using. done. Qed.
Lemma inner_ok n l : nonneg l -> n < length l -> exists l' fl, for_each (odd_even_step f) (seq 0 n) (l, false) = Some (l', fl) /\ kept l l' /\
  (forall i, n < i -> l' !! i = l !! i) /\
  (forall i v w, i <= n -> l' !! i = Some v -> l' !! n = Some w -> gf w = true -> gf v = true) /\
  (forall i v, i <= n -> l' !! i = Some v -> exists k, k <= n /\ l !! k = Some v) /\
  (fl = false -> forall i v w, i < n -> l' !! i = Some v -> l' !! S i = Some w -> gf w = true -> gf v = true).
Proof using.
  intros HN Hn. destruct (for_each_ind (odd_even_step f) (fun j st => kept l (fst st) /\ (forall i, j < i -> fst st !! i = l !! i) /\
    (forall i v w, i <= j -> fst st !! i = Some v -> fst st !! j = Some w -> gf w = true -> gf v = true) /\
    (forall i v, i <= j -> fst st !! i = Some v -> exists k, k <= j /\ l !! k = Some v) /\
    (snd st = false -> forall i v w, i < j -> fst st !! i = Some v -> fst st !! S i = Some w -> gf w = true -> gf v = true)) 0 n (l, false))
    as ([l' fl] & E & H1 & H2 & H3 & H4 & H5); cbn [fst snd] in *.
  - split; [done|]. split; [done|]. split.
    + intros i v w Hi Hv Hw. assert (i = 0) as -> by lia. congruence.
    + split; [eauto|]. intros _ i v w Hi. lia.
  - intros j [l1 fl1] Hj (H1 & H2 & H3 & H4 & H5). cbn [fst snd] in *. assert (length l1 = length l) as HL by (by apply kept_len).
    destruct (step_ok j l1 fl1) as (l2 & fl2 & E & P2 & K2 & F1 & F2 & a & b & Ha & Hb & Hab & HC); [by eapply kept_nonneg|lia|].
    exists (l2, fl2). split; [done|]. cbn [fst snd]. rewrite Nat.add_1_r.
    split; [by eapply kept_trans|]. split; [|split; [|split]].
    + intros i Hi. rewrite K2 by lia. apply H2. lia.
    + intros i v w Hi Hv Hw Fw. assert (w = b) as -> by congruence. destruct (decide (i = S j)) as [->|]; [congruence|].
      destruct (decide (i = j)) as [->|]; [assert (v = a) as -> by congruence; auto|].
      rewrite K2 in Hv by lia. destruct HC as [[HC1 HC2]|[HC1 HC2]].
      * apply (H3 i v a); auto. lia.
      * apply (H3 i v b); auto. lia.
    + intros i v Hi Hv. assert (l1 !! S j = l !! S j) as HJ by (apply H2; lia).
      destruct (decide (i = S j)) as [->|]; [assert (v = b) as -> by congruence|destruct (decide (i = j)) as [->|]; [assert (v = a) as -> by congruence|]].
      * destruct HC as [[HC1 HC2]|[HC1 HC2]]; [exists (S j); split; [lia|congruence]|].
        destruct (H4 j b) as (k & Hk & Ek); [lia|done|]. exists k. split; [lia|done].
      * destruct HC as [[HC1 HC2]|[HC1 HC2]]; [|exists (S j); split; [lia|congruence]].
        destruct (H4 j a) as (k & Hk & Ek); [lia|done|]. exists k. split; [lia|done].
      * rewrite K2 in Hv by lia. destruct (H4 i v) as (k & Hk & Ek); [lia|done|]. exists k. split; [lia|done].
    + intros Hfl i v w Hi Hv Hw Fw. destruct (decide (i = j)) as [->|].
      * assert (v = a) as -> by congruence. assert (w = b) as -> by congruence. auto.
      * rewrite F2 in Hv, Hw by done. apply (H5 ltac:(destruct fl1; [by rewrite F1 in Hfl|done]) i v w); auto. lia.
  - exists l', fl. cbn [Nat.add] in *. auto 10.
Qed.
(* SPEC: all that go first stand before all others *)
Definition separated (l : list Z) : Prop := forall i j v w, i < j -> l !! i = Some v -> l !! j = Some w -> gf w = true -> gf v = true.
Lemma adjacent_sep n l : n < length l ->
  (forall i v w, i < n -> l !! i = Some v -> l !! S i = Some w -> gf w = true -> gf v = true) ->
  forall j i v w, i <= j -> j <= n -> l !! i = Some v -> l !! j = Some w -> gf w = true -> gf v = true.
Proof using.
  intros Hn HA. induction j as [|j IH]; intros i v w Hij Hj Hv Hw Fw.
  - assert (i = 0) as -> by lia. congruence.
  - destruct (decide (i = S j)) as [->|]; [congruence|]. destruct (lookup_lt_is_Some_2 l j ltac:(lia)) as [x Hx].
    apply (IH i v x); auto; try lia. apply (HA j x w); auto.
Qed.
Lemma outer_ok n l0 : n = length l0 -> nonneg l0 -> forall k i l, i + k = n - 1 -> kept l0 l ->
  (forall p q v w, p < q -> n - i <= q -> l !! p = Some v -> l !! q = Some w -> gf w = true -> gf v = true) ->
  exists l', odd_even_outer f (seq i k) l = Some l' /\ kept l0 l' /\ separated l'.
Proof using.
  intros Hn HN. induction k as [|k IH]; intros i l Hi HK HS; cbn [odd_even_outer seq].
  - exists l. split; [done|]. split; [done|]. intros p q v w Hpq Hv Hw. apply (HS p q); auto. apply lookup_lt_Some in Hw.
    apply kept_len in HK. lia.
  - assert (length l = n) as HL by (apply kept_len in HK; lia). rewrite HL.
    destruct (inner_ok (n - 1 - i) l) as (l' & fl & -> & P' & K1 & K2 & K3 & K4); [by eapply kept_nonneg|lia|].
    assert (length l' = n) as HL' by (apply kept_len in P'; lia).
    assert (forall p q v w, p < q -> n - S i <= q -> l' !! p = Some v -> l' !! q = Some w -> gf w = true -> gf v = true) as HS'.
    { intros p q v w Hpq Hq Hv Hw Fw. destruct (decide (q = n - 1 - i)) as [->|Hne]; [eapply (K2 p); eauto; lia|].
      assert (l !! q = Some w) as Hw1 by (rewrite <-K1 by lia; done).
      destruct (decide (p <= n - 1 - i)).
      - destruct (K3 p v) as (k' & Hk & Ek); [lia|done|]. apply (HS k' q v w); auto; lia.
      - rewrite K1 in Hv by lia. apply (HS p q v w); auto; lia. }
    destruct fl.
    + apply IH; [lia|by eapply kept_trans|done].
    + exists l'. split; [done|]. split; [by eapply kept_trans|]. intros p q v w Hpq Hv Hw Fw. destruct (decide (q <= n - 1 - i)).
      * apply (adjacent_sep (n - 1 - i) l' ltac:(lia) (K4 eq_refl) q p v w); auto; lia.
      * apply (HS' p q v w); auto; lia.
Qed.
Lemma sep_split l : separated l -> l = filter (fun v => gf v = true) l ++ filter (fun v => gf v = false) l.
Proof using.
  induction l as [|x l IH]; intros HS; [done|]. rewrite !filter_cons.
  assert (separated l) as HS' by (intros i j v w Hij Hv Hw; apply (HS (S i) (S j)); auto; lia).
  destruct (gf x) eqn:Fx; repeat case_decide; try done.
  - cbn. f_equal. auto.
  - assert (filter (fun v => gf v = true) l = []) as HE.
    { destruct (filter _ l) as [|y ys] eqn:E; [done|]. assert (y ∈ filter (fun v => gf v = true) l) as Hy by (rewrite E; left).
      apply elem_of_list_filter in Hy as [Fy Hy]. apply elem_of_list_lookup in Hy as (j & Hj).
      rewrite (HS 0 (S j) x y) in Fx; auto; [done|lia]. }
    specialize (IH HS'). rewrite HE in IH |- *. cbn in *. congruence.
Qed.
Lemma odd_even_ok l : nonneg l -> odd_even_sort f l = Some (filter (fun v => gf v = true) l ++ filter (fun v => gf v = false) l).
Proof using.
  intros HN. unfold odd_even_sort. destruct (outer_ok (length l) l eq_refl HN (length l - 1) 0 l) as (l' & -> & (_ & H1 & H2) & HS); [lia|done| |].
  - intros p q v w _ Hq _ Hw. apply lookup_lt_Some in Hw. lia.
  - f_equal. rewrite (sep_split l' HS), H1, H2. done.
Qed.
End parity.

Lemma lcs_fails : exists a b s, lcs_run a b = Some s /\ l_len s = 0 /\ common a b 0 0 1.
Proof.
  exists [7]%Z, [7; 8]%Z, (LCS [1; 0] 0 (-1) (-1)). split; [done|]. split; [done|]. intros k Hk. assert (k = 0) as -> by lia. cbn. eauto.
Qed.

(* small values meet the hypotheses on sums *)
Lemma zsum_small (B : Z) l : (forall v, v ∈ l -> (- B <= v <= B)%Z) -> (- (B * Z.of_nat (length l)) <= zsum l <= B * Z.of_nat (length l))%Z.
Proof.
  unfold zsum. induction l as [|x l IH]; intros H; cbn [length foldr]; [lia|]. pose proof (H x ltac:(left)).
  specialize (IH ltac:(intros; apply H; by right)). nia.
Qed.
Lemma sums_fit_small (B : Z) vs : (0 <= B)%Z -> (forall v, v ∈ vs -> (- B <= v <= B)%Z) -> (B * Z.of_nat (length vs) < 2 ^ 31)%Z -> sums_fit vs.
Proof.
  intros HB H HL b n [Hn Hb]. unfold run_sum. pose proof (zsum_small B (take n (drop b vs))) as HZ. rewrite take_length, drop_length in HZ.
  destruct HZ; [|unfold fits32; nia]. intros v Hv. apply H. eapply elem_of_submseteq; [exact Hv|]. apply sublist_submseteq.
  etrans; [apply sublist_take|apply sublist_drop].
Qed.
Lemma values_fit_small (B : Z) vs : (0 <= B)%Z -> (forall v, v ∈ vs -> (- B <= v <= B)%Z) -> (B * Z.of_nat (length vs) < 2 ^ 31)%Z -> values_fit vs.
Proof.
  intros HB H HL ch. assert (forall ch vs, (forall v, v ∈ vs -> (- B <= v <= B)%Z) ->
    (- (B * Z.of_nat (length vs)) <= chosen ch vs <= B * Z.of_nat (length vs))%Z) as HC.
  { clear -HB. induction ch as [|c ch IH]; intros [|v vs] H; cbn [length chosen]; try nia.
    pose proof (H v ltac:(left)). specialize (IH vs ltac:(intros; apply H; by right)). destruct c; nia. }
  specialize (HC ch vs H). unfold fits32. nia.
Qed.
Lemma ex_sums : sums_fit [1; -2; 3; 4; -1; 5; -9]%Z.
Proof. apply (sums_fit_small 9); [lia| |cbn; lia]. apply Forall_forall. repeat constructor; lia. Qed.
Lemma ex_values : values_fit [3; 4; 5; 7]%Z /\ forall x, x ∈ [2; 3; 4; 5]%Z -> (0 <= x)%Z.
Proof.
  split; [apply (values_fit_small 9); [lia| |cbn; lia]|]; apply Forall_forall; repeat constructor; lia.
Qed.
Lemma bag_flags_fail : exists ws vs w v fl, bag ws vs w = Some (v, fl) /\ (w < chosen fl ws)%Z.
Proof. exists [2; 1]%Z, [5; 5]%Z, 1%Z, 5%Z, [true; true]. vm_compute. split; done. Qed.
