(* Extraction with four partitions: the phases put together. *)
From stdpp Require Import sorting relations functions list_numbers list.
From Coq Require Import NArith ZArith.
From Verif Require Import FloodModel ConnectModel PartModel WholeModel FloatModel RecogModel RectModel ExtractModel
  ExtractAbs ExtractLink RectFacts ExtractMem ExtractFinish ExtractDecode.
Local Open Scope nat_scope.

Lemma lookup_map {X Y} (f : X -> Y) q i : map f q !! i = f <$> q !! i.
Proof. revert i. induction q as [|x q IH]; intros [|i]; cbn; auto. Qed.

Lemma cells_len r : length (cells r) = r_w r * r_h r.
Proof.
  unfold cells. assert (forall h z, length (flat_map (fun y => map (pair y) (seq 0 (r_w r))) (seq z h)) = r_w r * h) as H; [|apply H].
  induction h as [|h IH]; intros z; cbn [seq flat_map]; [cbn; lia|]. rewrite app_length, map_length, seq_length, IH. lia.
Qed.

Lemma sumto_ext f g m : (forall j, j < m -> f j = g j) -> sumto f m = sumto g m.
Proof. induction m as [|m IH]; intros H; [done|]. cbn. rewrite IH by (intros; apply H; lia). by rewrite H by lia. Qed.
Lemma sumto_mon f g m : (forall j, j < m -> f j <= g j) -> sumto f m <= sumto g m.
Proof. induction m as [|m IH]; intros H; [done|]. cbn. specialize (IH ltac:(intros; apply H; lia)). pose proof (H m ltac:(lia)). lia. Qed.
Lemma sumto_add f g m : sumto (fun j => f j + g j) m = sumto f m + sumto g m.
Proof. induction m as [|m IH]; cbn; lia. Qed.

Section ext.
Context (F0 : forest) (l : list rref) (dd : rref -> nat) (fuel : nat).
Context (Hid : forall x a, fget F0 x = Some a -> (g_patch a, g_idx a) = x).
Context (Hpar : forall x a y, fget F0 x = Some a -> g_par a = Some y -> is_Some (fget F0 y) /\ dd y < dd x).
Context (Hfuel : forall x, is_Some (fget F0 x) -> dd x + 1 < fuel).
Context (Hl : NoDup l) (Hlv : forall z, z ∈ l <-> exists a, fget F0 z = Some a /\ g_flag a = 2).
Notation n := (length l). Notation vp := (vp F0 l fuel). Notation NR := (NR F0 fuel). Notation NP := (NP F0 fuel).
Notation sz := (sz F0 l). Notation gr := (gr F0 l).
Context (Hord : forall i j, vp i = Some j -> i < j).
Context (thr : Z) (rs : list prect) (os : list fbuf) (lbl : nat -> nat * nat -> nat).
Definition rk (k : nat) : prect := nth k rs (PRect 0 0 0 0).
Context (Hrs : 4 <= length rs) (Hos : 4 <= length os).
Context (Hword : forall k b c, k < 4 -> os !! k = Some b -> c ∈ cells (rk k) ->
  b_pts b !! word_at (rk k) c = Some (bnd4 + N.of_nat (lbl k c))%N /\ (N.of_nat (lbl k c) < 2 ^ 29)%N /\ is_Some (fget F0 (k, lbl k c))).
Definition owk (k : nat) (c : nat * nat) : option nat :=
  match NR (Some (k, lbl k c)) with Some y => ix l y | None => None end.
Definition ownp (k j : nat) : list pt := map (cpt (rk k)) (hit (owk k) j (cells (rk k))).
Notation pts := (pts vp ownp). Notation shr := (shr F0 l fuel thr).
Context (Hsz : forall j, j < n -> sz j = length (pts j)).
Context (Hne : forall j, j < n -> exists k, k < 4 /\ ownp k j <> []).
Context (Hco : forall k c, k < 4 -> c ∈ cells (rk k) -> (0 <= fst (cpt (rk k) c) < 2 ^ 15)%Z /\ (0 <= snd (cpt (rk k) c) < 2 ^ 15)%Z).
Context (Hnum : (Z.of_nat ((n * 3 + 1) * 4) < 2 ^ 31)%Z) (Hsum : (Z.of_nat (sumto (cost F0 l fuel thr) n) < 2 ^ 31)%Z).

Let Hvp := Hvp F0 l fuel Hl Hord.

Lemma ksum_kpx j : j < n -> ksum F0 l (chl vp j) = kpx vp ownp j.
Proof.
  intros Hj. unfold ksum, kpx. assert (forall c, c ∈ chl vp j -> c < n) as Hc.
  { intros c Hc. apply (elem_chl n vp Hvp) in Hc. pose proof (Hvp _ _ Hc). lia. }
  revert Hc. induction (chl vp j) as [|c q IH]; intros Hc; [done|]. cbn [map sum_list mbind list_bind].
  rewrite app_length, <-IH by (intros d Hd; apply Hc; by right). rewrite (Hsz c) by (apply Hc; left). done.
Qed.
Lemma Hk j : j < n -> ksum F0 l (chl vp j) <= sz j.
Proof. intros Hj. rewrite ksum_kpx, Hsz, (pts_len n vp Hvp) by done. lia. Qed.
Lemma ksum_elem c q : c ∈ q -> sz c <= ksum F0 l q.
Proof. induction 1 as [|c d q _ IH]; unfold ksum in *; cbn; unfold id in *; lia. Qed.
Lemma shr_down i j : vp i = Some j -> shr j = true -> shr i = true.
Proof.
  intros Hv Hs. assert (i ∈ chl vp j) as Hi by (by apply (elem_chl n vp Hvp)). pose proof (Hvp _ _ Hv) as [_ Hj].
  unfold ExtractLink.shr in *. apply orb_true_iff in Hs as [Hs|Hs].
  - apply Nat.eqb_eq in Hs. apply nil_length_inv in Hs. rewrite Hs in Hi. by apply elem_of_nil in Hi.
  - apply orb_true_iff. right. apply Z.leb_le in Hs. apply Z.leb_le. pose proof (Hk j Hj). pose proof (ksum_elem i _ Hi). lia.
Qed.
Lemma cost_total : sumto (cost F0 l fuel thr) n = total n vp ownp shr.
Proof.
  unfold total, hp, cum. rewrite <-!sumto_add. apply sumto_ext. intros j Hj. unfold cost, blk.
  rewrite (Hsz j Hj), (ksum_kpx j Hj), (pts_len n vp Hvp). unfold kn. set (q := (2 + length (chl vp j)) / 2). destruct (shr j); lia.
Qed.
Lemma owk_lt k c j : owk k c = Some j -> j < n.
Proof. unfold owk. destruct (NR _) as [y|]; [|done]. intros E. apply (ix_some l Hl) in E. by eapply lookup_lt_Some. Qed.
Lemma owk_enc k c : enc l (NR (Some (k, lbl k c))) = encZ (owk k c).
Proof. unfold owk, enc, encZ. destruct (NR _) as [y|]; [|done]. by destruct (ix l y). Qed.
Lemma n_none : (N.of_nat n < none32)%N.
Proof. assert (Z.of_N none32 = 4294967295)%Z by reflexivity. lia. Qed.
Lemma rk_at k : k < 4 -> rs !! k = Some (rk k).
Proof. intros Hk. unfold rk. rewrite nth_lookup. destruct (lookup_lt_is_Some_2 rs k) as [r ->]; [lia|done]. Qed.

Lemma count_ok s k : k < 4 -> (forall x, is_Some (fget F0 x) -> h_get s x = Some (enc l (NR (Some x)))) ->
  exists ps cs b, count_part s n rs os k = Some (ps, cs, cum ownp k n) /\ os !! k = Some b /\
    (forall c, c ∈ cells (rk k) -> ps !! word_at (rk k) c = Some (encN (owk k c))) /\
    (forall i, (forall c, c ∈ cells (rk k) -> i <> word_at (rk k) c) -> ps !! i = b_pts b !! i) /\ length ps = length (b_pts b) /\
    forall j, j < n -> cs !! j = Some (nk ownp k j).
Proof.
  intros Hk Hg. destruct (lookup_lt_is_Some_2 os k) as [b Hb]; [lia|]. unfold count_part. rewrite (rk_at k Hk), Hb.
  destruct (count_cells_ok s k (rk k) n (owk k)) with (cells (rk k)) (b_pts b) (replicate n 0) 0 as (ps & cs & E & H1 & H2 & H3 & H4 & H5).
  - intros c j _. apply owk_lt.
  - apply n_none.
  - apply cells_NoDup.
  - done.
  - apply replicate_length.
  - intros c Hc. destruct (Hword k b c Hk Hb Hc) as (W1 & W2 & W3). exists (lbl k c). split; auto. split; auto.
    rewrite Hg by done. by rewrite owk_enc.
  - exists ps, cs, b. rewrite E. cbn [Nat.add].
    assert (forall c j, c ∈ cells (rk k) -> owk k c = Some j -> j < n) as Hlt by (intros c j _; apply owk_lt).
    rewrite (hits_sum (rk k) n (owk k) Hlt n_none (cells (rk k))) by done.
    split. { unfold cum. do 2 f_equal. apply sumto_ext. intros j _. unfold nk, ownp. by rewrite map_length. }
    split; auto. split; auto. split; auto. split; auto. intros j Hj.
    rewrite (H5 j 0). 2:{ apply lookup_replicate_2. lia. } unfold nk, ownp. by rewrite map_length.
Qed.

Lemma extract_ok gm heap0 sched : (forall k, k ∈ sched -> k < 4) -> (forall k, k < 4 -> r_w (rk k) * r_h (rk k) <= turns k sched) ->
  exists m ms ps, extract_4 fuel gm thr rs os F0 heap0 l sched = Some (MRes (total n vp ownp shr) m ms, ps) /\
    after7 n vp ownp shr gr sz n (m, ms) /\ length ps = 4 /\
    forall k p b, ps !! k = Some p -> os !! k = Some b -> length p = length (b_pts b) /\
      (forall c, c ∈ cells (rk k) -> p !! word_at (rk k) c = Some (encN (owk k c))) /\
      (forall i, (forall c, c ∈ cells (rk k) -> i <> word_at (rk k) c) -> p !! i = b_pts b !! i).
Proof.
  intros Hsc Htu. unfold extract_4. destruct (Z.leb_spec (2 ^ 31) (Z.of_nat ((n * 3 + 1) * 4))); [lia|].
  destruct (first_ok F0 l Hid Hl Hlv gm heap0) as ([s1 ms1] & E1 & A1). rewrite E1.
  destruct (second_ok F0 l dd fuel Hpar Hfuel Hl Hlv Hk thr gm (s1, ms1) A1 Hsum) as ([[s2 ms2] tot] & E2 & A2). cbn [fst snd] in E2. rewrite E2.
  destruct (third_ok F0 l dd fuel Hid Hpar Hfuel Hl Hlv thr gm _ A2) as (s3 & E3 & HF3 & Hg3 & Hkd & Hkp). cbn [fst snd] in E3, HF3, Hkd, Hkp.
  rewrite E3. destruct A2 as [B1 B2 B3 B4 B5 B6 B7 B8]. cbn [fst snd] in *.
  destruct (count_ok s3 0 ltac:(lia) Hg3) as (p0 & c0 & b0 & -> & Hb0 & P0 & Q0 & L0 & N0).
  destruct (count_ok s3 1 ltac:(lia) Hg3) as (p1 & c1 & b1 & -> & Hb1 & P1 & Q1 & L1 & N1).
  destruct (count_ok s3 2 ltac:(lia) Hg3) as (p2 & c2 & b2 & -> & Hb2 & P2 & Q2 & L2 & N2).
  destruct (count_ok s3 3 ltac:(lia) Hg3) as (p3 & c3 & b3 & -> & Hb3 & P3 & Q3 & L3 & N3).
  cbn zeta. assert (Z.to_nat tot = total n vp ownp shr) as -> by (rewrite B8, Nat2Z.id; apply cost_total).
  set (T := total n vp ownp shr). assert (T = hp vp ownp shr n + cum ownp 1 n + cum ownp 2 n + cum ownp 3 n) as HT by done.
  destruct (Nat.ltb_spec T (cum ownp 1 n + cum ownp 2 n + cum ownp 3 n)); [lia|].
  (* placing *)
  destruct (place_ok n vp ownp shr s3 l gr sz [c0; c1; c2; c3]
    (Lay (fun _ => None) ms2 [0; T - cum ownp 3 n - cum ownp 2 n - cum ownp 1 n; T - cum ownp 3 n - cum ownp 2 n; T - cum ownp 3 n] [] (fun _ => None)))
    as (ly & E5 & [C1 C2 C3 [C4 C5] C6 C7 C8]); auto.
  { intros j x Hx. destruct (l_stored F0 l Hlv j x Hx) as (a0 & Ha0 & Hf0). destruct (rl_reg _ _ _ _ B1 x a0 Ha0) as (a & Ha & Ea & _).
    exists a. rewrite HF3. split; auto. assert (j < n) as Hj by (by eapply lookup_lt_Some). split.
    - unfold ExtractLink.gr. rewrite Hx, Ha0. rewrite Ea. by destruct a0.
    - rewrite Hkd, Hkp. destruct (B4 j x Hx) as [-> ->]. rewrite <-ksum_kpx by done.
      rewrite (procs_later n vp Hvp n j) by lia. done. }
  { exists c0, c1, c2, c3. split; [done|]. intros j Hj. repeat split; auto. }
  { constructor; cbn [l_starts l_mem l_ms l_pos l_mi]; try (intros; lia).
    - cbn [pos bpos]. assert (forall k, cum ownp k 0 = 0) as Hc0 by done. rewrite !Hc0, HT. cbn [hp sumto].
      assert (forall a b c d a' b' c' d' : nat, a = a' -> b = b' -> c = c' -> d = d' -> [a; b; c; d] = [a'; b'; c'; d']) as H4 by (intros; congruence).
      apply H4; (done || lia).
    - split; [done|]. intros; lia.
    - intros j [_ Hj]. rewrite (B7 j Hj), (proj2 (Nat.ltb_lt _ _) Hj). eauto.
    - done. }
  fold T in E5. rewrite E5.
  (* filling *)
  set (infos := fun k => map (fun q => BInfo (nth k q 0) 0 (-1) 0 0) (l_pos ly)).
  set (wk := fun k p => FWk (nth k rs (PRect 0 0 0 0)) p (cells (nth k rs (PRect 0 0 0 0))) (infos k)).
  assert (forall k p, k < 4 -> (forall c, c ∈ cells (rk k) -> p !! word_at (rk k) c = Some (encN (owk k c))) ->
    wok n vp ownp shr rk owk k (l_mem ly) (wk k p)) as Hwk.
  { intros k p Hk Hp. constructor; cbn [fw_r fw_pts fw_todo fw_infos wk]; auto. exists []. split; [done|]. split.
    - unfold infos. rewrite C7, !map_length. apply seq_length.
    - intros j Hj. exists (BInfo (pos n vp ownp shr j (Bk k)) 0 (-1) 0 0). split.
      { unfold infos. rewrite C7, !lookup_map, lookup_seq_lt by done. cbn [fmap option_fmap option_map Nat.add].
        do 2 f_equal. destruct k as [|[|[|[|k]]]]; try done; lia. }
      split; [cbn; lia|]. split; [left; done|]. split; [cbn; lia|done]. }
  destruct (fill_ok n vp ownp shr rk owk) with sched (l_mem ly) [wk 0 p0; wk 1 p1; wk 2 p2; wk 3 p3] as (m' & ws & E6 & Hl6 & W6 & R6 & T6); auto.
  { pose proof n_none. lia. }
  { intros k c j _ _. apply owk_lt. }
  { intros [|[|[|[|k]]]] w Hw; cbn in Hw; try done; injection Hw as <-; apply Hwk; auto; lia. }
  fold T in E6. cbn zeta. match goal with |- context [fill_run T sched (l_mem ly) ?w] => change w with [wk 0 p0; wk 1 p1; wk 2 p2; wk 3 p3] end.
  rewrite E6.
  assert (forall k, k < 4 -> exists w, ws !! k = Some w /\ fw_todo w = []) as Hdone.
  { intros k Hk. assert (length (cells (rk k)) = r_w (rk k) * r_h (rk k)) as Hcl.
    { apply cells_len. }
    assert (exists p, [wk 0 p0; wk 1 p1; wk 2 p2; wk 3 p3] !! k = Some (wk k p)) as (p & Hp).
    { destruct k as [|[|[|[|k]]]]; cbn; eauto; lia. }
    destruct (T6 k _ Hp) as (w & Hw & Ht). exists w. split; auto. apply nil_length_inv. rewrite Ht. cbn [fw_todo wk]. fold (rk k).
    rewrite Hcl. specialize (Htu k Hk). lia. }
  assert (fill_done ws = true) as ->.
  { unfold fill_done. apply forallb_forall. intros w Hw. apply elem_of_list_In, elem_of_list_lookup in Hw as (k & Hw).
    destruct (Hdone k) as (w' & Hw' & Ht); [rewrite <-Hl6; by eapply lookup_lt_Some|]. replace w with w' by congruence. by rewrite Ht. }
  cbn [negb].
  assert (forall k w j, ws !! k = Some w -> j < n -> exists b, fw_infos w !! j = Some b /\ info_of (ownp k j) b /\ holds n vp ownp shr m' j (Bk k) 0 (ownp k j)) as Hinf.
  { intros k w j Hw Hj. assert (k < 4) as Hk4 by (rewrite <-Hl6; by eapply lookup_lt_Some).
    destruct (Hdone k Hk4) as (w' & Hw' & Ht). replace w' with w in Ht by congruence.
    destruct (W6 k w Hw) as [_ _ (dn & D1 & D2 & D3)]. rewrite Ht, app_nil_r in D1. subst dn.
    destruct (D3 j Hj) as (b & ? & _ & ? & ?). eauto. }
  (* finishing *)
  destruct (last_ok n vp Hvp ownp shr shr_down Hne s3 l (l_mi ly) (map fw_infos ws) gr sz (m', l_ms ly)) as ([m ms] & E7 & A7); auto.
  { intros i x Hx. assert (i < n) as Hi by (by eapply lookup_lt_Some). destruct (B2 i x Hx Hi) as (a & Ha & Ep). exists a. rewrite HF3. split; auto.
    destruct (NP x) as [y|] eqn:En.
    - right. destruct (l_stored F0 l Hlv i x Hx) as (a0 & Ha0 & Hf0).
      destruct (NP_in F0 l dd fuel Hpar Hfuel Hlv x y ltac:(eauto) En) as [Hy _].
      apply elem_of_list_lookup in Hy as (j & Hj). destruct (l_stored F0 l Hlv j y Hj) as (c & Hc & Hcf).
      destruct (rl_reg _ _ _ _ B1 y c Hc) as (b & Hb & Eb & _). exists y, b, j. split; auto. split; auto. split; [rewrite Eb; by destruct c|].
      split; [apply C8; auto; by eapply lookup_lt_Some|]. apply (vp_some F0 l fuel Hl i x Hx). eauto.
    - left. split; auto. destruct (vp i) as [j|] eqn:Ev; [|done]. apply (vp_some F0 l fuel Hl i x Hx) in Ev as (y & ? & _). congruence. }
  { assert (exists w0 w1 w2 w3, ws = [w0; w1; w2; w3]) as (w0 & w1 & w2 & w3 & ->).
    { destruct ws as [|w0 [|w1 [|w2 [|w3 [|]]]]]; try done; eauto. }
    exists (fw_infos w0), (fw_infos w1), (fw_infos w2), (fw_infos w3). split; [done|]. intros k c j Hc Hj.
    rewrite lookup_map in Hc. destruct ([w0; w1; w2; w3] !! k) as [w|] eqn:Ew; [|done].
    injection Hc as <-. destruct (Hinf k w j Ew Hj) as (b & ? & ? & _). eauto. }
  { assert (forall k j, k < 4 -> j < n -> holds n vp ownp shr m' j (Bk k) 0 (ownp k j)) as Hh.
    { intros k j Hk Hj. destruct (Hdone k Hk) as (w & Hw & _). by destruct (Hinf k w j Hw Hj) as (b & _ & _ & ?). }
    assert (forall j, cont vp ownp shr 0 j = ownp 0 j) as Hcont by (intros j; unfold cont; destruct (shr j); by rewrite app_nil_r).
    constructor; cbn [fst snd]; auto.
    - intros j Hj k Hk. destruct (C2 j Hj) as [_ H2].
      assert (map (fun k => range_of n vp ownp shr k j) (seq 0 4) !! k = Some (range_of n vp ownp shr k j)) as Hr.
      { destruct k as [|[|[|[|k]]]]; try done; lia. }
      pose proof (H2 k _ Hr 0 ltac:(lia)) as V0. pose proof (H2 k _ Hr 1 ltac:(lia)) as V1. cbn [Nat.add] in V0, V1.
      rewrite (R6 j Hd k 0), (R6 j Hd k 1); [|by repeat split; auto|by intros|by repeat split; auto|by intros].
      rewrite V0, V1. unfold rng, range_of, pv. cbn [fst snd Nat.eqb Nat.ltb Nat.leb]. rewrite Hcont, !Z.sub_0_r. split; [done|].
      do 3 f_equal. by destruct k.
    - intros j Hj. rewrite Hcont. apply Hh; [lia|done].
    - intros j k Hj Hk. apply Hh; auto. lia.
    - intros j Hj Hs. split; [|by intros t0 c Hc]. unfold CW. change (0 / 2) with 0. change (0 mod 2) with 0.
      rewrite (R6 j Ch 0 0); [by apply C3|repeat split; auto; cbn [len]; rewrite Hs; apply kn_pos|intros k _ ?; done].
    - intros j Hj. exists rect0. split; [by apply C5|]. unfold rects_ok. cbn [Nat.ltb Nat.leb]. by left. }
  fold T in E7. rewrite E7. exists m, ms, [p0; p1; p2; p3]. split; [done|]. split; [done|]. split; [done|].
  intros [|[|[|[|k]]]] p b Hp Hb; cbn in Hp; try done; injection Hp as <-.
  - assert (b0 = b) as <- by congruence. auto.
  - assert (b1 = b) as <- by congruence. auto.
  - assert (b2 = b) as <- by congruence. auto.
  - assert (b3 = b) as <- by congruence. auto.
Qed.
End ext.
