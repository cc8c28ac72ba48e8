(* The last loop of extraction: pixels of children are copied into or listed with their
   parents, rectangles are combined, offsets become relative. *)
From stdpp Require Import sorting relations functions list_numbers list.
From Coq Require Import NArith ZArith.
From Verif Require Import FloodModel ConnectModel ConnectProof PartModel WholeModel FloatModel RecogModel RectModel ExtractModel
  ExtractAbs ExtractLink RectFacts ExtractMem.
Local Open Scope nat_scope.

Local Ltac okk := repeat split; auto; try lia; try (cbn; lia).

Section fin.
Context (n : nat) (vp : nat -> option nat) (Hvp : forall i j, vp i = Some j -> i < j /\ j < n).
Context (own : nat -> nat -> list pt) (sh : nat -> bool).
Context (Hsh : forall i j, vp i = Some j -> sh j = true -> sh i = true).
Context (Hne : forall j, j < n -> exists k, k < 4 /\ own k j <> []).
Notation pos := (pos n vp own sh). Notation len := (len vp own sh). Notation total := (total n vp own sh).
Notation hp := (hp vp own sh). Notation nk := (nk own). Notation pts := (pts vp own). Notation chl := (chl vp).
Notation kpx := (kpx vp own). Notation procs := (procs vp). Notation kn := (kn vp). Notation reach := (reach vp).
Notation W := (W n vp own sh). Notation ok4 := (ok4 n vp own sh). Notation holds := (holds n vp own sh). Notation adr := (adr n vp own sh).

(* ---------- copying ---------- *)
Lemma copy_pts_ok L i s qa j t qb m : i < n -> j < n -> okslot s -> okslot t -> (i, s) <> (j, t) ->
  holds m i s qa L -> qb + length L <= len j t ->
  exists m', copy_pts total m (pos i s + qa) (pos j t + qb) (length L) = Some m' /\ holds m' j t qb L /\
    forall i' s' q' e', ok4 i' s' q' e' -> (i', s') <> (j, t) \/ q' < qb \/ qb + length L <= q' -> W m' i' s' q' e' = W m i' s' q' e'.
Proof.
  intros Hi Hj Hs Ht Hdf. revert m qa qb. induction L as [|v L IH]; intros m qa qb [H1 H2] Hb.
  { exists m. cbn in *. split; [done|]. split; [split; [cbn; lia|by intros]|done]. }
  cbn [length] in H1, Hb. cbn [length copy_pts].
  rewrite (pget_ok n vp own sh m i s qa v); [|done|done|lia| |].
  2:{ pose proof (H2 0 v eq_refl 0 ltac:(lia)) as H. by rewrite Nat.add_0_r in H. }
  2:{ pose proof (H2 0 v eq_refl 1 ltac:(lia)) as H. by rewrite Nat.add_0_r in H. }
  destruct (pput_ok n vp own sh m j t qb v) as (m1 & E1 & W1); [done|done|lia|]. destruct v as [x y]. cbn [fst snd] in E1. rewrite E1.
  destruct (IH m1 (qa + 1) (qb + 1)) as (m2 & E2 & [H3 H4] & H5).
  - split; [lia|]. intros q v Hv e He. rewrite W1.
    + rewrite decide_False by congruence. replace (qa + 1 + q) with (qa + S q) by lia. by apply H2.
    + apply lookup_lt_Some in Hv. repeat split; auto. lia.
  - lia.
  - rewrite !Nat.add_assoc in E2. exists m2. split; auto. split.
    + split; [cbn; lia|]. intros [|q] v Hv e He; cbn in Hv.
      * injection Hv as <-. rewrite Nat.add_0_r. rewrite H5; [|repeat split; auto; lia|right; lia].
        rewrite W1 by (repeat split; auto; lia). by rewrite decide_True.
      * replace (qb + S q) with (qb + 1 + q) by lia. by apply H4.
    + intros i' s' q' e' Hok Hc. rewrite H5; [|done|]. 2:{ destruct Hc as [?|?]; [auto|right; cbn in *; lia]. }
      rewrite W1 by done. rewrite decide_False; [done|]. intros [= -> -> ->]. destruct Hc as [?|?]; [done|cbn in *; lia].
Qed.

Lemma off_nat a : off (Some (Z.of_nat a)) = Some a.
Proof. unfold off. destruct (Z.leb_spec 0 (Z.of_nat a)); [|lia]. by rewrite Nat2Z.id. Qed.
Lemma ok_hd j k e : j < n -> k < 4 -> e < 2 -> ok4 j Hd k e.
Proof. intros. repeat split; auto. Qed.
Lemma adr_hd j k e : adr j Hd k e = 2 * (hp j + k) + e.
Proof. done. Qed.
Lemma get_hd m j k e : j < n -> k < 4 -> e < 2 -> m_get total m (2 * (hp j + k) + e) = W m j Hd k e.
Proof. intros. rewrite <-adr_hd. apply get_ok; auto. by apply ok_hd. Qed.
Lemma get_hd0 m j k : j < n -> k < 4 -> m_get total m (2 * (hp j + k)) = W m j Hd k 0.
Proof. intros. rewrite <-get_hd by lia. by rewrite Nat.add_0_r. Qed.

Definition only_range (m m' : emem) (j q0 n0 : nat) : Prop := forall i' s' q' e', ok4 i' s' q' e' ->
  ~ (i' = j /\ s' = Bk 0 /\ q0 <= q' < q0 + n0) -> (i', s', q', e') <> (j, Hd, 0, 1) -> W m' i' s' q' e' = W m i' s' q' e'.

Lemma copy_range_ok m i j k L q0 : i < n -> j < n -> k < 4 -> (i, Bk k) <> (j, Bk 0) ->
  W m i Hd k 0 = Some (Z.of_nat (pos i (Bk k))) -> W m i Hd k 1 = Some (Z.of_nat (pos i (Bk k) + length L)) ->
  holds m i (Bk k) 0 L -> W m j Hd 0 1 = Some (Z.of_nat (pos j (Bk 0) + q0)) -> q0 + length L <= len j (Bk 0) ->
  exists m', copy_range total m (hp i) (hp j) k = Some m' /\ holds m' j (Bk 0) q0 L /\
    W m' j Hd 0 1 = Some (Z.of_nat (pos j (Bk 0) + (q0 + length L))) /\ only_range m m' j q0 (length L).
Proof.
  intros Hi Hj Hk Hdf W0 W1 HL Wj Hq. unfold copy_range. rewrite get_hd0, get_hd by lia. rewrite W0, W1.
  destruct (Z.leb_spec (Z.of_nat (pos i (Bk k) + length L) - Z.of_nat (pos i (Bk k))) 0) as [Hz|Hz].
  { assert (length L = 0) as HL0 by lia. assert (L = []) as -> by (by apply nil_length_inv). exists m. cbn [length] in *.
    rewrite Nat.add_0_r. split; [done|]. split; [|done]. split; [cbn in *; lia|by intros]. }
  rewrite off_nat. pose proof (get_hd m j 0 1 Hj ltac:(lia) ltac:(lia)) as Eg. rewrite Nat.add_0_r in Eg.
  rewrite Eg, Wj, off_nat.
  replace (Z.of_nat (pos i (Bk k) + length L) - Z.of_nat (pos i (Bk k)))%Z with (Z.of_nat (length L)) by lia. rewrite Nat2Z.id.
  unfold memcpy_pts. assert (((pos i (Bk k) + length L <=? pos j (Bk 0) + q0) || (pos j (Bk 0) + q0 + length L <=? pos i (Bk k))) = true) as ->.
  { destruct HL as [HL _]. apply orb_true_iff. rewrite !Nat.leb_le.
    destruct (seg_apart n vp own sh i j (Bk k) (Bk 0) Hi Hj Hk ltac:(cbn; lia) Hdf) as [H|H]; [left|right]; lia. }
  destruct (copy_pts_ok L i (Bk k) 0 j (Bk 0) q0 m) as (m1 & E1 & H1 & F1); auto; [cbn; lia|]. rewrite Nat.add_0_r in E1. rewrite E1.
  destruct (put_ok n vp own sh m1 j Hd 0 1 (Z.of_nat (pos j (Bk 0) + q0) + Z.of_nat (length L))) as (m2 & E2 & F2); [by apply ok_hd; lia|].
  unfold ExtractMem.adr in E2. rewrite Nat.add_0_r in E2. change (pos j Hd) with (hp j) in E2. rewrite E2. exists m2. split; [done|]. split.
  { destruct H1 as [A1 A2]. split; auto. intros q v Hv e He. rewrite F2.
    - rewrite decide_False by congruence. by apply A2.
    - apply lookup_lt_Some in Hv. okk. }
  split.
  { rewrite F2 by (by apply ok_hd; lia). rewrite decide_True by done. f_equal. lia. }
  intros i' s' q' e' Hok N1 N2. rewrite F2 by done. rewrite decide_False by done. apply F1; auto.
  destruct (decide ((i', s') = (j, Bk 0))) as [[= -> ->]|]; [right|by left].
  destruct (decide (q0 <= q' < q0 + length L)); [|lia]. by destruct N1.
Qed.

Lemma holds_frame m m' j s a L : j < n -> okslot s -> holds m j s a L ->
  (forall q e, a <= q < a + length L -> e < 2 -> W m' j s q e = W m j s q e) -> holds m' j s a L.
Proof.
  intros Hj Hs [H1 H2] HF. split; auto. intros q v Hv e He. rewrite HF; [by apply H2| |done].
  apply lookup_lt_Some in Hv. lia.
Qed.
Lemma holds_app m j s a L L' : holds m j s a L -> holds m j s (a + length L) L' -> holds m j s a (L ++ L').
Proof.
  intros [H1 H2] [H3 H4]. split; [rewrite app_length; lia|]. intros q v Hv e He. apply lookup_app_Some in Hv as [Hv|[Hle Hv]].
  - by apply H2.
  - replace (a + q) with (a + length L + (q - length L)) by lia. by apply H4.
Qed.
Lemma holds_len m j s a L : holds m j s a L -> a + length L <= len j s.
Proof. by intros [H _]. Qed.

(* all four ranges *)
Lemma copy_ranges_ok m i j L0 q0 : i < n -> j < n -> i <> j ->
  (forall k L, k < 4 -> L = (match k with O => L0 | _ => own k i end) ->
     W m i Hd k 0 = Some (Z.of_nat (pos i (Bk k))) /\ W m i Hd k 1 = Some (Z.of_nat (pos i (Bk k) + length L)) /\ holds m i (Bk k) 0 L) ->
  W m j Hd 0 1 = Some (Z.of_nat (pos j (Bk 0) + q0)) -> q0 + length (L0 ++ rest own i) <= len j (Bk 0) ->
  exists m', copy_ranges total m (hp i) (hp j) = Some m' /\ holds m' j (Bk 0) q0 (L0 ++ rest own i) /\
    W m' j Hd 0 1 = Some (Z.of_nat (pos j (Bk 0) + (q0 + length (L0 ++ rest own i)))) /\ only_range m m' j q0 (length (L0 ++ rest own i)).
Proof.
  intros Hi Hj Hij HS HW Hq. unfold rest in *. rewrite !app_length in Hq.
  set (n0 := length L0) in *. set (n1 := length (own 1 i)) in *. set (n2 := length (own 2 i)) in *. set (n3 := length (own 3 i)) in *.
  (* a copy does not change the record i *)
  assert (forall m m' q k, only_range m m' j q k ->
    (forall k L, k < 4 -> L = (match k with O => L0 | _ => own k i end) ->
     W m i Hd k 0 = Some (Z.of_nat (pos i (Bk k))) /\ W m i Hd k 1 = Some (Z.of_nat (pos i (Bk k) + length L)) /\ holds m i (Bk k) 0 L) ->
    (forall k L, k < 4 -> L = (match k with O => L0 | _ => own k i end) ->
     W m' i Hd k 0 = Some (Z.of_nat (pos i (Bk k))) /\ W m' i Hd k 1 = Some (Z.of_nat (pos i (Bk k) + length L)) /\ holds m' i (Bk k) 0 L)) as HP.
  { intros m1 m2 q k HO H1 k' L Hk' EL. destruct (H1 k' L Hk' EL) as (B1 & B2 & B3).
    rewrite (HO i Hd k' 0) by (try (by apply ok_hd; lia); try (by intros [? _]); congruence).
    rewrite (HO i Hd k' 1) by (try (by apply ok_hd; lia); try (by intros [? _]); congruence).
    split; auto. split; auto. eapply holds_frame; eauto. intros q' e' Hq' He'. apply HO; [|by intros [? _]|congruence].
    pose proof (holds_len _ _ _ _ _ B3). repeat split; auto. lia. }
  unfold copy_ranges.
  destruct (HS 0 L0 ltac:(lia) eq_refl) as (A1 & A2 & A3).
  destruct (copy_range_ok m i j 0 L0 q0) as (m1 & E1 & H1 & V1 & O1); try lia; try congruence; auto. rewrite E1.
  pose proof (HP _ _ _ _ O1 HS) as HS1. destruct (HS1 1 (own 1 i) ltac:(lia) eq_refl) as (B1 & B2 & B3).
  destruct (copy_range_ok m1 i j 1 (own 1 i) (q0 + n0)) as (m2 & E2 & H2 & V2 & O2); try lia; try congruence; auto. rewrite E2.
  pose proof (HP _ _ _ _ O2 HS1) as HS2. destruct (HS2 2 (own 2 i) ltac:(lia) eq_refl) as (C1 & C2 & C3).
  destruct (copy_range_ok m2 i j 2 (own 2 i) (q0 + n0 + n1)) as (m3 & E3 & H3 & V3 & O3); try lia; try congruence; auto. rewrite E3.
  pose proof (HP _ _ _ _ O3 HS2) as HS3. destruct (HS3 3 (own 3 i) ltac:(lia) eq_refl) as (D1 & D2 & D3).
  destruct (copy_range_ok m3 i j 3 (own 3 i) (q0 + n0 + n1 + n2)) as (m4 & E4 & H4 & V4 & O4); try lia; try congruence; auto.
  exists m4. split; [done|]. fold n1 in O2, V2. fold n2 in O3, V3. fold n3 in O4, V4. fold n0 in O1, V1.
  (* a later copy does not change what was copied before *)
  assert (forall m m' q k a L, only_range m m' j q k -> a + length L <= q -> holds m j (Bk 0) a L -> holds m' j (Bk 0) a L) as HK.
  { intros ma mb q k a L HO Ha HL. eapply holds_frame; eauto; [cbn; lia|]. intros q' e' Hq' He'. apply HO; [|intros (_ & _ & ?); lia|congruence].
    pose proof (holds_len _ _ _ _ _ HL). okk. }
  split.
  { apply holds_app; [|apply holds_app; [|apply holds_app]]; fold n0 n1 n2.
    - eapply HK; [exact O4|lia|]. eapply HK; [exact O3|lia|]. eapply HK; [exact O2|lia|]. done.
    - eapply HK; [exact O4|lia|]. eapply HK; [exact O3|lia|]. done.
    - eapply HK; [exact O4|lia|]. done.
    - done. }
  rewrite !app_length. fold n0 n1 n2 n3. split; [rewrite V4; do 2 f_equal; lia|].
  intros i' s' q' e' Hok N1 N2. rewrite O4, O3, O2, O1; auto; intros (? & ? & ?); apply N1; (split; [done|]; split; [done|]; lia).
Qed.

(* ---------- listing a child ---------- *)
Definition CW (m : emem) (j w : nat) : option Z := W m j Ch (w / 2) (w mod 2).
Lemma adr_ch j w : adr j Ch (w / 2) (w mod 2) = 2 * (hp j + 4) + w.
Proof. unfold ExtractMem.adr. cbn [ExtractAbs.pos]. pose proof (Nat.div_mod w 2 ltac:(done)). lia. Qed.
Lemma ok_ch j w : j < n -> sh j = false -> w < 2 * kn j -> ok4 j Ch (w / 2) (w mod 2).
Proof.
  intros Hj Hs Hw. repeat split; auto; [|by apply Nat.mod_upper_bound]. cbn [ExtractAbs.len]. rewrite Hs. apply Nat.div_lt_upper_bound; [done|lia].
Qed.
Lemma w_split (j j' : nat) (s s' : slot) w w' : (j, s, w / 2, w mod 2) = (j', s', w' / 2, w' mod 2) -> w = w'.
Proof.
  intros E. pose proof (f_equal (fun v => snd (fst v)) E) as E1. pose proof (f_equal snd E) as E2. cbn [fst snd] in E1, E2.
  pose proof (Nat.div_mod w 2 ltac:(done)). pose proof (Nat.div_mod w' 2 ltac:(done)). lia.
Qed.
Lemma kn_room j : length (chl j) + 1 <= 2 * kn j.
Proof.
  unfold ExtractAbs.kn. pose proof (Nat.div_mod (2 + length (chl j)) 2 ltac:(done)).
  pose proof (Nat.mod_upper_bound (2 + length (chl j)) 2 ltac:(done)). lia.
Qed.

Lemma add_child_ok m i j t : j < n -> sh j = false -> t < length (chl j) -> CW m j 0 = Some (Z.of_nat t) ->
  exists m', add_child total m (hp j) i j = Some m' /\ CW m' j 0 = Some (Z.of_nat (t + 1)) /\
    CW m' j (t + 1) = Some (Z.of_nat i - Z.of_nat j)%Z /\
    (forall w, w < 2 * kn j -> w <> 0 -> w <> t + 1 -> CW m' j w = CW m j w) /\
    forall i' s' q' e', ok4 i' s' q' e' -> (i', s') <> (j, Ch) -> W m' i' s' q' e' = W m i' s' q' e'.
Proof.
  intros Hj Hs Ht H0. pose proof (kn_room j) as Hroom. unfold add_child.
  pose proof (get_ok n vp own sh m j Ch (0 / 2) (0 mod 2) (ok_ch j 0 Hj Hs ltac:(lia))) as E0. rewrite adr_ch, Nat.add_0_r in E0.
  rewrite E0. fold (CW m j 0). rewrite H0, off_nat.
  destruct (put_ok n vp own sh m j Ch (0 / 2) (0 mod 2) (Z.of_nat t + 1) (ok_ch j 0 Hj Hs ltac:(lia))) as (m1 & E1 & F1).
  rewrite adr_ch, Nat.add_0_r in E1. rewrite E1.
  destruct (put_ok n vp own sh m1 j Ch ((t + 1) / 2) ((t + 1) mod 2) (Z.of_nat i - Z.of_nat j) (ok_ch j (t + 1) Hj Hs ltac:(lia))) as (m2 & E2 & F2).
  rewrite adr_ch in E2. rewrite E2. exists m2. split; [done|]. unfold CW. split.
  { rewrite F2 by (apply ok_ch; auto; lia). rewrite decide_False.
    2:{ intros E. apply w_split in E. lia. }
    rewrite F1 by (apply ok_ch; auto; lia). rewrite decide_True by done. f_equal. lia. }
  split. { rewrite F2 by (apply ok_ch; auto; lia). by rewrite decide_True. }
  split.
  { intros w Hw N1 N2. rewrite F2 by (by apply ok_ch). rewrite decide_False.
    2:{ intros E. apply w_split in E. lia. }
    rewrite F1 by (by apply ok_ch). rewrite decide_False; [done|].
    intros E. apply w_split in E. lia. }
  intros i' s' q' e' Hok Hdf. rewrite F2, F1 by done. rewrite !decide_False by congruence. done.
Qed.

(* ---------- relative offsets ---------- *)
Lemma hd_w w : w < 8 -> w / 2 < 4 /\ w mod 2 < 2 /\ w = 2 * (w / 2) + w mod 2.
Proof.
  intros Hw. pose proof (Nat.div_mod w 2 ltac:(done)). pose proof (Nat.mod_upper_bound w 2 ltac:(done)). lia.
Qed.
Lemma rel_words_ok m i k w : i < n -> w + k <= 8 ->
  (forall q e, q < 4 -> e < 2 -> is_Some (W m i Hd q e)) ->
  exists m', rel_words total m (2 * hp i + w) (hp i) k = Some m' /\
    (forall q e, q < 4 -> e < 2 -> W m' i Hd q e = if decide (w <= 2 * q + e < w + k) then (fun v => v - Z.of_nat (hp i))%Z <$> W m i Hd q e else W m i Hd q e) /\
    forall i' s' q' e', ok4 i' s' q' e' -> (i', s') <> (i, Hd) -> W m' i' s' q' e' = W m i' s' q' e'.
Proof.
  intros Hi. revert m w. induction k as [|k IH]; intros m w Hw Hv.
  { exists m. split; [done|]. split; [|done]. intros q e _ _. by rewrite decide_False by lia. }
  cbn [rel_words]. unfold rel_word. destruct (hd_w w ltac:(lia)) as (H1 & H2 & H3).
  assert (2 * hp i + w = adr i Hd (w / 2) (w mod 2)) as Ea by (rewrite adr_hd; lia). rewrite Ea.
  rewrite get_ok by (by apply ok_hd). destruct (Hv (w / 2) (w mod 2) H1 H2) as [v Ev]. rewrite Ev.
  destruct (put_ok n vp own sh m i Hd (w / 2) (w mod 2) (v - Z.of_nat (hp i)) (ok_hd _ _ _ Hi H1 H2)) as (m1 & E1 & F1). rewrite E1, <-Ea.
  destruct (IH m1 (w + 1)) as (m2 & E2 & F2 & G2).
  { lia. }
  { intros q e Hq He. rewrite F1 by (by apply ok_hd). destruct (decide _); eauto. }
  rewrite Nat.add_assoc in E2. exists m2. split; auto. split.
  - intros q e Hq He. rewrite F2 by done. rewrite F1 by (by apply ok_hd).
    destruct (decide (2 * q + e = w)) as [Hqe|Hqe].
    + assert (q = w / 2 /\ e = w mod 2) as [-> ->] by lia. rewrite decide_False by lia. rewrite !decide_True by (done || lia). by rewrite Ev.
    + rewrite (decide_False (P := (i, Hd, q, e) = (i, Hd, w / 2, w mod 2))) by (intros E; apply (f_equal (fun v => 2 * snd (fst v) + snd v)) in E; cbn [fst snd] in E; lia).
      destruct (decide (w + 1 <= 2 * q + e < w + 1 + k)), (decide (w <= 2 * q + e < w + S k)); (done || lia).
  - intros i' s' q' e' Hok Hdf. rewrite G2, F1 by done. by rewrite decide_False by congruence.
Qed.

(* ---------- the invariant ---------- *)
Definition cont (i j : nat) : list pt := own 0 j ++ (if sh j then procs i j ≫= pts else []).
Definition rng (i j k : nat) : pt :=
  let o := if j <? i then hp j else 0 in
  (Z.of_nat (pos j (Bk k)) - Z.of_nat o, Z.of_nat (pos j (Bk k) + (if Nat.eqb k 0 then length (cont i j) else nk k j)) - Z.of_nat o)%Z.
Definition single (c : nat) : Prop := forall k k', k < 4 -> k' < 4 -> own k c <> [] -> own k' c <> [] -> k = k'.
Definition tight (j : nat) : Prop := forall c, reach c j -> single c.
Definition rects_ok (i j : nat) (rc : rect) : Prop :=
  if j <? i then rect_of (tight j) (pts j) rc
  else (procs i j = [] /\ rc = rect0) \/ rect_of (tight j) (procs i j ≫= pts) rc.
Record after7 (gr sz : nat -> nat) (i : nat) (t : emem * list mrec) : Prop := {
  a7_hd : forall j, j < n -> forall k, k < 4 -> W (fst t) j Hd k 0 = Some (fst (rng i j k)) /\ W (fst t) j Hd k 1 = Some (snd (rng i j k));
  a7_b0 : forall j, j < n -> holds (fst t) j (Bk 0) 0 (cont i j);
  a7_bk : forall j k, j < n -> 0 < k < 4 -> holds (fst t) j (Bk k) 0 (own k j);
  a7_ch : forall j, j < n -> sh j = false -> CW (fst t) j 0 = Some (Z.of_nat (length (procs i j))) /\
    forall t0 c, procs i j !! t0 = Some c -> CW (fst t) j (t0 + 1) = Some (Z.of_nat c - Z.of_nat j)%Z;
  a7_len : length (snd t) = n;
  a7_ms : forall j, j < n -> exists rc, snd t !! j = Some (MRec (N.of_nat (gr j)) (sh j) (sz j) (hp j) rc) /\ rects_ok i j rc
}.

Lemma cont_S i j : cont (S i) j = cont i j ++ (if sh j then if decide (vp i = Some j) then pts i else [] else []).
Proof.
  unfold cont. rewrite procs_S. destruct (sh j); [|by rewrite !app_nil_r]. rewrite <-app_assoc, bind_app. do 2 f_equal.
  destruct (decide _); [|done]. cbn. by rewrite app_nil_r.
Qed.
Lemma cont_own i : sh i = true -> cont i i ++ rest own i = pts i.
Proof. intros Es. unfold cont. rewrite Es, (pts_eq n vp Hvp own i). by rewrite <-app_assoc. Qed.
Lemma procs_incl i j : i <= n -> exists r, chl j = procs i j ++ r.
Proof.
  intros Hi. destruct (decide (j <= i)) as [H|H]. { exists []. by rewrite app_nil_r, (procs_later n vp Hvp i j H). }
  unfold ExtractAbs.chl, ExtractAbs.procs. exists (filter (fun c => vp c = Some j) (seq i (j - i))).
  rewrite <-filter_app. f_equal. replace j with (i + (j - i)) at 1 by lia. apply seq_app.
Qed.
Lemma cont_room i j : i < n -> vp i = Some j -> sh j = true -> length (cont i j) + length (pts i) <= len j (Bk 0).
Proof.
  intros Hi E Es. destruct (procs_incl (S i) j ltac:(lia)) as [r Hr]. cbn [ExtractAbs.len Nat.eqb]. rewrite Es. unfold ExtractAbs.kpx, cont, ExtractAbs.nk.
  rewrite Es, Hr, procs_S, decide_True by done. rewrite !bind_app, !app_length. cbn [mbind list_bind].
  rewrite app_nil_r. lia.
Qed.

Lemma last_ok s l mi infos gr sz t0 :
  length l = n ->
  (forall i x, l !! i = Some x -> exists a, fget (e_F s) x = Some a /\
     ((g_par a = None /\ vp i = None) \/
      exists y b j, g_par a = Some y /\ fget (e_F s) y = Some b /\ g_flag b = 2 /\ mi y = Some j /\ vp i = Some j)) ->
  (exists c0 c1 c2 c3, infos = [c0; c1; c2; c3] /\ forall k c j, infos !! k = Some c -> j < n -> exists b, c !! j = Some b /\ info_of (own k j) b) ->
  after7 gr sz 0 t0 -> exists t, loop (finish total s mi infos) 0 l t0 = Some t /\ after7 gr sz n t.
Proof.
  intros Hln Hreg (c0 & c1 & c2 & c3 & -> & Hinf) H0.
  assert (exists t, loop (finish total s mi [c0; c1; c2; c3]) 0 l t0 = Some t /\ after7 gr sz (length l) t) as HG; [|by rewrite Hln in HG].
  apply (loop_ind (finish total s mi [c0; c1; c2; c3]) (after7 gr sz)); auto. clear t0 H0.
  intros i x [m ms] Hx [A1 A2 A3 A4 A5 A6]. cbn [fst snd] in *.
  assert (i < n) as Hi by (rewrite <-Hln; by eapply lookup_lt_Some).
  unfold finish. destruct (Hreg i x Hx) as (a & Ha & Hp). rewrite Ha. destruct (A6 i Hi) as (rc & Hrc & Hrk). rewrite Hrc.
  cbn [ms_share ms_pts ms_rect ms_gray ms_size].
  (* the parent *)
  assert (exists par, (match g_par a with
     | None => Some None
     | Some y => match fget (e_F s) y with
        | None => None
        | Some b => if g_flag b =? 2 then
             match mi y with
             | Some j => match ms !! j with Some d => Some (Some (j, d)) | None => None end
             | None => None
             end else Some None
        end end) = Some par /\
     match par with None => vp i = None | Some (j, d) => vp i = Some j /\ exists rd, d = MRec (N.of_nat (gr j)) (sh j) (sz j) (hp j) rd /\ ms !! j = Some d /\ rects_ok i j rd end)
     as (par & -> & Hpar).
  { destruct Hp as [[-> ?]|(y & b & j & -> & Hb & Hf & Hmi & Hv)]; [by exists None|].
    rewrite Hb, (proj2 (Nat.eqb_eq _ _) Hf), Hmi. destruct (Hvp i j Hv) as [_ Hj]. destruct (A6 j Hj) as (rd & Hdd & Hrd). rewrite Hdd.
    eexists. split; [done|]. cbn. eauto. }
  assert (procs i i = chl i) as Ei by done.
  (* copying or listing *)
  assert (exists m1, (match par with
     | None => Some m
     | Some (j, d) => if sh i && ms_share d then copy_ranges total m (hp i) (ms_pts d) else add_child total m (ms_pts d) i j end) = Some m1 /\
     (forall j, j < n -> j <> i -> forall k, k < 4 -> W m1 j Hd k 0 = Some (fst (rng (S i) j k)) /\ W m1 j Hd k 1 = Some (snd (rng (S i) j k))) /\
     (forall k, k < 4 -> W m1 i Hd k 0 = Some (fst (rng i i k)) /\ W m1 i Hd k 1 = Some (snd (rng i i k))) /\
     (forall j, j < n -> holds m1 j (Bk 0) 0 (cont (S i) j)) /\
     (forall j k, j < n -> 0 < k < 4 -> holds m1 j (Bk k) 0 (own k j)) /\
     (forall j, j < n -> sh j = false -> CW m1 j 0 = Some (Z.of_nat (length (procs (S i) j))) /\
        forall t0 c, procs (S i) j !! t0 = Some c -> CW m1 j (t0 + 1) = Some (Z.of_nat c - Z.of_nat j)%Z)) as (m1 & -> & M1 & M2 & M3 & M4 & M5).
  { (* what holds for the records that are not the parent *)
    assert (forall j k, j <> i -> vp i <> Some j -> rng (S i) j k = rng i j k) as Hrng.
    { intros j k Hji Hvj. unfold rng. assert ((j <? S i) = (j <? i)) as -> by (destruct (Nat.ltb_spec j (S i)), (Nat.ltb_spec j i); lia).
      rewrite cont_S, (decide_False _ _ Hvj). destruct (sh j); by rewrite app_nil_r. }
    assert (forall j, vp i <> Some j -> cont (S i) j = cont i j) as Hcont.
    { intros j Hvj. rewrite cont_S, (decide_False _ _ Hvj). destruct (sh j); by rewrite app_nil_r. }
    assert (forall j, vp i <> Some j -> procs (S i) j = procs i j) as Hprocs.
    { intros j Hvj. by rewrite procs_S, (decide_False _ _ Hvj), app_nil_r. }
    destruct par as [[j d]|].
    2:{ exists m. split; [done|]. split.
        { intros j Hj Hji k Hk. rewrite Hrng; [by apply A1|done|congruence]. }
        split; [intros k Hk; by apply A1|]. split; [intros j Hj; rewrite Hcont; [by apply A2|congruence]|]. split; [done|].
        intros j Hj Hs. rewrite Hprocs by congruence. by apply A4. }
    destruct Hpar as (Hv & rd & -> & Hdd & Hrd). cbn [ms_share ms_pts]. destruct (Hvp i j Hv) as [Hij Hj].
    destruct (sh j) eqn:Esj.
    - rewrite (Hsh i j Hv Esj). cbn [andb].
      destruct (copy_ranges_ok m i j (cont i i) (length (cont i j))) as (m1 & E1 & B1 & B2 & B3); auto.
      { lia. }
      { intros k L Hk EL. destruct (A1 i Hi k Hk) as [C1 C2]. unfold rng in C1, C2. rewrite Nat.ltb_irrefl in C1, C2. cbn [fst snd] in C1, C2.
        rewrite !Z.sub_0_r in C1, C2. split; auto. destruct k as [|k]; cbn [Nat.eqb] in C2.
        - subst L. split; [done|]. by apply A2.
        - subst L. split; [done|]. apply A3; auto. lia. }
      { destruct (A1 j Hj 0 ltac:(lia)) as [_ C2]. unfold rng in C2. destruct (Nat.ltb_spec j i); [lia|]. cbn [snd Nat.eqb] in C2.
        by rewrite Z.sub_0_r in C2. }
      { rewrite (cont_own i (Hsh i j Hv Esj)). by apply cont_room. }
      rewrite (cont_own i (Hsh i j Hv Esj)) in B1, B2, B3. rewrite E1. exists m1. split; [done|].
      assert (forall j' k e, j' < n -> k < 4 -> e < 2 -> (j', k, e) <> (j, 0, 1) -> W m1 j' Hd k e = W m j' Hd k e) as Hh.
      { intros j' k e Hj' Hk He N. apply B3; [by apply ok_hd|by intros (_ & ? & _)|congruence]. }
      split.
      { intros j' Hj' Hji k Hk. destruct (decide (j' = j)) as [->|Hjj].
        - rewrite Hh by (auto; congruence). destruct (A1 j Hj k Hk) as [C1 C2]. unfold rng in *.
          destruct (Nat.ltb_spec j (S i)); [lia|]. destruct (Nat.ltb_spec j i); [lia|]. split; [done|]. cbn [snd] in *.
          destruct k as [|k].
          + rewrite B2. cbn [Nat.eqb]. rewrite cont_S, Esj, (decide_True _ _ Hv), app_length. f_equal. lia.
          + rewrite Hh by (auto; congruence). done.
        - rewrite !Hh by (auto; congruence). rewrite Hrng; [by apply A1|done|congruence]. }
      split.
      { intros k Hk. assert (i <> j) by lia. rewrite !Hh by (auto; congruence). by apply A1. }
      split.
      { intros j' Hj'. destruct (decide (j' = j)) as [->|Hjj].
        - rewrite cont_S, Esj, (decide_True _ _ Hv). apply holds_app; [|by rewrite Nat.add_0_l].
          eapply holds_frame; [done|cbn; lia|by apply A2|]. intros q e Hq He. apply B3; [|intros (_ & _ & ?); lia|congruence].
          pose proof (holds_len _ _ _ _ _ (A2 j Hj)). okk.
        - rewrite Hcont by congruence. eapply holds_frame; [done|cbn; lia|by apply A2|]. intros q e Hq He.
          apply B3; [|by intros (? & _)|congruence].
          pose proof (holds_len _ _ _ _ _ (A2 j' Hj')). okk. }
      split.
      { intros j' k Hj' Hk. eapply holds_frame; [done|cbn; lia|by apply A3|]. intros q e Hq He.
        apply B3; [|intros (_ & [= ?] & _); lia|congruence].
        pose proof (holds_len _ _ _ _ _ (A3 j' k Hj' Hk)). okk. }
      intros j' Hj' Hs'. assert (vp i <> Some j') as Hv' by (intros E; congruence). rewrite Hprocs by done.
      destruct (A4 j' Hj' Hs') as [D1 D2]. pose proof (kn_room j') as Hroom.
      assert (forall w, w < 2 * kn j' -> CW m1 j' w = CW m j' w) as Hcw.
      { intros w Hw. unfold CW. apply B3; [by apply ok_ch|by intros (_ & ? & _)|congruence]. }
      rewrite Hcw by lia. split; auto. intros t0 c Hc. rewrite Hcw; [by apply D2|].
      destruct (procs_incl i j' ltac:(lia)) as [r Hr]. apply lookup_lt_Some in Hc. rewrite Hr, app_length in Hroom. lia.
    - rewrite andb_false_r.
      assert (length (procs i j) < length (chl j)) as Hlt.
      { destruct (procs_incl (S i) j ltac:(lia)) as [r ->]. rewrite procs_S, (decide_True _ _ Hv), !app_length. cbn. lia. }
      destruct (A4 j Hj Esj) as [D1 D2].
      destruct (add_child_ok m i j (length (procs i j)) Hj Esj Hlt D1) as (m1 & E1 & B1 & B2 & B3 & B4). rewrite E1. exists m1. split; [done|].
      assert (forall j' k e, j' < n -> k < 4 -> e < 2 -> W m1 j' Hd k e = W m j' Hd k e) as Hh.
      { intros j' k e Hj' Hk He. apply B4; [by apply ok_hd|congruence]. }
      assert (forall j', cont (S i) j' = cont i j') as Hc'.
      { intros j'. rewrite cont_S. destruct (decide (vp i = Some j')) as [E|]; [|destruct (sh j'); by rewrite app_nil_r].
        assert (j' = j) as -> by congruence. rewrite Esj. by rewrite app_nil_r. }
      split.
      { intros j' Hj' Hji k Hk. rewrite !Hh by auto. destruct (A1 j' Hj' k Hk) as [C1 C2]. unfold rng in *. rewrite Hc'.
        assert ((j' <? S i) = (j' <? i)) as -> by (destruct (Nat.ltb_spec j' (S i)), (Nat.ltb_spec j' i); lia). done. }
      split; [intros k Hk; rewrite !Hh by auto; by apply A1|]. split.
      { intros j' Hj'. rewrite Hc'. eapply holds_frame; [done|cbn; lia|by apply A2|]. intros q e Hq He. apply B4; [|congruence].
        pose proof (holds_len _ _ _ _ _ (A2 j' Hj')). okk. }
      split.
      { intros j' k Hj' Hk. eapply holds_frame; [done|cbn; lia|by apply A3|]. intros q e Hq He. apply B4; [|congruence].
        pose proof (holds_len _ _ _ _ _ (A3 j' k Hj' Hk)). okk. }
      intros j' Hj' Hs'. destruct (decide (j' = j)) as [->|Hjj].
      + rewrite procs_S, (decide_True _ _ Hv), app_length. cbn [length]. split; [done|]. intros t0 c Hc.
        apply lookup_app_Some in Hc as [Hc|[Hle Hc]].
        * pose proof (lookup_lt_Some _ _ _ Hc). pose proof (kn_room j). rewrite B3 by lia. by apply D2.
        * destruct (t0 - length (procs i j)) as [|z] eqn:Ez; [|done]. cbn in Hc. injection Hc as <-.
          assert (t0 = length (procs i j)) as -> by lia. done.
      + rewrite Hprocs by congruence. destruct (A4 j' Hj' Hs') as [D3 D4]. pose proof (kn_room j') as Hroom.
        assert (forall w, w < 2 * kn j' -> CW m1 j' w = CW m j' w) as Hcw.
        { intros w Hw. unfold CW. apply B4; [by apply ok_ch|congruence]. }
        rewrite Hcw by lia. split; auto. intros t0 c Hc. rewrite Hcw; [by apply D4|].
        destruct (procs_incl i j' ltac:(lia)) as [r Hr]. apply lookup_lt_Some in Hc. rewrite Hr, app_length in Hroom. lia. }
  (* the rectangle *)
  destruct (Hinf 0 c0 i eq_refl Hi) as (b0 & Hb0 & I0). destruct (Hinf 1 c1 i eq_refl Hi) as (b1 & Hb1 & I1).
  destruct (Hinf 2 c2 i eq_refl Hi) as (b2 & Hb2 & I2). destruct (Hinf 3 c3 i eq_refl Hi) as (b3 & Hb3 & I3).
  assert (omap (fun c : list binfo => c !! i) [c0; c1; c2; c3] = [b0; b1; b2; b3]) as -> by (cbn; by rewrite Hb0, Hb1, Hb2, Hb3).
  assert (joined (single i) (own 0 i ++ rest own i) (foldl join_box None [b0; b1; b2; b3])) as HJ.
  { cbn [foldl]. unfold rest. rewrite !app_assoc. rewrite <-(app_nil_l (own 0 i)).
    assert (forall (X Y : list pt), X ++ Y <> [] -> X <> [] \/ Y <> []) as Happ by (intros [|? ?] Y ?; [by right|by left]).
    assert (forall (L : list pt) (k : nat), k < 4 -> (L <> [] -> exists k', k' < k /\ own k' i <> []) -> single i -> L = [] \/ own k i = []) as HE.
    { intros L k Hk HL HS. destruct L as [|p L]; [by left|right]. destruct (own k i) as [|p' L'] eqn:E; [done|].
      destruct HL as (k' & Hk' & Hne'); [done|]. specialize (HS k' k ltac:(lia) Hk Hne'). rewrite E in HS. specialize (HS ltac:(done)). lia. }
    apply join_ok; auto.
    2:{ apply HE; [lia|]. intros [[[?|?]%Happ|?]%Happ|?]%Happ; [done|exists 0|exists 1|exists 2]; (split; [lia|done]). }
    apply join_ok; auto.
    2:{ apply HE; [lia|]. intros [[?|?]%Happ|?]%Happ; [done|exists 0|exists 1]; (split; [lia|done]). }
    apply join_ok; auto.
    2:{ apply HE; [lia|]. intros [?|?]%Happ; [done|exists 0]; (split; [lia|done]). }
    apply join_ok; auto; done. }
  destruct (foldl join_box None [b0; b1; b2; b3]) as [[[[bl br] bt] bd]|]; cbn [joined] in HJ.
  2:{ exfalso. destruct (Hne i Hi) as (k & Hk & Hk'). apply Hk'. apply app_eq_nil in HJ as [J0 J].
      unfold rest in J. apply app_eq_nil in J as [J1 J]. apply app_eq_nil in J as [J2 J3].
      destruct k as [|[|[|[|k]]]]; auto; lia. }
  apply boxed_rect in HJ. set (rw := Rect bl bt (br - bl + 1) (bd - bt + 1)) in *.
  assert (rect_of (tight i) (pts i) (append_rect rc rw)) as Hri.
  { unfold rects_ok in Hrk. rewrite Nat.ltb_irrefl, Ei in Hrk.
    assert (rect_of (tight i) (own 0 i ++ rest own i) rw) as HJ' by (eapply boxed_weak; [|exact HJ]; intros HT; apply HT, rtc_refl).
    rewrite (pts_eq n vp Hvp own i). destruct Hrk as [[Eq ->]|Hrk].
    - rewrite append_empty, Eq. cbn. exact HJ'.
    - eapply boxed_perm; [|exact (append_of _ _ _ _ _ Hrk HJ')]. rewrite !app_assoc. by rewrite (Permutation_app_comm (chl i ≫= pts)). }
  destruct (rel_words_ok m1 i 8 0 Hi ltac:(lia)) as (m2 & E2 & F2 & G2).
  { intros q e Hq He. destruct (M2 q Hq) as [K1 K2]. destruct e as [|[|e]]; [eauto|eauto|lia]. }
  rewrite Nat.add_0_r in E2. cbn zeta. rewrite E2. eexists. split; [done|].
  assert (forall j s q e, ok4 j s q e -> s <> Hd -> W m2 j s q e = W m1 j s q e) as Hnh by (intros; apply G2; congruence).
  constructor; cbn [fst snd].
  - intros j Hj k Hk. destruct (decide (j = i)) as [->|Hji].
    + rewrite !F2 by lia. rewrite !decide_True by lia. destruct (M2 k Hk) as [-> ->]. cbn [fmap option_fmap option_map].
      unfold rng. rewrite Nat.ltb_irrefl, (proj2 (Nat.ltb_lt i (S i))) by lia. cbn [fst snd].
      assert (cont (S i) i = cont i i) as ->.
      { rewrite cont_S, decide_False; [destruct (sh i); by rewrite app_nil_r|]. intros E. apply Hvp in E. lia. }
      split; f_equal; lia.
    + rewrite !G2; [by apply M1|by apply ok_hd; lia|congruence|by apply ok_hd; lia|congruence].
  - intros j Hj. eapply holds_frame; [done|cbn; lia|by apply M3|]. intros q e Hq He. apply Hnh; [|done].
    pose proof (holds_len _ _ _ _ _ (M3 j Hj)). okk.
  - intros j k Hj Hk. eapply holds_frame; [done|cbn; lia|by apply M4|]. intros q e Hq He. apply Hnh; [|done].
    pose proof (holds_len _ _ _ _ _ (M4 j k Hj Hk)). okk.
  - intros j Hj Hs. destruct (M5 j Hj Hs) as [D1 D2]. pose proof (kn_room j) as Hroom.
    assert (forall w, w < 2 * kn j -> CW m2 j w = CW m1 j w) as Hcw.
    { intros w Hw. unfold CW. apply Hnh; [by apply ok_ch|done]. }
    rewrite Hcw by lia. split; auto. intros t0 c Hc. rewrite Hcw; [by apply D2|].
    destruct (procs_incl (S i) j ltac:(lia)) as [r Hr]. apply lookup_lt_Some in Hc. rewrite Hr, app_length in Hroom. lia.
  - destruct par as [[j d]|]; by rewrite ?insert_length.
  - intros j Hj. assert (forall j', j' <> i -> vp i <> Some j' -> forall r', rects_ok i j' r' -> rects_ok (S i) j' r') as Hro.
    { intros j' N1 N2 r'. unfold rects_ok. assert ((j' <? S i) = (j' <? i)) as -> by (destruct (Nat.ltb_spec j' (S i)), (Nat.ltb_spec j' i); lia).
      by rewrite procs_S, (decide_False _ _ N2), app_nil_r. }
    assert (rects_ok (S i) i (append_rect rc rw)) as Hri'.
    { unfold rects_ok. by rewrite (proj2 (Nat.ltb_lt i (S i))) by lia. }
    destruct par as [[j' d]|].
    + destruct Hpar as (Hv & rd & -> & Hdd & Hrd). destruct (Hvp i j' Hv) as [Hij' Hj']. cbn [ms_gray ms_share ms_size ms_pts ms_rect].
      destruct (decide (j = j')) as [->|Hjj].
      * rewrite list_lookup_insert by (rewrite insert_length; lia). eexists. split; [done|].
        unfold rects_ok in *. destruct (Nat.ltb_spec j' i); [lia|]. destruct (Nat.ltb_spec j' (S i)); [lia|]. right.
        rewrite procs_S, (decide_True _ _ Hv), bind_app. cbn [mbind list_bind]. rewrite app_nil_r.
        assert (rect_of (tight j') (pts i) (append_rect rc rw)) as Hri2.
        { eapply boxed_weak; [|exact Hri]. intros HT c Hc. apply HT. by eapply rtc_r. }
        destruct Hrd as [[Eq ->]|Hrd]; [rewrite append_empty, Eq; exact Hri2|by apply append_of].
      * rewrite list_lookup_insert_ne by done. destruct (decide (j = i)) as [->|Hji].
        -- rewrite list_lookup_insert by lia. eauto.
        -- rewrite list_lookup_insert_ne by done. destruct (A6 j Hj) as (r' & ? & ?). exists r'. split; auto. apply Hro; auto. congruence.
    + destruct (decide (j = i)) as [->|Hji].
      * rewrite list_lookup_insert by lia. eauto.
      * rewrite list_lookup_insert_ne by done. destruct (A6 j Hj) as (r' & ? & ?). exists r'. split; auto. apply Hro; auto. congruence.
Qed.
End fin.
