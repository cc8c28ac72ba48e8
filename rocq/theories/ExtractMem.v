(* Counting the pixels, placing the records and filling in the pixels. *)
From stdpp Require Import sorting relations functions list_numbers list.
From Coq Require Import NArith ZArith.
From Verif Require Import FloodModel ConnectModel ConnectProof PartModel WholeModel FloatModel RecogModel RectModel ExtractModel
  ExtractAbs ExtractLink RectFacts.
Local Open Scope nat_scope.

(* ---------- counting ---------- *)
Definition encZ (o : option nat) : Z := match o with Some j => Z.of_nat j | None => (-1)%Z end.
Definition encN (o : option nat) : N := match o with Some j => N.of_nat j | None => none32 end.
Definition hit (ow : nat * nat -> option nat) (j : nat) (cs : list (nat * nat)) : list (nat * nat) :=
  filter (fun c => ow c = Some j) cs.
Definition hits (ow : nat * nat -> option nat) (cs : list (nat * nat)) : nat := length (filter (fun c => is_Some (ow c)) cs).

Lemma elem_cells r y x : (y, x) ∈ cells r <-> y < r_h r /\ x < r_w r.
Proof.
  unfold cells. rewrite elem_of_list_In, in_flat_map. split.
  - intros (y' & Hy & Hin). apply in_map_iff in Hin as (x' & [= -> ->] & Hx). apply in_seq in Hy, Hx. lia.
  - intros [Hy Hx]. exists y. split; [apply in_seq; lia|]. apply in_map_iff. exists x. split; auto. apply in_seq. lia.
Qed.
Lemma cells_NoDup r : NoDup (cells r).
Proof.
  unfold cells.
  assert (forall m, NoDup (flat_map (fun y => map (pair y) (seq 0 (r_w r))) (seq m (r_h r)))) as HG; [|apply HG].
  generalize (r_h r) as h. induction h as [|h IH]; intros m; cbn; [apply NoDup_nil_2|]. apply NoDup_app. split.
  - apply NoDup_fmap_2; [by intros ? ? [= ->]|apply NoDup_seq].
  - split; [|apply IH]. intros [y x] H1 H2. apply elem_of_list_In, in_map_iff in H1 as (x' & [= <- <-] & _).
    apply elem_of_list_In, in_flat_map in H2 as (y' & Hy & Hin). apply in_map_iff in Hin as (x2 & [= -> _] & _). apply in_seq in Hy. lia.
Qed.
Lemma word_inj r c d : c ∈ cells r -> d ∈ cells r -> word_at r c = word_at r d -> c = d.
Proof.
  destruct c as [y x], d as [y' x']. rewrite !elem_cells. unfold word_at. cbn [fst snd]. intros [? ?] [? ?] E.
  assert (y = y' /\ x = x') as [-> ->]; [|done].
  assert (y + 1 = y' + 1 /\ x + 1 = x' + 1) as [? ?]; [|lia].
  assert (forall a b, b < r_w r + 2 -> (a * (r_w r + 2) + b) / (r_w r + 2) = a) as HD.
  { intros a b Hb. rewrite Nat.div_add_l by lia. rewrite Nat.div_small by lia. lia. }
  assert (y + 1 = y' + 1) as Hy by (rewrite <-(HD (y + 1) (x + 1)), <-(HD (y' + 1) (x' + 1)) by lia; by rewrite E).
  split; auto. rewrite Hy in E. lia.
Qed.

Section count.
Context (s : est) (k : nat) (r : prect) (n : nat) (ow : nat * nat -> option nat).
Context (Hown : forall c j, c ∈ cells r -> ow c = Some j -> j < n) (Hn : (N.of_nat n < none32)%N).

Lemma count_cells_ok cs ps infos t :
  NoDup cs -> (forall c, c ∈ cs -> c ∈ cells r) -> length infos = n ->
  (forall c, c ∈ cs -> exists i, ps !! word_at r c = Some (bnd4 + N.of_nat i)%N /\ (N.of_nat i < 2 ^ 29)%N /\
     h_get s (k, i) = Some (encZ (ow c))) ->
  exists ps' infos', count_cells s k r cs (ps, infos, t) = Some (ps', infos', t + hits ow cs) /\
    (forall c, c ∈ cs -> ps' !! word_at r c = Some (encN (ow c))) /\
    (forall i, (forall c, c ∈ cs -> i <> word_at r c) -> ps' !! i = ps !! i) /\ length ps' = length ps /\
    length infos' = n /\ forall j a, infos !! j = Some a -> infos' !! j = Some (a + length (hit ow j cs)).
Proof.
  revert ps infos t. induction cs as [|c cs IH]; intros ps infos t Hnd Hin Hlen Hw.
  { exists ps, infos. cbn. split; [by rewrite Nat.add_0_r|]. split; [intros c Hc; by apply elem_of_nil in Hc|].
    repeat (split; [done|]). intros j a ->. by rewrite Nat.add_0_r. }
  apply NoDup_cons in Hnd as [Hc Hnd]. cbn [count_cells]. unfold count_px.
  destruct (Hw c) as (i & Hp & Hi & Hg); [left|]. rewrite Hp.
  assert (N.to_nat ((bnd4 + N.of_nat i + 2 ^ 32 - bnd4) mod 2 ^ 32) = i) as ->.
  { replace (bnd4 + N.of_nat i + 2 ^ 32 - bnd4)%N with (N.of_nat i + 1 * 2 ^ 32)%N by lia.
    rewrite N.mod_add by done. rewrite N.mod_small; [lia|]. etrans; [exact Hi|done]. }
  rewrite Hg. assert (c ∈ cells r) as Hcc by (apply Hin; left).
  assert (Hps : word_at r c < length ps) by (by eapply lookup_lt_Some).
  (* the words of the other pixels *)
  assert (forall v c', c' ∈ cs -> <[word_at r c := v]> ps !! word_at r c' = ps !! word_at r c') as Hoth.
  { intros v c' Hc'. rewrite list_lookup_insert_ne; auto. intros E. apply word_inj in E; auto; [by subst|]. apply Hin. by right. }
  destruct (ow c) as [j|] eqn:Eo; cbn [encZ].
  - assert (j < n) as Hj by (eapply Hown; eauto).
    destruct (Z.eqb_spec (Z.of_nat j) (-1)); [lia|]. destruct (Z.ltb_spec (Z.of_nat j) 0); [lia|]. rewrite Nat2Z.id.
    destruct (lookup_lt_is_Some_2 infos j) as [a Ha]; [lia|]. rewrite Ha.
    destruct (IH (<[word_at r c := Z.to_N (Z.of_nat j)]> ps) (<[j := a + 1]> infos) (t + 1)) as (ps' & infos' & E & H1 & H2 & H3 & H4 & H5); auto.
    { intros c' Hc'. apply Hin. by right. }
    { by rewrite insert_length. }
    { intros c' Hc'. destruct (Hw c') as (i' & Hp' & Hi' & Hg'); [by right|]. exists i'. split; [|auto]. by rewrite Hoth. }
    exists ps', infos'. split.
    { rewrite E. do 2 f_equal. unfold hits. rewrite filter_cons, decide_True by (rewrite Eo; eauto). cbn. lia. }
    split.
    { intros c' [->|Hc']%elem_of_cons; [|auto]. rewrite H2.
      - rewrite list_lookup_insert by done. rewrite Eo. cbn. f_equal. lia.
      - intros c' Hc' Ew. apply word_inj in Ew; auto; [by subst|]. apply Hin. by right. }
    split.
    { intros i0 Hi0. rewrite H2; [|intros c' Hc'; apply Hi0; by right]. rewrite list_lookup_insert_ne; auto.
      intros E0. apply (Hi0 c); [left|done]. }
    split; [by rewrite H3, insert_length|]. split; [done|]. intros j' a' Ha'.
    unfold hit. rewrite filter_cons. destruct (decide (j' = j)) as [->|Hne].
    + rewrite decide_True by done. cbn. assert (a' = a) as -> by congruence.
      rewrite (H5 j (a + 1)) by (rewrite list_lookup_insert; [done|lia]). f_equal. unfold hit. lia.
    + rewrite decide_False by congruence. apply H5. by rewrite list_lookup_insert_ne.
  - destruct (Z.eqb_spec (-1) (-1)) as [_|]; [|done].
    destruct (IH (<[word_at r c := none32]> ps) infos t) as (ps' & infos' & E & H1 & H2 & H3 & H4 & H5); auto.
    { intros c' Hc'. apply Hin. by right. }
    { intros c' Hc'. destruct (Hw c') as (i' & Hp' & Hi' & Hg'); [by right|]. exists i'. split; [|auto]. by rewrite Hoth. }
    exists ps', infos'. split.
    { rewrite E. do 2 f_equal. unfold hits. rewrite filter_cons, decide_False; [done|]. rewrite Eo. by intros [? ?]. }
    split.
    { intros c' [->|Hc']%elem_of_cons; [|auto]. rewrite H2.
      - rewrite list_lookup_insert by done. by rewrite Eo.
      - intros c' Hc' Ew. apply word_inj in Ew; auto; [by subst|]. apply Hin. by right. }
    split.
    { intros i0 Hi0. rewrite H2; [|intros c' Hc'; apply Hi0; by right]. rewrite list_lookup_insert_ne; auto.
      intros E0. apply (Hi0 c); [left|done]. }
    split; [by rewrite H3, insert_length|]. split; [done|]. intros j' a' Ha'.
    unfold hit. rewrite filter_cons, decide_False by congruence. by apply H5.
Qed.

Lemma hits_sum cs : (forall c, c ∈ cs -> c ∈ cells r) -> hits ow cs = sumto (fun j => length (hit ow j cs)) n.
Proof.
  induction cs as [|c cs IH]; intros Hin.
  - unfold hits. cbn. clear. induction n as [|m IH]; [done|]. cbn in *. by rewrite <-IH.
  - assert (forall f g m, (forall j, f j = g j) -> sumto f m = sumto g m) as Hext.
    { clear. intros f g m H. induction m as [|m IH]; [done|]. cbn. by rewrite IH, H. }
    unfold hits in *. rewrite filter_cons. specialize (IH ltac:(intros c' Hc'; apply Hin; by right)).
    destruct (ow c) as [j|] eqn:Eo.
    + rewrite decide_True by eauto. cbn [length]. rewrite IH.
      assert (j < n) as Hj by (eapply Hown; [|exact Eo]; apply Hin; left).
      rewrite (Hext (fun j' => length (hit ow j' (c :: cs))) (fun j' => length (hit ow j' cs) + (if decide (j' = j) then 1 else 0))).
      2:{ intros j'. unfold hit. rewrite filter_cons, Eo. destruct (decide (j' = j)) as [->|].
          - rewrite decide_True by done. cbn. lia.
          - rewrite decide_False by congruence. lia. }
      clear -Hj. assert (forall m, sumto (fun j' => length (hit ow j' cs) + (if decide (j' = j) then 1 else 0)) m =
        sumto (fun j' => length (hit ow j' cs)) m + (if decide (j < m) then 1 else 0)) as HG.
      { induction m as [|m IH]; cbn; [destruct (decide _); [lia|done]|]. rewrite IH.
        repeat destruct (decide _); lia. }
      rewrite HG, decide_True by done. lia.
    + rewrite decide_False by (by intros [? ?]). rewrite IH. apply Hext. intros j. unfold hit.
      by rewrite filter_cons, decide_False by congruence.
Qed.
End count.

(* ---------- the words of the memory ---------- *)
Section mem.
Context (n : nat) (vp : nat -> option nat) (Hvp : forall i j, vp i = Some j -> i < j /\ j < n).
Context (own : nat -> nat -> list pt) (sh : nat -> bool).
Notation pos := (pos n vp own sh). Notation len := (len vp own sh). Notation total := (total n vp own sh).
Notation hp := (hp vp own sh). Notation nk := (nk own). Notation pts := (pts vp own). Notation chl := (chl vp).
Notation kpx := (kpx vp own). Notation procs := (procs vp).

Definition adr (i : nat) (s : slot) (q e : nat) : nat := 2 * (pos i s + q) + e.
Definition ok4 (i : nat) (s : slot) (q e : nat) : Prop := i < n /\ okslot s /\ q < len i s /\ e < 2.
Definition W (m : emem) (i : nat) (s : slot) (q e : nat) : option Z := m (adr i s q e).

Lemma adr_in i s q e : ok4 i s q e -> adr i s q e < 2 * total.
Proof. intros (Hi & Hs & Hq & He). pose proof (seg_in n vp own sh i s Hi Hs). unfold adr. lia. Qed.
Lemma adr_inj i s q e j t q' e' : ok4 i s q e -> ok4 j t q' e' -> adr i s q e = adr j t q' e' -> (i, s, q, e) = (j, t, q', e').
Proof.
  intros (Hi & Hs & Hq & He) (Hj & Ht & Hq' & He') E. unfold adr in E.
  destruct (decide ((i, s) = (j, t))) as [[= -> ->]|Hne].
  - assert (e = e' /\ q = q') as [-> ->]; [lia|done].
  - destruct (seg_apart n vp own sh i j s t Hi Hj Hs Ht Hne); lia.
Qed.
Lemma get_ok m i s q e : ok4 i s q e -> m_get total m (adr i s q e) = W m i s q e.
Proof. intros H. unfold m_get. by rewrite (proj2 (Nat.ltb_lt _ _) (adr_in _ _ _ _ H)). Qed.
Lemma put_ok m i s q e v : ok4 i s q e -> exists m', m_put total m (adr i s q e) v = Some m' /\
  forall j t q' e', ok4 j t q' e' -> W m' j t q' e' = if decide ((j, t, q', e') = (i, s, q, e)) then Some v else W m j t q' e'.
Proof.
  intros H. unfold m_put. rewrite (proj2 (Nat.ltb_lt _ _) (adr_in _ _ _ _ H)). eexists. split; [done|].
  intros j t q' e' H'. unfold W. destruct (decide ((j, t, q', e') = (i, s, q, e))) as [[= -> -> -> ->]|Hne].
  - apply fn_lookup_insert.
  - apply fn_lookup_insert_ne. intros E. apply Hne. symmetry. by eapply adr_inj.
Qed.
(* writing the point in place q of a part *)
Definition pv (v : pt) (e : nat) : Z := if e =? 0 then fst v else snd v.
Lemma pput_ok m i s q v : i < n -> okslot s -> q < len i s -> exists m', p_put total m (pos i s + q) (fst v) (snd v) = Some m' /\
  forall j t q' e', ok4 j t q' e' -> W m' j t q' e' = if decide ((j, t, q') = (i, s, q)) then Some (pv v e') else W m j t q' e'.
Proof.
  intros Hi Hs Hq. unfold p_put. destruct (put_ok m i s q 0 (fst v)) as (m1 & E1 & H1); [by repeat split; auto with lia|].
  destruct (put_ok m1 i s q 1 (snd v)) as (m2 & E2 & H2); [by repeat split; auto with lia|].
  unfold adr in E1, E2. rewrite Nat.add_0_r in E1. rewrite E1, E2. exists m2. split; auto.
  intros j t q' e' H'. pose proof H' as (_ & _ & _ & He'). rewrite H2, H1 by done.
  destruct (decide ((j, t, q') = (i, s, q))) as [[= -> -> ->]|Hne].
  - destruct e' as [|[|e']]; [|by rewrite decide_True|lia]. rewrite decide_False by congruence. by rewrite decide_True.
  - rewrite !decide_False by congruence. done.
Qed.
Lemma pget_ok m i s q v : i < n -> okslot s -> q < len i s -> W m i s q 0 = Some (fst v) -> W m i s q 1 = Some (snd v) ->
  p_get total m (pos i s + q) = Some v.
Proof.
  intros Hi Hs Hq H0 H1. unfold p_get. pose proof (get_ok m i s q 0 ltac:(by repeat split; auto with lia)) as E0.
  pose proof (get_ok m i s q 1 ltac:(by repeat split; auto with lia)) as E1. unfold adr in E0, E1. rewrite Nat.add_0_r in E0.
  rewrite E0, E1, H0, H1. by destruct v.
Qed.

(* part (i,s) holds the points L from place a on *)
Definition holds (m : emem) (i : nat) (s : slot) (a : nat) (L : list pt) : Prop :=
  a + length L <= len i s /\ forall q v, L !! q = Some v -> forall e, e < 2 -> W m i s (a + q) e = Some (pv v e).

Lemma put_ranges_ok m i q (l : list (nat * nat)) : i < n -> q + length l <= 4 -> exists m',
  put_ranges total m (pos i Hd + q) l = Some m' /\
  holds m' i Hd q (map (fun xy => (Z.of_nat (fst xy), Z.of_nat (snd xy))) l) /\
  forall j t q' e', ok4 j t q' e' -> (j, t) <> (i, Hd) \/ q' < q \/ q + length l <= q' -> W m' j t q' e' = W m j t q' e'.
Proof.
  intros Hi. revert m q. induction l as [|[x y] l IH]; intros m q Hq.
  - exists m. split; [done|]. split; [split; [cbn in *; lia|by intros]|done].
  - cbn [length] in Hq. cbn [put_ranges]. destruct (pput_ok m i Hd q (Z.of_nat x, Z.of_nat y)) as (m1 & E1 & H1); auto; [done|cbn; lia|].
    cbn [fst snd] in E1. rewrite E1. destruct (IH m1 (q + 1)) as (m2 & E2 & [H2 H3] & H4); [lia|].
    rewrite Nat.add_assoc in E2. exists m2. split; auto. split.
    + split; [cbn in *; rewrite map_length in *; lia|]. intros [|q'] v Hv e He; cbn in Hv.
      * injection Hv as <-. rewrite Nat.add_0_r. assert (ok4 i Hd q e) as Hok by (repeat split; auto; cbn; lia).
        rewrite H4; [|done|right; lia]. rewrite H1 by done. by rewrite decide_True.
      * replace (q + S q') with (q + 1 + q') by lia. by apply H3.
    + intros j t q' e' Hok Hc. rewrite H4; [|done|]. 2:{ destruct Hc as [?|?]; [auto|]. right. cbn in *. lia. }
      rewrite H1 by done. rewrite decide_False; [done|]. intros [= -> -> ->]. destruct Hc as [?|?]; [done|]. cbn in *. lia.
Qed.

(* ---------- placing the records ---------- *)
Definition range_of (k j : nat) : pt := (Z.of_nat (pos j (Bk k)), Z.of_nat (pos j (Bk k) + nk k j)).
Record after5 (s : est) (l : list rref) (gr sz : nat -> nat) (i : nat) (t : lay) : Prop := {
  a5_starts : l_starts t = [hp i; pos i (Bk 1); pos i (Bk 2); pos i (Bk 3)];
  a5_hd : forall j, j < i -> holds (l_mem t) j Hd 0 (map (fun k => range_of k j) (seq 0 4));
  a5_ch : forall j, j < i -> sh j = false -> W (l_mem t) j Ch 0 0 = Some 0%Z;
  a5_ms : length (l_ms t) = n /\ forall j, j < i -> l_ms t !! j = Some (MRec (N.of_nat (gr j)) (sh j) (sz j) (hp j) rect0);
  a5_old : forall j, i <= j < n -> exists g p, l_ms t !! j = Some (MRec g (sh j) (sz j) p rect0);
  a5_pos : l_pos t = map (fun j => map (fun k => pos j (Bk k)) (seq 0 4)) (seq 0 i);
  a5_mi : forall j x, l !! j = Some x -> j < i -> l_mi t x = Some j
}.

Lemma kn_pos j : 0 < kn vp j.
Proof. unfold kn. pose proof (Nat.div_le_mono 2 (2 + length (chl j)) 2 ltac:(done) ltac:(lia)). change (2 / 2) with 1 in H. lia. Qed.

Lemma place_ok s l gr sz counts t0 :
  length l = n -> NoDup l ->
  (forall j x, l !! j = Some x -> exists a, fget (e_F s) x = Some a /\ g_gray a = gr j /\ e_kids s x = length (chl j) /\ e_kpix s x = kpx j) ->
  (exists c0 c1 c2 c3, counts = [c0; c1; c2; c3] /\ forall j, j < n -> c0 !! j = Some (nk 0 j) /\ c1 !! j = Some (nk 1 j) /\
     c2 !! j = Some (nk 2 j) /\ c3 !! j = Some (nk 3 j)) ->
  after5 s l gr sz 0 t0 -> exists t, loop (place total s counts) 0 l t0 = Some t /\ after5 s l gr sz n t.
Proof.
  intros Hln Hnd Hreg (c0 & c1 & c2 & c3 & -> & Hc) H0.
  assert (exists t, loop (place total s [c0; c1; c2; c3]) 0 l t0 = Some t /\ after5 s l gr sz (length l) t) as HG; [|by rewrite Hln in HG].
  apply (loop_ind (place total s [c0; c1; c2; c3]) (after5 s l gr sz)); auto. clear t0 H0.
  intros i x t Hx [A1 A2 A3 [A4 A5] A6 A7 A8]. assert (i < n) as Hi by (rewrite <-Hln; by eapply lookup_lt_Some).
  unfold place. destruct (Hreg i x Hx) as (a & Ha & Hg & Hk1 & Hk2). rewrite Ha.
  destruct (A6 i ltac:(lia)) as (g & p & Hm). rewrite Hm, A1. cbn [ms_share ms_size ms_rect].
  destruct (Hc i Hi) as (-> & -> & -> & ->). rewrite Hk1, Hk2. fold (kn vp i).
  assert (exists m1, (if sh i then Some (l_mem t) else m_put total (l_mem t) (2 * (hp i + 4)) 0) = Some m1 /\
    (sh i = false -> W m1 i Ch 0 0 = Some 0%Z) /\
    forall j u q e, ok4 j u q e -> (j, u) <> (i, Ch) -> W m1 j u q e = W (l_mem t) j u q e) as (m1 & -> & M1 & M2).
  { destruct (sh i) eqn:Es; [exists (l_mem t); split; [done|]; by split|]. assert (ok4 i Ch 0 0) as Hok.
    { repeat split; auto; try lia. cbn. rewrite Es. apply kn_pos. }
    destruct (put_ok (l_mem t) i Ch 0 0 0%Z Hok) as (m1 & E1 & H1). unfold adr in E1. rewrite !Nat.add_0_r in E1. cbn [pos ExtractAbs.pos] in E1.
    exists m1. split; [done|]. split.
    - intros _. rewrite H1 by done. by rewrite decide_True.
    - intros j u q e Hok' Hne. rewrite H1 by done. rewrite decide_False; [done|]. congruence. }
  assert ((if sh i then hp i + 4 else hp i + 4 + kn vp i) = pos i (Bk 0)) as ->.
  { cbn. destruct (sh i); lia. }
  destruct (put_ranges_ok m1 i 0 [(pos i (Bk 0), pos i (Bk 0) + nk 0 i); (pos i (Bk 1), pos i (Bk 1) + nk 1 i);
    (pos i (Bk 2), pos i (Bk 2) + nk 2 i); (pos i (Bk 3), pos i (Bk 3) + nk 3 i)]) as (m2 & E2 & H2 & H3); [done|cbn; lia|].
  rewrite Nat.add_0_r in E2. change (pos i Hd) with (hp i) in E2. rewrite E2. eexists. split; [done|].
  assert (forall j u q e, ok4 j u q e -> (j, u) <> (i, Hd) -> (j, u) <> (i, Ch) -> W m2 j u q e = W (l_mem t) j u q e) as HF.
  { intros j u q e Hok N1 N2. rewrite H3 by auto. by apply M2. }
  constructor; cbn [l_starts l_mem l_ms l_pos l_mi].
  - f_equal; [|f_equal; [|f_equal; [|f_equal]]]; cbn; unfold ExtractAbs.hp, cum; cbn [sumto]; try lia.
    unfold blk. destruct (sh i); lia.
  - intros j Hj. destruct (decide (j = i)) as [->|Hne]; [exact H2|]. destruct (A2 j ltac:(lia)) as [B1 B2].
    split; auto. intros q v Hv e He. rewrite HF; [by apply B2| |congruence|congruence].
    apply lookup_lt_Some in Hv. repeat split; auto; lia.
  - intros j Hj Es. destruct (decide (j = i)) as [->|Hne].
    + rewrite H3; [by apply M1| |left; congruence]. repeat split; auto; try lia. cbn. rewrite Es. apply kn_pos.
    + rewrite HF; [apply A3; auto; lia| |congruence|congruence]. repeat split; auto; try lia. cbn. rewrite Es. apply kn_pos.
  - split; [by rewrite insert_length|]. intros j Hj. destruct (decide (j = i)) as [->|Hne].
    + rewrite list_lookup_insert by lia. by rewrite Hg.
    + rewrite list_lookup_insert_ne by done. apply A5. lia.
  - intros j Hj. rewrite list_lookup_insert_ne by lia. apply A6. lia.
  - rewrite A7, (seq_S i 0), map_app. done.
  - intros j y Hy Hj. destruct (decide (y = x)) as [->|Hne].
    + rewrite fn_lookup_insert. f_equal. eapply NoDup_lookup; eauto.
    + rewrite fn_lookup_insert_ne by done. apply A8; auto. assert (j <> i) by (intros ->; congruence). lia.
Qed.

(* ---------- filling in the pixels ---------- *)
Context (rs : nat -> prect) (ow : nat -> nat * nat -> option nat).
Definition cpt (r : prect) (c : nat * nat) : pt := (Z.of_nat (snd c + r_left r), Z.of_nat (fst c + r_top r)).
Context (Hown : forall k j, k < 4 -> own k j = map (cpt (rs k)) (hit (ow k) j (cells (rs k)))).
Context (Hn : (N.of_nat n <= none32)%N).
Context (Hlt : forall k c j, k < 4 -> c ∈ cells (rs k) -> ow k c = Some j -> j < n).
Context (Hco : forall k c, k < 4 -> c ∈ cells (rs k) -> (0 <= fst (cpt (rs k) c) < 2 ^ 15)%Z /\ (0 <= snd (cpt (rs k) c) < 2 ^ 15)%Z).

Record wok (k : nat) (m : emem) (w : fwk) : Prop := {
  w_r : fw_r w = rs k;
  w_pts : forall c, c ∈ cells (rs k) -> fw_pts w !! word_at (rs k) c = Some (encN (ow k c));
  w_st : exists dn, cells (rs k) = dn ++ fw_todo w /\ length (fw_infos w) = n /\
    forall j, j < n -> exists b, fw_infos w !! j = Some b /\ bi_pos b = pos j (Bk k) + length (hit (ow k) j dn) /\
      info_of (map (cpt (rs k)) (hit (ow k) j dn)) b /\ holds m j (Bk k) 0 (map (cpt (rs k)) (hit (ow k) j dn))
}.
(* the words that filling does not touch *)
Definition rest_same (m m' : emem) : Prop := forall i s q e, ok4 i s q e -> (forall k, k < 4 -> s = Bk k -> nk k i <= q) -> W m' i s q e = W m i s q e.

Lemma nk_hit k j : k < 4 -> nk k j = length (hit (ow k) j (cells (rs k))).
Proof. intros Hk. unfold ExtractAbs.nk. by rewrite Hown, map_length. Qed.
Lemma hit_app k j a b : hit (ow k) j (a ++ b) = hit (ow k) j a ++ hit (ow k) j b.
Proof. apply filter_app. Qed.

Lemma fill_step k m w c cs : k < 4 -> wok k m w -> fw_todo w = c :: cs ->
  exists m' infos, fill_px total (fw_pts w) (fw_r w) m (fw_infos w) c = Some (m', infos) /\
    wok k m' (FWk (fw_r w) (fw_pts w) cs infos) /\
    (forall i s q e, ok4 i s q e -> s <> Bk k \/ nk k i <= q -> W m' i s q e = W m i s q e).
Proof.
  intros Hk [W1 W2 (dn & Hdn & Hlen & HI)] Ht. rewrite Ht in Hdn.
  assert (c ∈ cells (rs k)) as Hc by (rewrite Hdn; apply elem_of_app; right; left).
  unfold fill_px. rewrite W1, (W2 c Hc). destruct (ow k c) as [j|] eqn:Eo; cbn [encN].
  - assert (j < n) as Hj by (eapply Hlt; eauto).
    destruct (N.eqb_spec (N.of_nat j) none32); [lia|]. rewrite Nat2N.id.
    destruct (HI j Hj) as (b & Hb & Hp & Hbox & Hh). rewrite Hb.
    assert (length (hit (ow k) j dn) < nk k j) as Hlt'.
    { rewrite (nk_hit k j Hk), Hdn, hit_app, app_length. unfold hit at 3. rewrite filter_cons, decide_True by done. cbn. lia. }
    assert (length (hit (ow k) j dn) < len j (Bk k)) as Hlen' by (cbn; lia).
    destruct (pput_ok m j (Bk k) (length (hit (ow k) j dn)) (cpt (rs k) c) Hj Hk Hlen') as (m' & E & HW).
    rewrite <-Hp in E. unfold cpt in E. cbn [fst snd] in E. rewrite E. eexists _, _. split; [done|]. split.
    + constructor; auto. exists (dn ++ [c]). cbn [fw_todo fw_infos]. split; [by rewrite <-app_assoc|]. split; [by rewrite insert_length|].
      intros j' Hj'. rewrite hit_app, map_app. destruct (decide (j' = j)) as [->|Hne].
      * rewrite list_lookup_insert by lia. eexists. split; [done|].
        assert (hit (ow k) j [c] = [c]) as -> by (unfold hit; rewrite filter_cons, decide_True by done; done).
        rewrite grow_pos, app_length. cbn [length map]. split; [lia|].
        destruct (Hco k c Hk Hc) as [Hx Hy]. unfold cpt in Hx, Hy. cbn [fst snd] in Hx, Hy. split; [by apply grow_ok|].
        destruct Hh as [Hh1 Hh2]. rewrite map_length in Hh1. split; [rewrite app_length, map_length; cbn [length]; lia|]. intros q v Hv e He.
        destruct (decide (q = length (hit (ow k) j dn))) as [->|Hq].
        -- rewrite lookup_app_r in Hv by (by rewrite map_length). rewrite map_length, Nat.sub_diag in Hv. injection Hv as <-.
           rewrite HW by (repeat split; auto). by rewrite decide_True.
        -- rewrite lookup_app_l in Hv.
           2:{ apply lookup_lt_Some in Hv. rewrite app_length, map_length in Hv. cbn in Hv. rewrite map_length. lia. }
           pose proof (lookup_lt_Some _ _ _ Hv) as Hlv. rewrite map_length in Hlv.
           rewrite HW by (repeat split; auto; lia). rewrite decide_False by (intros [= ?]; lia). by apply Hh2.
      * rewrite list_lookup_insert_ne by done. destruct (HI j' Hj') as (b' & Hb' & Hp' & Hbox' & Hh'). exists b'.
        assert (hit (ow k) j' [c] = []) as -> by (unfold hit; rewrite filter_cons, decide_False by congruence; done).
        cbn [map]. rewrite !app_nil_r. split; auto. split; auto. split; auto. destruct Hh' as [B1 B2]. split; auto.
        intros q v Hv e He. rewrite HW.
        -- rewrite decide_False by congruence. by apply B2.
        -- apply lookup_lt_Some in Hv. repeat split; auto. lia.
    + intros i s q e Hok Hs. rewrite HW by done. rewrite decide_False; [done|]. intros [= -> -> ->]. destruct Hs as [?|?]; [done|lia].
  - destruct (N.eqb_spec none32 none32) as [_|]; [|done]. eexists _, _. split; [done|]. split; [|done].
    constructor; auto. exists (dn ++ [c]). cbn [fw_todo fw_infos]. split; [by rewrite <-app_assoc|]. split; auto.
    intros j Hj. rewrite hit_app. assert (hit (ow k) j [c] = []) as -> by (unfold hit; rewrite filter_cons, decide_False by congruence; done).
    rewrite app_nil_r. auto.
Qed.

(* SPEC: how often worker k runs *)
Definition turns (k : nat) (sched : list nat) : nat := length (filter (fun x => x = k) sched).
Lemma fill_ok sched m ws : (forall k, k ∈ sched -> k < 4) -> length ws = 4 -> (forall k w, ws !! k = Some w -> wok k m w) ->
  exists m' ws', fill_run total sched m ws = Some (m', ws') /\ length ws' = 4 /\ (forall k w, ws' !! k = Some w -> wok k m' w) /\
    rest_same m m' /\ forall k w, ws !! k = Some w -> exists w', ws' !! k = Some w' /\ length (fw_todo w') = length (fw_todo w) - turns k sched.
Proof.
  revert m ws. induction sched as [|k sched IH]; intros m ws Hs Hlen Hw.
  { exists m, ws. split; [done|]. split; [done|]. split; [done|]. split; [by intros ? ? ? ?|].
    intros k w Hk. exists w. split; auto. cbn. lia. }
  assert (k < 4) as Hk by (apply Hs; left). destruct (lookup_lt_is_Some_2 ws k) as [w Ew]; [lia|]. cbn [fill_run]. rewrite Ew.
  assert (forall k', turns k' (k :: sched) = (if decide (k = k') then 1 else 0) + turns k' sched) as HT.
  { intros k'. unfold turns. rewrite filter_cons. by destruct (decide _). }
  destruct (fw_todo w) as [|c cs] eqn:Et.
  - destruct (IH m ws) as (m' & ws' & E & L & H1 & H2 & H3); auto; [intros k' Hk'; apply Hs; by right|].
    exists m', ws'. split; auto. split; auto. split; auto. split; auto. intros k' w' Hk'. destruct (H3 k' w' Hk') as (w2 & ? & E2).
    exists w2. split; auto. rewrite E2, HT. destruct (decide (k = k')) as [->|]; [|done].
    assert (w' = w) as -> by congruence. rewrite Et. cbn. lia.
  - destruct (fill_step k m w c cs Hk (Hw k w Ew) Et) as (m1 & infos & -> & H1 & H2).
    destruct (IH m1 (<[k := FWk (fw_r w) (fw_pts w) cs infos]> ws)) as (m' & ws' & E & L & H3 & H4 & H5).
    + intros k' Hk'. apply Hs. by right.
    + by rewrite insert_length.
    + intros k' w' Hk'. destruct (decide (k' = k)) as [->|Hne].
      { rewrite list_lookup_insert in Hk' by lia. by injection Hk' as <-. }
      rewrite list_lookup_insert_ne in Hk' by done. destruct (Hw k' w' Hk') as [V1 V2 (dn & D1 & D2 & D3)].
      constructor; auto. exists dn. split; auto. split; auto. intros j Hj. destruct (D3 j Hj) as (b & B1 & B2 & B3 & B4 & B5).
      exists b. split; auto. split; auto. split; auto. split; auto. intros q v Hv e He. rewrite H2; [by apply B5| |left; congruence].
      assert (k' < 4) by (rewrite <-Hlen; by eapply lookup_lt_Some). apply lookup_lt_Some in Hv. repeat split; auto. lia.
    + exists m', ws'. split; auto. split; auto. split; auto. split.
      { intros i s q e Hok Hq. rewrite (H4 i s q e Hok Hq). apply H2; auto.
        destruct (decide (s = Bk k)) as [->|]; [right; by apply Hq|by left]. }
      intros k' w' Hk'. rewrite HT. destruct (decide (k = k')) as [->|Hne].
      * destruct (H5 k' (FWk (fw_r w) (fw_pts w) cs infos)) as (w2 & Hw2 & E2); [by rewrite list_lookup_insert by lia|].
        exists w2. split; auto. rewrite E2. assert (w' = w) as -> by congruence. rewrite Et. cbn. lia.
      * destruct (H5 k' w') as (w2 & Hw2 & E2); [by rewrite list_lookup_insert_ne|]. eauto.
Qed.
End mem.
