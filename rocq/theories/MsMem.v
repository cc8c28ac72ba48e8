(* Extraction in MS-MSER: the memory of the result. *)
From stdpp Require Import sorting relations functions list_numbers list.
From Coq Require Import NArith ZArith.
From Verif Require Import FloodModel ConnectModel PartModel WholeModel RecogModel RectModel ExtractModel ExtractAbs ExtractLink RectFacts ExtractMem ExtractFinish ExtractDecode MsModel MsLink.
Local Open Scope nat_scope.

(* the points L are stored from offset a on *)
Definition range (m : emem) (a : nat) (L : list pt) : Prop :=
  forall q v, L !! q = Some v -> m (2 * (a + q)) = Some (fst v) /\ m (2 * (a + q) + 1) = Some (snd v).
(* m' is m outside of the offsets a, ..., b - 1 *)
Definition only (m m' : emem) (a b : nat) : Prop := forall w, ~ (2 * a <= w < 2 * b) -> m' w = m w.

Lemma only_refl m a b : only m m a b.
Proof. by intros w _. Qed.
Lemma range_only m m' a b c L : only m m' a b -> (c + length L <= a \/ b <= c) -> range m c L -> range m' c L.
Proof.
  intros Ho Hd Hr q v Hq. pose proof (lookup_lt_Some _ _ _ Hq) as Hlt. destruct (Hr q v Hq) as [H1 H2].
  rewrite !Ho by lia. done.
Qed.
Lemma range_app m a L L' : range m a (L ++ L') <-> range m a L /\ range m (a + length L) L'.
Proof.
  split.
  - intros H. split; intros q v Hq.
    + apply H. rewrite lookup_app_l; [done|]. by eapply lookup_lt_Some.
    + replace (a + length L + q) with (a + (length L + q)) by lia. apply H. rewrite lookup_app_r by lia.
      by replace (length L + q - length L) with q by lia.
  - intros [H1 H2] q v Hq. apply lookup_app_Some in Hq as [Hq|[Hge Hq]]; [by apply H1|].
    replace (a + q) with (a + length L + (q - length L)) by lia. by apply H2.
Qed.
Lemma range_nil m a : range m a [].
Proof. by intros q v Hq. Qed.
Lemma put_only size m p x y : p < size -> exists m', p_put size m p x y = Some m' /\ range m' p [(x, y)] /\ only m m' p (p + 1).
Proof.
  intros Hp. unfold p_put, m_put. rewrite !(proj2 (Nat.ltb_lt _ _)) by lia. eexists. split; [done|]. split.
  - intros [|q] v Hq; [|done]. injection Hq as <-. rewrite Nat.add_0_r. split; [|apply fn_lookup_insert].
    etrans; [apply fn_lookup_insert_ne; lia|]. apply fn_lookup_insert.
  - intros w Hw. etrans; [apply fn_lookup_insert_ne; lia|]. apply fn_lookup_insert_ne. lia.
Qed.
Lemma get_range size m a L q v : a + length L <= size -> range m a L -> L !! q = Some v -> p_get size m (a + q) = Some v.
Proof.
  intros Hs Hr Hq. pose proof (lookup_lt_Some _ _ _ Hq). destruct (Hr q v Hq) as [H1 H2]. unfold p_get, m_get.
  rewrite !(proj2 (Nat.ltb_lt _ _)) by lia. rewrite H1, H2. by destruct v.
Qed.
Lemma read_range_ok size m a L : a + length L <= size -> range m a L -> read_pts size m a (length L) = Some L.
Proof.
  revert a. induction L as [|v L IH]; intros a Hs Hr; [done|]. cbn [length read_pts]. cbn [length] in Hs.
  pose proof (get_range size m a (v :: L) 0 v Hs Hr eq_refl) as E. rewrite Nat.add_0_r in E. rewrite E, IH; [done|lia|].
  apply (range_app m a [v] L) in Hr as [_ Hr]. done.
Qed.
Lemma copy_only size m a b L : a + length L <= size -> b + length L <= size -> a + length L <= b -> range m a L ->
  exists m', copy_pts size m a b (length L) = Some m' /\ range m' b L /\ only m m' b (b + length L).
Proof.
  revert m a b. induction L as [|v L IH]; intros m a b Ha Hb Hab Hr.
  { exists m. split; [done|]. split; [apply range_nil|apply only_refl]. }
  cbn [length copy_pts] in *. pose proof (get_range size m a (v :: L) 0 v Ha Hr eq_refl) as E. rewrite Nat.add_0_r in E. rewrite E.
  destruct v as [x y]. destruct (put_only size m b x y) as (m1 & -> & H1 & O1); [lia|].
  apply (range_app m a [(x, y)] L) in Hr as [_ Hr]. cbn [length] in Hr.
  destruct (IH m1 (a + 1) (b + 1)) as (m2 & -> & H2 & O2); [lia|lia|lia| |].
  { eapply range_only; [exact O1| |exact Hr]. lia. }
  exists m2. split; [done|]. split.
  - apply (range_app m2 b [(x, y)] L). split; [|done]. eapply range_only; [exact O2| |exact H1]. cbn. lia.
  - intros w Hw. rewrite O2 by lia. apply O1. lia.
Qed.

(* the rectangle while pixels are added *)
Definition minfo (L : list pt) (r : rect) : Prop :=
  (L = [] /\ x_left r = -1)%Z \/ (boxed True L (x_left r) (x_w r) (x_top r) (x_h r) /\ 0 <= x_left r)%Z.
Lemma ms_grow_ok L r x y : (0 <= x)%Z -> minfo L r -> minfo (L ++ [(x, y)]) (ms_grow r x y).
Proof.
  intros Hx [[-> Hr]|[Hb Hl]]; unfold ms_grow.
  - rewrite (proj2 (Z.eqb_eq _ _) Hr). right. cbn [app x_left x_w x_top x_h]. split; [apply boxed_one|lia].
  - destruct (Z.eqb_spec (x_left r) (-1)); [lia|].
    assert (boxed True (L ++ [(x, y)]) (Z.min (x_left r) x) (Z.max (x_w r) x) (Z.min (x_top r) y) (Z.max (x_h r) y)) as HB.
    { destruct (boxed_one True (x, y)) as (J1 & J2 & J3 & J4 & J5). destruct Hb as (H1 & H2 & H3 & H4 & H5). cbn in *.
      split; [by apply least_app|]. split; [by apply taken_max|]. split; [by apply least_app|]. split; [by apply taken_max|].
      intros HE. destruct (H5 HE), (J5 HE). split; by apply bounds_max. }
    assert (x_left r <= x_w r)%Z as Hlr by (destruct Hb as (? & ? & _); by eapply least_le).
    assert (x_top r <= x_h r)%Z as Htb by (destruct Hb as (_ & _ & ? & ? & _); by eapply least_le).
    right. assert ((let '(l, rt) := if (x <? x_left r)%Z then (x, x_w r) else if (x_w r <? x)%Z then (x_left r, x) else (x_left r, x_w r) in
      let '(t, d) := if (y <? x_top r)%Z then (y, x_h r) else if (x_h r <? y)%Z then (x_top r, y) else (x_top r, x_h r) in
      Rect l t rt d) = Rect (Z.min (x_left r) x) (Z.min (x_top r) y) (Z.max (x_w r) x) (Z.max (x_h r) y)) as ->.
    { destruct (Z.ltb_spec x (x_left r)); [|destruct (Z.ltb_spec (x_w r) x)];
        (destruct (Z.ltb_spec y (x_top r)); [|destruct (Z.ltb_spec (x_h r) y)]); f_equal; lia. }
    cbn [x_left x_w x_top x_h]. split; [done|lia].
Qed.

Section mem.
Context (n : nat) (vp : nat -> option nat) (Hvp : forall i j, vp i = Some j -> i < j /\ j < n).
Context (own1 : nat -> list pt) (sh : nat -> bool) (grv : nat -> N) (sz : nat -> nat).
Definition own4 (k j : nat) : list pt := if k =? 0 then own1 j else [].
Notation P := (pts vp own4). Notation chl := (chl vp). Notation procs := (procs vp).
Context (Hsz : forall j, j < n -> sz j = length (P j)).
Context (Hsh : forall i j, vp i = Some j -> sh j = true -> sh i = true).
Context (Hne : forall j, j < n -> own1 j <> []).

Lemma P_eq j : P j = own1 j ++ (chl j ≫= P).
Proof. rewrite (pts_eq n vp Hvp own4 j). unfold rest, own4. cbn [Nat.eqb app]. by rewrite app_nil_r. Qed.
Definition mblk (j : nat) : nat := if sh j then length (P j) else 1 + length (own1 j) + (1 + length (chl j)) / 2.
Definition mst (j : nat) : nat := sumto mblk j.
Definition mhd (j : nat) : nat := if sh j then 0 else 1.
Notation tot := (mst n).
Lemma st_lt i j : i < j -> mst i + mblk i <= mst j.
Proof. apply sumto_mono. Qed.
Lemma own_room j : mhd j + length (own1 j) <= mblk j.
Proof. unfold mhd, mblk. destruct (sh j); [|lia]. rewrite P_eq, app_length. lia. Qed.
Lemma st_apart i j : i <> j -> mst i + mblk i <= mst j \/ mst j + mblk j <= mst i.
Proof. intros H. destruct (decide (i < j)); [left|right]; apply st_lt; lia. Qed.
Lemma st_tot j : j < n -> mst j + mblk j <= tot.
Proof. apply st_lt. Qed.

(* ---------- placing the records ---------- *)
Record placed (l : list rref) (i : nat) (t : mslay) : Prop := {
  pl_off : y_off t = mst i;
  pl_len : length (y_ms t) = n;
  pl_ms : forall j, j < n -> y_ms t !! j = Some (MRec (grv j) (sh j) (sz j) (if j <? i then mst j + mhd j else 0) rectm);
  pl_mi : forall j x, l !! j = Some x -> j < i -> y_mi t x = Some j;
  pl_hd : forall j, j < i -> j < n -> sh j = false -> range (y_mem t) (mst j) [(Z.of_nat (length (own1 j)), 0%Z)]
}.
Lemma ms_place_ok (l : list rref) s ms0 : length l = n -> NoDup l -> length ms0 = n ->
  (forall j x, l !! j = Some x -> e_kids s x = length (chl j) /\ e_kpix s x = length (chl j ≫= P)) ->
  (forall j, j < n -> ms0 !! j = Some (MRec (grv j) (sh j) (sz j) 0 rectm)) ->
  exists t, loop (ms_place tot s) 0 l (MsLay (fun _ => None) ms0 0 (fun _ => None)) = Some t /\ placed l n t.
Proof.
  intros Hln Hnd Hl0 Hs Hm0. pose proof (loop_ind (ms_place tot s) (placed l) l (MsLay (fun _ => None) ms0 0 (fun _ => None))) as HL. rewrite Hln in HL. apply HL; clear HL.
  { constructor; cbn; auto; intros; lia. }
  intros i x t Hx [P1 P2 P3 P4 P5]. assert (i < n) as Hi by (rewrite <-Hln; by eapply lookup_lt_Some). unfold ms_place.
  rewrite (P3 i Hi). cbn [ms_share ms_size ms_gray ms_rect]. destruct (Hs i x Hx) as [-> ->].
  assert (sz i = length (own1 i) + length (chl i ≫= P)) as Esz by (by rewrite Hsz, P_eq, app_length).
  assert (forall j y, l !! j = Some y -> j < S i -> (<[x:=Some i]> (y_mi t)) y = Some j) as Hmi.
  { intros j y Hy Hj. destruct (decide (y = x)) as [->|Hyx].
    - rewrite fn_lookup_insert. f_equal. by eapply NoDup_lookup.
    - rewrite fn_lookup_insert_ne by done. apply P4; auto. assert (j <> i) by (intros ->; congruence). lia. }
  assert (forall p j, j < n -> p = mst i + mhd i -> <[i:=MRec (grv i) (sh i) (sz i) p rectm]> (y_ms t) !! j =
    Some (MRec (grv j) (sh j) (sz j) (if j <? S i then mst j + mhd j else 0) rectm)) as Hput.
  { intros p j Hj ->. destruct (decide (j = i)) as [->|Hji].
    - rewrite list_lookup_insert by (by rewrite P2). by rewrite (proj2 (Nat.ltb_lt i (S i))) by lia.
    - rewrite list_lookup_insert_ne by done. rewrite (P3 j Hj). destruct (Nat.ltb_spec j i), (Nat.ltb_spec j (S i)); try lia; done. }
  assert (mst (S i) = mst i + mblk i) as ES by done.
  pose proof (st_tot i Hi) as Htt. pose proof (own_room i) as Hroom.
  destruct (sh i) eqn:Es.
  - eexists. split; [done|]. assert (mblk i = sz i) as Eb by (unfold mblk; rewrite Es; by rewrite Hsz).
    constructor; cbn [y_off y_ms y_mem y_mi]; auto.
    + lia.
    + by rewrite insert_length.
    + intros j Hj. apply Hput; auto. unfold mhd. rewrite Es. lia.
    + intros j Hj Hjn Hsj. apply P5; auto. assert (j <> i) by congruence. lia.
  - assert (mblk i = 1 + length (own1 i) + (1 + length (chl i)) / 2) as Eb by (unfold mblk; by rewrite Es).
    destruct (Nat.ltb_spec (sz i) (length (chl i ≫= P))); [lia|].
    destruct (put_only tot (y_mem t) (y_off t) (Z.of_nat (sz i - length (chl i ≫= P))) 0) as (m' & -> & R1 & O1).
    { rewrite P1. set (q := (1 + length (chl i)) / 2) in *. lia. }
    eexists. split; [done|]. constructor; cbn [y_off y_ms y_mem y_mi]; auto.
    + set (q := (1 + length (chl i)) / 2) in *. lia.
    + by rewrite insert_length.
    + intros j Hj. apply Hput; auto. unfold mhd. rewrite Es. lia.
    + intros j Hj Hjn Hsj. destruct (decide (j = i)) as [->|Hji].
      * rewrite P1 in R1. by replace (sz i - length (chl i ≫= P)) with (length (own1 i)) in R1 by lia.
      * eapply range_only; [exact O1| |apply P5; auto; lia]. rewrite P1. cbn [length].
        pose proof (st_lt j i ltac:(lia)). pose proof (own_room j) as Hr. unfold mhd in Hr. rewrite Hsj in Hr. lia.
Qed.

(* ---------- filling ---------- *)
Context (r : prect) (ow : nat * nat -> option nat).
Context (Hown : forall j, own1 j = map (cpt r) (hit ow j (cells r))).
Context (Hlt : forall c j, c ∈ cells r -> ow c = Some j -> j < n).
Definition part (dn : list (nat * nat)) (j : nat) : list pt := map (cpt r) (hit ow j dn).
Record filled (dn : list (nat * nat)) (t : emem * list mrec) : Prop := {
  fl_len : length (snd t) = n;
  fl_ms : forall j, j < n -> exists rc, snd t !! j = Some (MRec (grv j) (sh j) (sz j) (mst j + mhd j + length (part dn j)) rc) /\ minfo (part dn j) rc;
  fl_mem : forall j, j < n -> range (fst t) (mst j + mhd j) (part dn j);
  fl_hd : forall j, j < n -> sh j = false -> range (fst t) (mst j) [(Z.of_nat (length (own1 j)), 0%Z)]
}.
Lemma part_app a b j : part (a ++ b) j = part a j ++ part b j.
Proof. unfold part, hit. by rewrite filter_app, map_app. Qed.
Lemma part_one c j : part [c] j = if decide (ow c = Some j) then [cpt r c] else [].
Proof. unfold part, hit. rewrite filter_cons. by destruct (decide _). Qed.

Lemma ms_fill_ok s words (lbl : nat * nat -> nat) t :
  (forall c, c ∈ cells r -> words !! word_at r c = Some (bnd4 + N.of_nat (lbl c))%N /\ (N.of_nat (lbl c) < 2 ^ 29)%N /\
     h_get s (0, lbl c) = Some (encZ (ow c))) ->
  filled [] t -> exists t', ms_fill tot s words r (cells r) t = Some t' /\ filled (cells r) t'.
Proof.
  intros Hw. assert (forall cs dn t, dn ++ cs = cells r -> filled dn t -> exists t', ms_fill tot s words r cs t = Some t' /\ filled (cells r) t') as HG.
  { induction cs as [|c cs IH]; intros dn t0 Hdn HF.
    { exists t0. split; [done|]. by rewrite <-Hdn, app_nil_r. }
    cbn [ms_fill]. destruct t0 as [m ms]. assert (c ∈ cells r) as Hc by (rewrite <-Hdn; apply elem_of_app; right; left).
    assert ((dn ++ [c]) ++ cs = cells r) as Hdn' by (by rewrite <-app_assoc).
    assert (exists t1, ms_px tot s words r (m, ms) c = Some t1 /\ filled (dn ++ [c]) t1) as (t1 & -> & HF1); [|by apply (IH (dn ++ [c]))].
    unfold ms_px. destruct (Hw c Hc) as (W1 & W2 & W3). rewrite W1.
    assert (N.to_nat ((bnd4 + N.of_nat (lbl c) + 2 ^ 32 - bnd4) mod 2 ^ 32) = lbl c) as ->.
    { replace (bnd4 + N.of_nat (lbl c) + 2 ^ 32 - bnd4)%N with (N.of_nat (lbl c) + 1 * 2 ^ 32)%N by lia.
      rewrite N.mod_add by done. rewrite N.mod_small; [lia|]. etrans; [exact W2|]. done. }
    rewrite W3. destruct HF as [F1 F2 F3 F4]. cbn [fst snd] in *. destruct (ow c) as [j|] eqn:Eo; cbn [encZ].
    2:{ cbn [Z.eqb]. exists (m, ms). split; [done|]. assert (forall j, part (dn ++ [c]) j = part dn j) as Ep.
        { intros j. rewrite part_app, part_one, decide_False by congruence. by rewrite app_nil_r. }
        constructor; cbn [fst snd]; auto; setoid_rewrite Ep; auto. }
    destruct (Z.eqb_spec (Z.of_nat j) (-1)); [lia|]. destruct (Z.ltb_spec (Z.of_nat j) 0); [lia|]. rewrite Nat2Z.id.
    pose proof (Hlt c j Hc Eo) as Hj. destruct (F2 j Hj) as (rc & Hms & Hrc). rewrite Hms. cbn [ms_pts ms_gray ms_share ms_size ms_rect].
    assert (part (dn ++ [c]) j = part dn j ++ [cpt r c]) as Epj by (by rewrite part_app, part_one, decide_True).
    assert (forall i, i <> j -> part (dn ++ [c]) i = part dn i) as Epi.
    { intros i Hi. rewrite part_app, part_one, decide_False by congruence. by rewrite app_nil_r. }
    assert (length (part dn j) < length (own1 j)) as Hlen.
    { rewrite Hown. fold (part (cells r) j). rewrite <-Hdn', part_app, Epj, !app_length. cbn. lia. }
    pose proof (own_room j) as Hroom. pose proof (st_tot j Hj) as Htt.
    destruct (put_only tot m (mst j + mhd j + length (part dn j)) (Z.of_nat (snd c + r_left r)) (Z.of_nat (fst c + r_top r))) as (m' & -> & R1 & O1); [lia|].
    eexists. split; [done|]. constructor; cbn [fst snd].
    - by rewrite insert_length.
    - intros i Hi. destruct (decide (i = j)) as [->|Hij].
      + rewrite list_lookup_insert by (by rewrite F1). eexists. rewrite Epj. split.
        * rewrite app_length. cbn [length]. by rewrite Nat.add_assoc.
        * apply ms_grow_ok; [lia|done].
      + rewrite list_lookup_insert_ne by done. rewrite (Epi i Hij). by apply F2.
    - intros i Hi. destruct (decide (i = j)) as [->|Hij].
      + rewrite Epj. apply range_app. split; [|done]. eapply range_only; [exact O1| |by apply F3]. lia.
      + rewrite (Epi i Hij). eapply range_only; [exact O1| |by apply F3].
        assert (length (part dn i) <= length (own1 i)) as Hl.
        { rewrite Hown. fold (part (cells r) i). rewrite <-Hdn, part_app, app_length. lia. }
        pose proof (own_room i). destruct (st_apart i j Hij); lia.
    - intros i Hi Hsi. eapply range_only; [exact O1| |by apply F4]. cbn [length].
      destruct (decide (i = j)) as [->|Hij]; [unfold mhd; rewrite Hsi; lia|].
      pose proof (own_room i) as Hr. unfold mhd in Hr at 1. rewrite Hsi in Hr. destruct (st_apart i j Hij); lia. }
  intros HF. by apply (HG (cells r) [] t).
Qed.
Lemma placed_filled l t : placed l n t -> filled [] (y_mem t, y_ms t).
Proof.
  intros [P1 P2 P3 P4 P5]. constructor; cbn [fst snd]; auto.
  - intros j Hj. exists rectm. rewrite (P3 j Hj), (proj2 (Nat.ltb_lt j n) Hj). split; [|by left]. cbn. by rewrite Nat.add_0_r.
  - intros j Hj. apply range_nil.
Qed.

(* ---------- ending the rectangles ---------- *)
Record closed (i : nat) (ms : list mrec) : Prop := {
  cl_len : length ms = n;
  cl_new : forall j, j < i -> j < n -> exists rc, ms !! j = Some (MRec (grv j) (sh j) (sz j) (mst j + if sh j then length (own1 j) else 0) rc) /\ rect_of True (own1 j) rc;
  cl_old : forall j, i <= j -> j < n -> exists rc, ms !! j = Some (MRec (grv j) (sh j) (sz j) (mst j + mhd j + length (own1 j)) rc) /\ minfo (own1 j) rc
}.
Lemma ms_close_ok (l : list rref) s t : length l = n -> (forall j x, l !! j = Some x -> e_kpix s x = length (chl j ≫= P)) ->
  filled (cells r) t -> exists ms, loop (ms_close s) 0 l (snd t) = Some ms /\ closed n ms.
Proof.
  intros Hln Hs [F1 F2 F3 F4]. pose proof (loop_ind (ms_close s) closed l (snd t)) as HL. rewrite Hln in HL. apply HL; clear HL.
  { constructor; [done|intros; lia|]. intros j _ Hj. destruct (F2 j Hj) as (rc & H1 & H2).
    exists rc. rewrite H1. change (part (cells r) j) with (map (cpt r) (hit ow j (cells r))) in *. rewrite <-Hown in *. auto. }
  intros i x ms Hx [C1 C2 C3]. assert (i < n) as Hi by (rewrite <-Hln; by eapply lookup_lt_Some). unfold ms_close.
  destruct (C3 i ltac:(lia) Hi) as (rc & Hms & [[Hnil _]|[Hb Hl]]). { by destruct (Hne i Hi). }
  rewrite Hms. cbn [ms_share ms_size ms_pts ms_rect ms_gray]. rewrite (Hs i x Hx).
  assert (sz i = length (own1 i) + length (chl i ≫= P)) as Esz by (by rewrite Hsz, P_eq, app_length).
  assert (((mst i + mhd i + length (own1 i) <? (if sh i then 0 else 1 + (sz i - length (chl i ≫= P)))) ||
    (sz i <? length (chl i ≫= P)) && negb (sh i)) = false) as ->.
  { destruct (Nat.ltb_spec (sz i) (length (chl i ≫= P))); [lia|]. rewrite andb_false_l, orb_false_r.
    apply Nat.ltb_ge. unfold mhd. destruct (sh i); lia. }
  eexists. split; [done|]. constructor.
  - by rewrite insert_length.
  - intros j Hj Hjn. destruct (decide (j = i)) as [->|Hji].
    + rewrite list_lookup_insert by (by rewrite C1). eexists. split; [|by apply boxed_rect]. do 2 f_equal. unfold mhd. destruct (sh i); lia.
    + rewrite list_lookup_insert_ne by done. apply C2; auto. lia.
  - intros j Hj Hjn. rewrite list_lookup_insert_ne by lia. apply C3; auto. lia.
Qed.

(* ---------- the last loop ---------- *)
Definition D (i j : nat) : list pt := own1 j ++ (procs i j ≫= P).
Lemma D_S i j : D (S i) j = D i j ++ (if decide (vp i = Some j) then P i else []).
Proof.
  unfold D. rewrite procs_S, bind_app, app_assoc. f_equal. destruct (decide _); [|done]. cbn. by rewrite app_nil_r.
Qed.
Lemma D_all i j : j <= i -> D i j = P j.
Proof. intros H. unfold D. rewrite (procs_later n vp Hvp i j H). by rewrite <-P_eq. Qed.
Lemma D_len i j : length (D i j) <= length (P j).
Proof.
  destruct (decide (j <= i)) as [H|H]; [by rewrite D_all|]. rewrite <-(D_all j j) by lia.
  assert (forall k, length (D i j) <= length (D (i + k) j)) as HG.
  { induction k as [|k IH]; [by rewrite Nat.add_0_r|]. rewrite Nat.add_succ_r, D_S, app_length. lia. }
  specialize (HG (j - i)). by replace (i + (j - i)) with j in HG by lia.
Qed.
Lemma procs_len i j : length (procs i j) <= length (chl j).
Proof.
  destruct (decide (j <= i)) as [H|H]; [by rewrite (procs_later n vp Hvp i j H)|].
  assert (forall k, length (procs i j) <= length (procs (i + k) j)) as HG.
  { induction k as [|k IH]; [by rewrite Nat.add_0_r|]. rewrite Nat.add_succ_r, procs_S, app_length. lia. }
  specialize (HG (j - i)). by replace (i + (j - i)) with j in HG by lia.
Qed.
(* the first word of the list of children of j *)
Definition kw (j : nat) : nat := 2 * (mst j + 1 + length (own1 j)).
Record finI (i : nat) (t : emem * list mrec) : Prop := {
  fi_len : length (snd t) = n;
  fi_ms : forall j, j < n -> exists rc, snd t !! j = Some (MRec (grv j) (sh j) (sz j) (mst j + if sh j && (i <=? j) then length (D i j) else 0) rc) /\
    rect_of True (D i j) rc;
  fi_sh : forall j, j < n -> sh j = true -> range (fst t) (mst j) (D i j);
  fi_own : forall j, j < n -> sh j = false -> range (fst t) (mst j + 1) (own1 j);
  fi_hd : forall j, j < n -> sh j = false -> range (fst t) (mst j) [(Z.of_nat (length (own1 j)), Z.of_nat (length (procs i j)))];
  fi_kids : forall j q c, j < n -> sh j = false -> procs i j !! q = Some c -> fst t (kw j + q) = Some (Z.of_nat c - Z.of_nat j)%Z
}.
Lemma closed_fin t ms : filled (cells r) t -> closed n ms -> finI 0 (fst t, ms).
Proof.
  intros [F1 F2 F3 F4] [C1 C2 _]. assert (forall j, D 0 j = own1 j) as E0 by (intros j; unfold D; by rewrite app_nil_r).
  assert (forall j, part (cells r) j = own1 j) as Ep by (intros j; by rewrite Hown).
  constructor; cbn [fst snd]; auto.
  - intros j Hj. destruct (C2 j Hj Hj) as (rc & H1 & H2). exists rc. rewrite H1, E0. split; [|done]. by destruct (sh j).
  - intros j Hj Hs. pose proof (F3 j Hj) as H. unfold mhd in H. rewrite Hs, Nat.add_0_r, Ep in H. by rewrite E0.
  - intros j Hj Hs. pose proof (F3 j Hj) as H. unfold mhd in H. by rewrite Hs, Ep in H.
  - intros j q c Hj Hs Hq. done.
Qed.

Lemma own_blk j : j < n -> sh j = false -> mst j + 1 + length (own1 j) + (1 + length (chl j)) / 2 = mst j + mblk j.
Proof. intros Hj Hs. unfold mblk. rewrite Hs. set (q := (1 + length (chl j)) / 2). lia. Qed.
Lemma kids_room j : length (chl j) <= 2 * ((1 + length (chl j)) / 2).
Proof. pose proof (Nat.div_mod (1 + length (chl j)) 2 ltac:(lia)). pose proof (Nat.mod_upper_bound (1 + length (chl j)) 2 ltac:(lia)). lia. Qed.

(* nothing of the other records changes when only the block of j is written *)
Lemma fin_frame i m m' ms j : finI i (m, ms) -> j < n -> only m m' (mst j) (mst j + mblk j) ->
  (forall k, k < n -> k <> j -> sh k = true -> range m' (mst k) (D i k)) /\
  (forall k, k < n -> k <> j -> sh k = false -> range m' (mst k + 1) (own1 k) /\
     range m' (mst k) [(Z.of_nat (length (own1 k)), Z.of_nat (length (procs i k)))] /\
     forall q c, procs i k !! q = Some c -> m' (kw k + q) = Some (Z.of_nat c - Z.of_nat k)%Z).
Proof.
  intros [I1 I2 I3 I4 I5 I6] Hj Ho. cbn [fst snd] in *. split.
  - intros k Hk Hkj Hs. eapply range_only; [exact Ho| |by apply I3]. pose proof (D_len i k).
    assert (mblk k = length (P k)) as Eb by (unfold mblk; by rewrite Hs). destruct (st_apart k j Hkj); lia.
  - intros k Hk Hkj Hs. pose proof (own_blk k Hk Hs) as Eb. pose proof (kids_room k) as Hroom. set (q0 := (1 + length (chl k)) / 2) in *.
    split; [|split].
    + eapply range_only; [exact Ho| |by apply I4]. destruct (st_apart k j Hkj); lia.
    + eapply range_only; [exact Ho| |by apply I5]. cbn [length]. destruct (st_apart k j Hkj); lia.
    + intros q c Hq. rewrite Ho; [by apply I6|]. unfold kw. pose proof (lookup_lt_Some _ _ _ Hq). pose proof (procs_len i k).
      destruct (st_apart k j Hkj); lia.
Qed.

Lemma ms_finish_ok (l : list rref) s mi t : length l = n ->
  (forall i x, l !! i = Some x -> exists a, fget (e_F s) x = Some a /\
     ((g_par a = None /\ vp i = None) \/ exists y b j, g_par a = Some y /\ fget (e_F s) y = Some b /\ g_flag b = 2 /\ mi y = Some j /\ vp i = Some j)) ->
  finI 0 t -> exists t', loop (ms_finish tot s mi) 0 l t = Some t' /\ finI n t'.
Proof.
  intros Hln Hs H0. pose proof (loop_ind (ms_finish tot s mi) finI l t H0) as HL. rewrite Hln in HL. apply HL; clear HL.
  intros i x [m ms] Hx HI. assert (i < n) as Hi by (rewrite <-Hln; by eapply lookup_lt_Some). pose proof HI as [I1 I2 I3 I4 I5 I6]. cbn [fst snd] in *.
  unfold ms_finish. destruct (Hs i x Hx) as (a & -> & Hpar). destruct (I2 i Hi) as (rc & Hc & Hrc). rewrite Hc.
  rewrite (D_all i i) in Hc, Hrc by lia. rewrite (proj2 (Nat.leb_le i i)) in Hc by lia. rewrite andb_true_r in Hc.
  assert (mst i + (if sh i && (i <=? i) then length (D i i) else 0) = mst i + (if sh i then sz i else 0)) as Epi.
  { rewrite (proj2 (Nat.leb_le i i)) by lia. rewrite andb_true_r, (D_all i i), (Hsz i Hi) by lia. done. }
  destruct Hpar as [[-> Hv]|(y & b & j & -> & Hb & Hbf & Hmi & Hv)].
  - rewrite Hc. cbn [ms_share ms_size ms_pts ms_gray ms_rect]. rewrite <-(Hsz i Hi).
    destruct (Nat.ltb_spec (mst i + (if sh i then sz i else 0)) (if sh i then sz i else 0)); [lia|].
    eexists. split; [done|].
    assert (forall j, D (S i) j = D i j) as ED by (intros j; rewrite D_S, decide_False by congruence; by rewrite app_nil_r).
    assert (forall j, procs (S i) j = procs i j) as EP by (intros j; rewrite procs_S, decide_False by congruence; by rewrite app_nil_r).
    constructor; cbn [fst snd].
    + by rewrite insert_length.
    + intros k Hk. rewrite ED. destruct (decide (k = i)) as [->|Hki].
      * rewrite list_lookup_insert by (by rewrite I1). eexists. split; [|rewrite (D_all i i) by lia; exact Hrc]. do 2 f_equal.
        rewrite (proj2 (Nat.leb_gt (S i) i)) by lia. rewrite andb_false_r. lia.
      * rewrite list_lookup_insert_ne by done. destruct (I2 k Hk) as (rk & Hk1 & Hk2). exists rk. rewrite Hk1. split; [|done].
        do 4 f_equal. destruct (Nat.leb_spec i k), (Nat.leb_spec (S i) k); try lia; done.
    + intros k Hk Hsk. rewrite ED. by apply I3.
    + done.
    + intros k Hk Hsk. rewrite EP. by apply I5.
    + intros k q c Hk Hsk. rewrite EP. by apply I6.
  - rewrite Hb, Hbf. cbn [Nat.eqb]. rewrite Hmi. destruct (Hvp i j Hv) as [Hij Hj]. destruct (I2 j Hj) as (rj & Hd & Hrj). rewrite Hd.
    cbn [ms_share ms_size ms_pts ms_gray ms_rect]. rewrite list_lookup_insert_ne by lia. rewrite Hc. cbn [ms_share ms_size ms_pts ms_gray ms_rect].
    rewrite <-(Hsz i Hi). destruct (Nat.ltb_spec (mst i + (if sh i then sz i else 0)) (if sh i then sz i else 0)); [lia|].
    replace (mst i + (if sh i then sz i else 0) - (if sh i then sz i else 0)) with (mst i) by lia.
    rewrite (list_lookup_insert_ne _ i j) by lia. rewrite list_lookup_insert by (by rewrite I1). cbn [ms_share ms_size ms_pts ms_gray ms_rect].
    rewrite (proj2 (Nat.leb_le i j)) by lia. rewrite andb_true_r.
    assert (D (S i) j = D i j ++ P i) as EDj by (by rewrite D_S, decide_True).
    assert (procs (S i) j = procs i j ++ [i]) as EPj by (by rewrite procs_S, decide_True).
    assert (forall k, k <> j -> D (S i) k = D i k) as ED by (intros k Hk; rewrite D_S, decide_False by congruence; by rewrite app_nil_r).
    assert (forall k, k <> j -> procs (S i) k = procs i k) as EP by (intros k Hk; rewrite procs_S, decide_False by congruence; by rewrite app_nil_r).
    assert (rect_of True (D (S i) j) (append_rect rj rc)) as Hnew by (rewrite EDj; by apply append_of).
    pose proof (D_len (S i) j) as HDl. rewrite EDj, app_length in HDl. pose proof (procs_len (S i) j) as HPl. rewrite EPj, app_length in HPl. cbn [length] in HPl.
    pose proof (st_tot j Hj) as Htt. pose proof (st_tot i Hi) as Hti. pose proof (st_lt i j Hij) as Hlij.
    set (ms2 := <[i:=MRec (grv i) (sh i) (sz i) (mst i) rc]> (<[j:=_]> ms)).
    assert (length ms2 = n) as Hl2 by (unfold ms2; by rewrite !insert_length).
    assert (forall k, k < n -> k <> j -> exists rc, ms2 !! k = Some (MRec (grv k) (sh k) (sz k) (mst k + if sh k && (S i <=? k) then length (D (S i) k) else 0) rc) /\
      rect_of True (D (S i) k) rc) as Hoth.
    { intros k Hk Hkj. rewrite ED by done. unfold ms2. destruct (decide (k = i)) as [->|Hki].
      - rewrite list_lookup_insert by (by rewrite insert_length, I1). eexists. split; [|rewrite (D_all i i) by lia; exact Hrc]. do 2 f_equal.
        rewrite (proj2 (Nat.leb_gt (S i) i)) by lia. rewrite andb_false_r. lia.
      - rewrite !list_lookup_insert_ne by done. destruct (I2 k Hk) as (rk & Hk1 & Hk2). exists rk. rewrite Hk1. split; [|done].
        do 4 f_equal. destruct (Nat.leb_spec i k), (Nat.leb_spec (S i) k); try lia; done. }
    destruct (sh j) eqn:Esj.
    + pose proof (Hsh i j Hv Esj) as Esi. rewrite Esi. cbn [andb].
      assert (mblk j = length (P j)) as Ebj by (unfold mblk; by rewrite Esj). assert (mblk i = length (P i)) as Ebi by (unfold mblk; by rewrite Esi).
      unfold memcpy_pts. rewrite (Hsz i Hi).
      rewrite (proj2 (Nat.leb_le (mst i + length (P i)) (mst j + length (D i j)))) by lia. cbn [orb].
      destruct (copy_only tot m (mst i) (mst j + length (D i j)) (P i)) as (m' & -> & R1 & O1); [lia|lia|lia| |].
      { pose proof (I3 i Hi Esi) as H3. by rewrite (D_all i i) in H3 by lia. }
      eexists. split; [done|].
      assert (only m m' (mst j) (mst j + mblk j)) as Ob. { intros w Hw. apply O1. lia. }
      destruct (fin_frame i m m' ms j HI Hj Ob) as [Fs Fr].
      constructor; cbn [fst snd].
      * by rewrite insert_length.
      * intros k Hk. destruct (decide (k = j)) as [->|Hkj].
        -- rewrite list_lookup_insert by (by rewrite Hl2). eexists. split; [|exact Hnew]. rewrite Esj, (proj2 (Nat.leb_le (S i) j)) by lia. cbn [andb].
           do 2 f_equal. rewrite EDj, app_length. lia.
        -- rewrite list_lookup_insert_ne by done. by apply Hoth.
      * intros k Hk Hsk. destruct (decide (k = j)) as [->|Hkj]; [|rewrite ED by done; by apply Fs].
        rewrite EDj. apply range_app. split; [|done]. eapply range_only; [exact O1| |by apply I3]. lia.
      * intros k Hk Hsk. apply Fr; auto. congruence.
      * intros k Hk Hsk. assert (k <> j) by congruence. rewrite EP by done. by apply Fr.
      * intros k q c Hk Hsk. assert (k <> j) by congruence. rewrite EP by done. by apply Fr.
    + rewrite andb_false_r. pose proof (own_blk j Hj Esj) as Eb. pose proof (kids_room j) as Hroom. set (q0 := (1 + length (chl j)) / 2) in *.
      assert (mst j + (if false then length (D i j) else 0) = mst j) as -> by lia.
      destruct (I5 j Hj Esj 0 _ eq_refl) as [G1 G2]. rewrite Nat.add_0_r in G1, G2. cbn [fst snd] in G1, G2.
      unfold ms_child, m_get, m_put. rewrite !(proj2 (Nat.ltb_lt _ _)) by lia. rewrite G1, G2, !off_nat.
      rewrite (proj2 (Nat.ltb_lt (2 * (mst j + 1 + length (own1 j)) + length (procs i j)) (2 * tot))) by lia.
      set (m1 := <[2 * mst j + 1 := Some (Z.of_nat (length (procs i j)) + 1)%Z]> m).
      set (m' := <[2 * (mst j + 1 + length (own1 j)) + length (procs i j) := Some (Z.of_nat i - Z.of_nat j)%Z]> m1).
      assert (forall w, w <> 2 * mst j + 1 -> w <> kw j + length (procs i j) -> m' w = m w) as Hm'.
      { intros w W1 W2. unfold m'. etrans; [apply fn_lookup_insert_ne; unfold kw in W2; lia|]. apply fn_lookup_insert_ne. lia. }
      assert (m' (kw j + length (procs i j)) = Some (Z.of_nat i - Z.of_nat j)%Z) as Hk' by apply fn_lookup_insert.
      assert (m' (2 * mst j + 1) = Some (Z.of_nat (length (procs i j)) + 1)%Z) as Hh'.
      { unfold m'. etrans; [apply fn_lookup_insert_ne; lia|]. apply fn_lookup_insert. }
      clearbody m'. eexists. split; [done|].
      assert (only m m' (mst j) (mst j + mblk j)) as Ob. { intros w Hw. apply Hm'; unfold kw; lia. }
      destruct (fin_frame i m m' ms j HI Hj Ob) as [Fs Fr].
      constructor; cbn [fst snd]; auto.
      * intros k Hk. destruct (decide (k = j)) as [->|Hkj]; [|by apply Hoth].
        unfold ms2. rewrite list_lookup_insert_ne by lia. rewrite list_lookup_insert by (by rewrite I1). eexists. split; [|exact Hnew]. by rewrite Esj.
      * intros k Hk Hsk. assert (k <> j) by congruence. rewrite ED by done. by apply Fs.
      * intros k Hk Hsk. destruct (decide (k = j)) as [->|Hkj]; [|by apply Fr].
        intros q v Hq. pose proof (lookup_lt_Some _ _ _ Hq). rewrite !Hm' by (unfold kw; lia). by apply (I4 j Hj Esj).
      * intros k Hk Hsk. destruct (decide (k = j)) as [->|Hkj]; [|rewrite EP by done; by apply Fr].
        intros [|q] v Hq; [|done]. injection Hq as <-. rewrite Nat.add_0_r, Hh', Hm' by (unfold kw; lia). cbn [fst snd]. rewrite G1, EPj, app_length. cbn [length].
        split; [done|]. f_equal. lia.
      * intros k q c Hk Hsk Hq. destruct (decide (k = j)) as [->|Hkj]; [|rewrite EP in Hq by done; by apply Fr].
        rewrite EPj in Hq. apply lookup_app_Some in Hq as [Hq|[Hge Hq]].
        -- pose proof (lookup_lt_Some _ _ _ Hq). rewrite Hm' by (unfold kw; lia). by apply I6.
        -- destruct (q - length (procs i j)) as [|?] eqn:Eq; [|done]. injection Hq as <-. replace q with (length (procs i j)) by lia. done.
Qed.

(* ---------- reading ---------- *)
Notation vpl := (vpl vp sh). Notation shown := (shown vp own4 sh).
Lemma ms_visit_ok t fu stk : finI n t -> (forall j, j ∈ stk -> j < n) -> length (stk ≫= nodes vpl) <= fu ->
  exists js, ms_visit fu (MRes tot (fst t) (snd t)) stk = Some (js ≫= shown, js) /\ js ≡ₚ stk ≫= nodes vpl.
Proof.
  intros HI. revert stk. induction fu as [|fu IH]; intros [|j stk] Hst Hf.
  - by exists [].
  - cbn in Hf. rewrite app_length in Hf. unfold ExtractAbs.nodes, pts in Hf. cbn in Hf. lia.
  - by exists [].
  - assert (j < n) as Hj by (apply Hst; left). destruct HI as [I1 I2 I3 I4 I5 I6]. destruct (I2 j Hj) as (rc & Hms & _).
    rewrite (proj2 (Nat.leb_gt n j)) in Hms by lia. rewrite andb_false_r, Nat.add_0_r in Hms.
    cbn [ms_visit r_ms r_mem r_size]. rewrite Hms. cbn [ms_share ms_pts ms_size].
    assert (procs n j = chl j) as Epr by (apply (procs_later n vp Hvp); lia). pose proof (st_tot j Hj) as Htt.
    pose proof (chl_vpl n vp Hvp own4 sh j) as Ecv.
    match goal with |- context [match ?X with Some _ => _ | None => None end] => assert (X = Some (shown j, reverse (ExtractAbs.chl vpl j) ++ stk)) as -> end.
    { unfold ExtractDecode.shown. rewrite Ecv. destruct (sh j) eqn:Es.
      - assert (mblk j = length (P j)) as Eb by (unfold mblk; by rewrite Es). rewrite (Hsz j Hj), read_range_ok; [done|lia|].
        pose proof (I3 j Hj Es) as H3. by rewrite (D_all n j) in H3 by lia.
      - pose proof (own_blk j Hj Es) as Eb. pose proof (kids_room j) as Hroom. set (q0 := (1 + length (chl j)) / 2) in *.
        destruct (I5 j Hj Es 0 _ eq_refl) as [G1 G2]. rewrite Nat.add_0_r in G1, G2. cbn [fst snd] in G1, G2. rewrite Epr in G2.
        unfold m_get at 1 2. rewrite !(proj2 (Nat.ltb_lt _ _)) by lia. rewrite G1, G2, !off_nat.
        rewrite read_range_ok; [|lia|by apply I4]. rewrite push_ok.
        { unfold rest, own4. cbn [Nat.eqb app]. by rewrite app_nil_r. }
        intros u d Hu. pose proof (lookup_lt_Some _ _ _ Hu). unfold m_get. rewrite (proj2 (Nat.ltb_lt _ _)) by lia.
        apply (I6 j u d Hj Es). by rewrite Epr. }
    assert (reverse (ExtractAbs.chl vpl j) ≡ₚ ExtractAbs.chl vpl j) as Hp2 by (by rewrite reverse_Permutation).
    assert ((j :: stk) ≫= nodes vpl ≡ₚ j :: ((reverse (ExtractAbs.chl vpl j) ++ stk) ≫= nodes vpl)) as Hperm.
    { rewrite bind_app. cbn [mbind list_bind]. rewrite (nodes_eq n vpl (Hvpl n vp Hvp own4 sh) j). cbn [app]. constructor.
      change (list_bind _ _ (nodes vpl)) with (@mbind list list_bind nat nat (nodes vpl)). by rewrite (bind_perm (nodes vpl) _ _ Hp2). }
    destruct (IH (reverse (ExtractAbs.chl vpl j) ++ stk)) as (js & E & Hjs).
    + intros i Hi. apply elem_of_app in Hi as [Hi|Hi]; [|apply Hst; by right].
      rewrite Hp2 in Hi. apply (elem_chl n vpl (Hvpl n vp Hvp own4 sh)), (Hvpl n vp Hvp own4 sh) in Hi. lia.
    + rewrite Hperm in Hf. cbn in Hf. lia.
    + rewrite E. exists (j :: js). split; [done|]. rewrite Hperm. by constructor.
Qed.
Lemma ms_visit_one t j : finI n t -> j < n ->
  exists ps js, ms_visit n (MRes tot (fst t) (snd t)) [j] = Some (ps, js) /\ ps ≡ₚ P j /\ js ≡ₚ nodes vpl j.
Proof.
  intros HI Hj. destruct (ms_visit_ok t n [j] HI) as (js & E & H).
  - intros i ->%elem_of_list_singleton. done.
  - cbn. rewrite app_nil_r. by apply (nodes_len n vpl (Hvpl n vp Hvp own4 sh)).
  - exists (js ≫= shown), js. cbn in H. rewrite app_nil_r in H. split; [done|]. split; [|done].
    rewrite (bind_perm shown _ _ H). apply (shown_pts n vp Hvp own4 sh).
Qed.
End mem.
