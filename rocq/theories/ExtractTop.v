(* Extraction of the regions of an image processed in four partitions. *)
From stdpp Require Import sorting relations functions list_numbers list.
From Coq Require Import NArith ZArith SpecFloat.
From Verif Require Import Spec TreeSpec TreeFacts JoinMath JoinCorrect Grid FloodModel FloodInit ConnectModel ConnectProof PartModel PartProof
  MergeProof WholeModel WholeProof WholeCorrect FloatModel RecogModel RecogSpec RecogStatic RecogWorkers RecogDup RecogTree RecogCompose RecogFinal
  RecogResults DetectModel Detect RectModel RectFacts ExtractModel ExtractAbs ExtractLink ExtractMem ExtractFinish ExtractDecode ExtractCorrect ExtractTree.
Local Open Scope nat_scope.

(* SPEC: the pixel with offset p *)
Definition pixel (cols p : nat) : pt := (Z.of_nat (p mod cols), Z.of_nat (p / cols)).
(* SPEC: L holds the pixels of the set S, each once *)
Definition lists_set (cols : nat) (S : nat -> Prop) (L : list pt) : Prop :=
  NoDup L /\ forall q, q ∈ L <-> exists p, S p /\ q = pixel cols p.

Section top.
Context (img : list N) (gm : N) (cols rows : nat) (HF : image_fits 2 2 img cols rows) (Hsm : small_image cols rows).
Context (Hc15 : (Z.of_nat cols <= 2 ^ 15)%Z) (Hr15 : (Z.of_nat rows <= 2 ^ 15)%Z).
Context (F : forest) (os : list fbuf) (lab : nat -> rref) (HW : whole_ok 2 2 img gm cols rows F os lab) (Hos : length os = 4).
Context (P : rparam) (m : mode) (s : rst) (Hfl : flagged F P (final F P m) s).
Context (fuel : nat) (Hfu : rows * cols + 1 < fuel).
Notation R := (rects 2 2 cols rows). Notation V := (image_view img gm cols rows).
Notation F1 := (s_F s). Notation l := (reported F P m). Notation T := (tab F).
Notation vp := (vp F1 l fuel). Notation rec_of := (rec_of lab F P m s fuel).
Let HI : recog_input V lab F := whole_input 4 2 2 img cols rows gm eq_refl HF Hsm F os lab HW.
Lemma Hnr : nregs F + 1 < fuel.
Proof. pose proof (wk_total _ _ _ _ _ _ _ _ _ HW). lia. Qed.
Let Hvp := Hvp F1 l fuel (l_NoDup F P m) (vp_lt V lab F HI P m s Hfl fuel Hnr).
Lemma Hcp : 0 < cols.
Proof. pose proof (if_cols _ _ _ _ _ HF). lia. Qed.

Notation rk := (rk R).
Lemma R_len : length R = 4.
Proof. by rewrite rects_length. Qed.
Lemma R_at k : k < 4 -> R !! k = Some (rk k).
Proof.
  intros Hk. unfold ExtractCorrect.rk. rewrite nth_lookup. destruct (lookup_lt_is_Some_2 R k) as [r ->]; [by rewrite R_len|done].
Qed.
Definition pxo (k : nat) (c : nat * nat) : nat := (r_top (rk k) + fst c) * cols + (r_left (rk k) + snd c).
Definition lbl (k : nat) (c : nat * nat) : nat := snd (lab (pxo k c)).
Notation ownp := (ownp F1 l fuel R lbl). Notation owk := (owk F1 l fuel lbl).

Lemma rk_in k : k < 4 -> r_top (rk k) + r_h (rk k) <= rows /\ r_left (rk k) + r_w (rk k) <= cols.
Proof. intros Hk. apply (rects_inside 2 2 cols rows ltac:(lia) ltac:(lia) k (rk k)). by apply R_at. Qed.
Lemma pxo_coord k c : k < 4 -> c ∈ cells (rk k) ->
  pxo k c / cols = r_top (rk k) + fst c /\ pxo k c mod cols = r_left (rk k) + snd c.
Proof.
  destruct c as [y x]. intros Hk [Hy Hx]%elem_cells. cbn [fst snd]. pose proof (rk_in k Hk). apply coord. lia.
Qed.
Lemma pxo_px k c : k < 4 -> c ∈ cells (rk k) -> cpt (rk k) c = pixel cols (pxo k c).
Proof. intros Hk Hc. unfold cpt, pixel. destruct (pxo_coord k c Hk Hc) as [-> ->]. f_equal; lia. Qed.
Lemma px_inj p q : pixel cols p = pixel cols q -> p = q.
Proof.
  unfold pixel. intros E. pose proof (f_equal fst E) as E1. pose proof (f_equal snd E) as E2. cbn [fst snd] in E1, E2.
  rewrite (Nat.div_mod_eq p cols), (Nat.div_mod_eq q cols). apply Nat2Z.inj in E1, E2. by rewrite E1, E2.
Qed.
Lemma pxo_part k c : k < 4 -> c ∈ cells (rk k) -> in_part R cols k (pxo k c) /\ pxo k c < rows * cols.
Proof.
  intros Hk Hc. destruct (pxo_coord k c Hk Hc) as [E1 E2]. destruct c as [y x]. apply elem_cells in Hc as [Hy Hx]. cbn [fst snd] in *.
  assert (in_part R cols k (pxo k (y, x))) as Hp.
  { exists (rk k). split; [by apply R_at|]. unfold in_rect. rewrite E1, E2. lia. }
  split; auto. eapply (part_inside 2 2); eauto; lia.
Qed.
Lemma pxo_find p : p < rows * cols -> exists k c, k < 4 /\ c ∈ cells (rk k) /\ pxo k c = p.
Proof.
  intros Hp. destruct (part_find 2 2 cols rows ltac:(lia) ltac:(lia) p Hp) as (k & Hk & r & Hr & Hin). exists k.
  assert (r = rk k) as -> by (rewrite (R_at k Hk) in Hr; congruence). unfold in_rect in Hin.
  exists (p / cols - r_top (rk k), p mod cols - r_left (rk k)). split; auto. split; [apply elem_cells; lia|].
  unfold pxo. cbn [fst snd]. rewrite (Nat.div_mod_eq p cols) at 3. rewrite (Nat.mul_comm cols). f_equal; [f_equal|]; lia.
Qed.
Lemma pxo_inj k c d : k < 4 -> c ∈ cells (rk k) -> d ∈ cells (rk k) -> pxo k c = pxo k d -> c = d.
Proof.
  intros Hk Hc Hdd E. destruct (pxo_coord k c Hk Hc) as [E1 E2]. destruct (pxo_coord k d Hk Hdd) as [E3 E4].
  rewrite E in E1, E2. destruct c, d. cbn [fst snd] in *. f_equal; lia.
Qed.
Lemma vw_lt p : vw_in V p <-> p < rows * cols.
Proof. pose proof HF as [H1 H2 _ _ _ _]. apply (whole_in 2 2 cols rows); auto; lia. Qed.

Lemma word_lab k c : k < 4 -> c ∈ cells (rk k) -> (k, lbl k c) = lab (pxo k c) /\
  forall b, os !! k = Some b -> b_pts b !! word_at (rk k) c = Some (bnd4 + N.of_nat (lbl k c))%N.
Proof.
  intros Hk Hc. destruct c as [y x]. apply elem_cells in Hc as [Hy Hx].
  destruct (wk_word _ _ _ _ _ _ _ _ _ HW k (rk k) y x (R_at k Hk) Hy Hx) as (b & i & Hb & Hl & Hw).
  unfold lbl, pxo, word_at. cbn [fst snd]. rewrite Hl. cbn [snd]. split; auto. intros b' Hb'. assert (b' = b) as -> by congruence.
  by rewrite bnd4_eq.
Qed.
Lemma owk_rec k c : k < 4 -> c ∈ cells (rk k) -> owk k c = rec_of (pxo k c).
Proof. intros Hk Hc. unfold ExtractCorrect.owk, ExtractTree.rec_of. by destruct (word_lab k c Hk Hc) as [-> _]. Qed.

Lemma elem_ownp k j q : k < 4 -> q ∈ ownp k j <-> exists c, c ∈ cells (rk k) /\ rec_of (pxo k c) = Some j /\ q = pixel cols (pxo k c).
Proof.
  intros Hk. unfold ExtractCorrect.ownp, hit. change (map ?f ?x) with (f <$> x). rewrite elem_of_list_fmap. split.
  - intros (c & -> & Hc). apply elem_of_list_filter in Hc as [Ho Hc]. exists c. split; auto. rewrite <-owk_rec by auto. split; auto. by apply pxo_px.
  - intros (c & Hc & Ho & ->). exists c. split; [by rewrite pxo_px|]. apply elem_of_list_filter. split; auto. by rewrite owk_rec.
Qed.
Lemma ownp_once i i' k k' q : k < 4 -> k' < 4 -> q ∈ ownp k i -> q ∈ ownp k' i' -> i = i' /\ k = k'.
Proof.
  intros Hk Hk' (c & Hc & Ho & ->)%(elem_ownp k i q Hk) (c' & Hc' & Ho' & E)%(elem_ownp k' i' _ Hk').
  apply px_inj in E. rewrite E in Ho. split; [congruence|]. destruct (pxo_part k c Hk Hc) as [H1 _]. destruct (pxo_part k' c' Hk' Hc') as [H2 _].
  rewrite E in H1. eapply (part_unique 2 2 cols rows); eauto; lia.
Qed.
Lemma NoDup_map_in {X Y} (f : X -> Y) (q : list X) : NoDup q -> (forall x y, x ∈ q -> y ∈ q -> f x = f y -> x = y) -> NoDup (map f q).
Proof.
  induction 1 as [|x q Hx Hq IH]; intros Hf; cbn; constructor.
  - change (map f q) with (f <$> q). rewrite elem_of_list_fmap. intros (y & E & Hy). apply Hx. rewrite (Hf x y); auto; [by left|by right].
  - apply IH. intros a b Ha Hb. apply Hf; by right.
Qed.
Lemma ownp_NoDup i k : k < 4 -> NoDup (ownp k i).
Proof.
  intros Hk. unfold ExtractCorrect.ownp, hit. apply NoDup_map_in; [apply NoDup_filter, cells_NoDup|].
  intros c d [_ Hc]%elem_of_list_filter [_ Hdd]%elem_of_list_filter E. rewrite !pxo_px in E by auto. apply px_inj in E. by eapply pxo_inj.
Qed.

(* the points of record j are the pixels of its region *)
Lemma pts_set j z : l !! j = Some z -> lists_set cols (region_pixels V lab T z) (pts vp ownp j).
Proof.
  intros Hz. split; [apply (pts_NoDup _ vp Hvp); [exact ownp_once|exact ownp_NoDup]|].
  intros q. rewrite (elem_pts _ vp Hvp). split.
  - intros (i & k & Hr & Hk & Hq). apply (elem_ownp k i q Hk) in Hq as (c & Hc & Ho & ->). exists (pxo k c). split; auto.
    destruct (pxo_part k c Hk Hc) as [_ Hlt]. apply (rec_pix V lab F HI P m s Hfl fuel Hnr _ j z); [by apply vw_lt|done|]. eauto.
  - intros (p & Hp & ->). assert (vw_in V p) as Hin by apply Hp. destruct (proj1 (rec_pix V lab F HI P m s Hfl fuel Hnr p j z Hin Hz) Hp) as (i & Hi & Hr).
    destruct (pxo_find p) as (k & c & Hk & Hc & <-); [by apply vw_lt|]. exists i, k. split; auto. split; auto. apply elem_ownp; eauto.
Qed.
Lemma set_len S n L : card_is S n -> lists_set cols S L -> length L = n.
Proof.
  intros (q & Hq & Hel & <-) [Hn HL]. rewrite <-(map_length (pixel cols) q). apply Permutation_length, NoDup_Permutation; auto.
  - apply NoDup_map_in; auto. intros x y _ _. apply px_inj.
  - intros x. rewrite HL. change (map ?f ?w) with (f <$> w). rewrite elem_of_list_fmap. split.
    + intros (p & Hp & ->). exists p. split; auto. by apply Hel.
    + intros (p & -> & Hp). exists p. split; auto. by apply Hel.
Qed.

(* SPEC: the sums computed during extraction stay below 2^31 *)
Definition result_fits : Prop :=
  (Z.of_nat ((length l * 3 + 1) * 4) < 2 ^ 31)%Z /\ (Z.of_nat (sum_list (map (fun z => size0 F z + 6)%nat l)) < 2 ^ 31)%Z.
Context (Hres : result_fits).

Lemma chl_sum n (v : nat -> option nat) : (forall i j, v i = Some j -> i < j /\ j < n) -> sumto (fun j => length (chl v j)) n <= n.
Proof.
  intros Hv. assert (forall k, length (seq 0 k ≫= chl v) = sumto (fun j => length (chl v j)) k) as <-.
  { induction k as [|k IH]; [done|]. rewrite seq_S, bind_app, app_length. cbn [Nat.add mbind list_bind sumto]. rewrite IH. by rewrite app_nil_r. }
  rewrite <-(seq_length n 0) at 2. apply submseteq_length, NoDup_submseteq.
  - apply NoDup_bind; [|intros; apply procs_NoDup|apply NoDup_seq].
    intros x1 x2 y _ _ H1 H2. apply (elem_chl n v Hv) in H1, H2. congruence.
  - intros c (j & Hc & Hj)%elem_of_list_bind. apply (elem_chl n v Hv) in Hc. pose proof (Hv _ _ Hc). apply elem_of_seq. lia.
Qed.
Lemma sum_sumto (f : rref -> nat) q : sumto (fun j => match q !! j with Some z => f z | None => 0 end) (length q) = sum_list (map f q).
Proof.
  induction q as [|x q IH] using rev_ind; [done|]. rewrite app_length, map_app, sum_app. cbn [length map sum_list].
  rewrite Nat.add_1_r. cbn [sumto]. rewrite lookup_app_r, Nat.sub_diag by lia. cbn. rewrite Nat.add_0_r. f_equal. rewrite <-IH.
  apply sumto_ext. intros j Hj. by rewrite lookup_app_l.
Qed.
Lemma half3 a : (2 + a) / 2 <= 1 + a.
Proof. pose proof (Nat.div_mod_eq (2 + a) 2). lia. Qed.
Lemma cost_fits thr : (Z.of_nat (sumto (cost F1 l fuel thr) (length l)) < 2 ^ 31)%Z.
Proof.
  destruct Hres as [_ H]. eapply Z.le_lt_trans; [|exact H]. apply Nat2Z.inj_le. clear H.
  etrans; [apply (sumto_mon _ (fun j => (match l !! j with Some z => size0 F z + 5 | None => 0 end) + length (chl vp j)))|].
  - intros j Hj. destruct (lookup_lt_is_Some_2 l j Hj) as [z Hz]. rewrite Hz.
    destruct (rec_sz V lab F HI P m s Hfl j z Hz) as (E & _). unfold cost. rewrite E. pose proof (half3 (length (chl vp j))).
    set (q := (2 + length (chl vp j)) / 2) in *. set (w := ksum F1 l (chl vp j)). destruct (shr F1 l fuel thr j); lia.
  - rewrite sumto_add, (sum_sumto (fun z => size0 F z + 5)). pose proof (chl_sum (length l) vp Hvp).
    assert (sum_list (map (fun z => size0 F z + 6) l) = sum_list (map (fun z => size0 F z + 5) l) + length l) as ->; [|lia].
    generalize l. intros q. induction q as [|x q IH]; [done|]. cbn in *. unfold id in *. lia.
Qed.

(* SPEC: a schedule of the four workers that lets each of them finish *)
Definition fill_fair (sched : list nat) : Prop :=
  (forall k, k ∈ sched -> k < 4) /\ forall k r, R !! k = Some r -> r_w r * r_h r <= turns k sched.

Lemma extract_top thr heap0 sched : fill_fair sched ->
  exists mem ms ps, extract_4 fuel gm thr R os F1 heap0 l sched = Some (MRes (total (length l) vp ownp (shr F1 l fuel thr)) mem ms, ps) /\
    after7 (length l) vp ownp (shr F1 l fuel thr) (gr F1 l) (sz F1 l) (length l) (mem, ms) /\ length ps = 4 /\
    forall k p b r, ps !! k = Some p -> os !! k = Some b -> R !! k = Some r -> length p = length (b_pts b) /\
      (forall i, (forall y x, y < r_h r -> x < r_w r -> i <> (y + 1) * (r_w r + 2) + (x + 1)) -> p !! i = b_pts b !! i).
Proof.
  intros [Hs1 Hs2].
  destruct (extract_ok F1 l (dd F) fuel) with (thr := thr) (rs := R) (os := os) (lbl := lbl) (gm := gm) (heap0 := heap0) (sched := sched)
    as (mem & ms & ps & E & A & L & Hps).
  - apply (f1_id V lab F HI P m s Hfl). intros [k i] a Ha. by destruct (wk_reg _ _ _ _ _ _ _ _ _ HW k i a Ha) as (? & _).
  - exact (f1_dd V lab F HI P m s Hfl fuel Hnr).
  - exact (f1_fuel V lab F HI P m s Hfl fuel Hnr).
  - apply l_NoDup.
  - apply (l_flags V lab F HI P m s Hfl).
  - apply (vp_lt V lab F HI P m s Hfl fuel Hnr).
  - by rewrite R_len.
  - by rewrite Hos.
  - intros k b c Hk Hb Hc. destruct (word_lab k c Hk Hc) as [Hl Hw]. split; [by apply Hw|].
    assert (is_Some (fget F1 (k, lbl k c))) as Hst.
    { rewrite Hl. apply (lab_stored V lab F HI P m s Hfl). apply vw_lt. by apply pxo_part. }
    split; auto. apply (f1_stored F P m s Hfl) in Hst as [a Ha]. unfold fget in Ha. cbn [fst snd] in Ha.
    destruct (F !! k) as [rg|] eqn:Er; [|done]. apply lookup_lt_Some in Ha. pose proof (wk_count _ _ _ _ _ _ _ _ _ HW k (rk k) rg (R_at k Hk) Er).
    destruct (if_part _ _ _ _ _ HF k (rk k) (R_at k Hk)) as [? _]. lia.
  - intros j Hj. destruct (lookup_lt_is_Some_2 l j Hj) as [z Hz]. destruct (rec_sz V lab F HI P m s Hfl j z Hz) as (-> & _ & Hlv).
    symmetry. eapply set_len; [by apply (pix_card V lab F HI)|by apply pts_set].
  - intros j Hj. destruct (lookup_lt_is_Some_2 l j Hj) as [z Hz]. destruct (rec_own V lab F HI P m s Hfl fuel Hnr j z Hz) as (p & Hin & Hp).
    destruct (pxo_find p) as (k & c & Hk & Hc & <-); [by apply vw_lt|]. exists k. split; auto. intros E.
    assert (pixel cols (pxo k c) ∈ ownp k j) as Hel by (apply elem_ownp; eauto). rewrite E in Hel. by apply elem_of_nil in Hel.
  - intros k c Hk Hc. rewrite (pxo_px k c Hk Hc). unfold pixel. cbn [fst snd]. destruct (pxo_part k c Hk Hc) as [_ Hlt].
    pose proof Hcp as H0. assert (pxo k c mod cols < cols) as H1 by (apply Nat.mod_upper_bound; lia).
    assert (pxo k c / cols < rows) as H2 by (apply Nat.div_lt_upper_bound; [lia|by rewrite Nat.mul_comm]).
    revert H1 H2 Hc15 Hr15. clear. generalize (pxo k c mod cols), (pxo k c / cols). intros. lia.
  - apply Hres.
  - apply cost_fits.
  - done.
  - intros k Hk. apply Hs2. by apply R_at.
  - exists mem, ms, ps. split; auto. split; auto. split; auto. intros k p b r Hp Hb Hr.
    assert (k < 4) as Hk by (rewrite <-L; by eapply lookup_lt_Some). assert (r = rk k) as -> by (rewrite (R_at k Hk) in Hr; congruence).
    destruct (Hps k p b Hp Hb) as (H1 & _ & H2). split; auto. intros i Hi. apply H2. intros [y x] [Hy Hx]%elem_cells. by apply Hi.
Qed.
End top.
