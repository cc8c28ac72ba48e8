(* The result of a call of extract with four partitions. *)
From stdpp Require Import sorting relations functions list_numbers list.
From Coq Require Import NArith ZArith SpecFloat.
From Verif Require Import Spec TreeSpec TreeFacts JoinMath JoinCorrect Grid FloodModel FloodInit ConnectModel ConnectProof PartModel PartProof
  MergeProof WholeModel WholeProof WholeCorrect FloatModel RecogModel RecogSpec RecogStatic RecogWorkers RecogDup RecogTree RecogCompose RecogFinal
  RecogResults DetectModel Detect RectModel RectFacts ExtractModel ExtractAbs ExtractLink ExtractMem ExtractFinish ExtractDecode ExtractCorrect
  ExtractTree ExtractTop RunModel.
Local Open Scope nat_scope.

(* SPEC: the records of a result hold the regions of the list: number, size, level, and
   the pixels that reading a record visits *)
Definition exact_records {I} (V : view) (lab : nat -> I) (T : I -> option (vreg I)) (cols : nat) (l : list I) (R : mres) : Prop :=
  length (r_ms R) = length l /\
  forall j z, l !! j = Some z -> exists c a L js, r_ms R !! j = Some c /\ T z = Some a /\ v_live a = true /\
    ms_size c = v_size a /\ ms_gray c = N.of_nat (v_gray a) /\
    visit (length (r_ms R)) R [j] = Some (L, js) /\ lists_set cols (region_pixels V lab T z) L.
(* SPEC: every word of the memory is written, except that the list of the children of a
   record may end with an unused word *)
Definition filled (R : mres) : Prop :=
  forall i, i < 2 * r_size R -> is_Some (r_mem R i) \/
    exists j c k, r_ms R !! j = Some c /\ ms_share c = false /\ r_mem R (2 * (ms_pts c + 4)) = Some (Z.of_nat k) /\
      Nat.Even k /\ i = 2 * (ms_pts c + 4) + k + 1.

(* SPEC: the least column and row of a record's rectangle are those of the visited
   pixels; its last column and row are columns and rows of visited pixels, and the
   greatest ones if the pixels lie in one partition *)
Definition record_rects (rs : list prect) (R : mres) : Prop :=
  forall j c L js, r_ms R !! j = Some c -> visit (length (r_ms R)) R [j] = Some (L, js) ->
    rect_of (exists r, r ∈ rs /\ forall q, q ∈ L -> (Z.of_nat (r_left r) <= fst q < Z.of_nat (r_left r + r_w r))%Z /\
                                              (Z.of_nat (r_top r) <= snd q < Z.of_nat (r_top r + r_h r))%Z) L (ms_rect c).

Section fill.
Context (n : nat) (vp : nat -> option nat) (Hvp : forall i j, vp i = Some j -> i < j /\ j < n) (own : nat -> nat -> list pt) (sh : nat -> bool).
Lemma finished_filled gr sz t : after7 n vp own sh gr sz n t -> filled (MRes (total n vp own sh) (fst t) (snd t)).
Proof.
  intros H7 i Hi. cbn [r_size r_mem r_ms] in *.
  destruct (seg_cover n vp own sh (i / 2)) as (j & s & q & Hj & Hs & Hq & E); [apply Nat.div_lt_upper_bound; lia|].
  pose proof (Nat.div_mod i 2 ltac:(done)) as Ei. pose proof (Nat.mod_upper_bound i 2 ltac:(done)) as Em.
  assert (procs vp n j = chl vp j) as Epr by (apply (procs_later n vp Hvp); lia).
  assert (forall e, e < 2 -> i mod 2 = e -> fst t i = ExtractMem.W n vp own sh (fst t) j s q e) as HWi.
  { intros e He Hm. unfold ExtractMem.W, ExtractMem.adr. f_equal. lia. }
  destruct s as [| |k].
  - left. rewrite (HWi (i mod 2) Em eq_refl). destruct (a7_hd _ _ _ _ _ _ _ _ H7 j Hj q) as [W0 W1]; [exact Hq|].
    destruct (i mod 2) as [|[|e]]; [rewrite W0; eauto|rewrite W1; eauto|lia].
  - cbn [len] in Hq. destruct (sh j) eqn:Es; [lia|]. destruct (a7_ch _ _ _ _ _ _ _ _ H7 j Hj Es) as [C0 C1]. rewrite Epr in C0, C1.
    set (w := 2 * q + i mod 2). assert (i = 2 * (hp vp own sh j + 4) + w) as Ew. { unfold w. cbn [pos] in E. lia. }
    assert (CW n vp own sh (fst t) j w = fst t i) as Ecw.
    { unfold CW, ExtractMem.W. rewrite (adr_ch n vp own sh j w). by rewrite <-Ew. }
    destruct (decide (w <= length (chl vp j))) as [Hle|Hgt].
    + left. rewrite <-Ecw. destruct w as [|w]; [rewrite C0; eauto|]. destruct (lookup_lt_is_Some_2 (chl vp j) w) as [c Hc]; [lia|].
      pose proof (C1 w c Hc) as H1. rewrite Nat.add_1_r in H1. rewrite H1. eauto.
    + right. destruct (a7_ms _ _ _ _ _ _ _ _ H7 j Hj) as (rc & Hms & _). exists j. eexists. exists (length (chl vp j)).
      split; [exact Hms|]. cbn [ms_share ms_pts]. split; auto. split.
      * rewrite <-C0. unfold CW, ExtractMem.W. rewrite (adr_ch n vp own sh j 0). by rewrite Nat.add_0_r.
      * unfold kn in Hq. set (a := length (chl vp j)) in *. pose proof (Nat.div_mod (2 + a) 2 ltac:(done)) as D1.
        pose proof (Nat.mod_upper_bound (2 + a) 2 ltac:(done)) as D2. set (d := (2 + a) / 2) in *. set (r := (2 + a) mod 2) in *.
        assert (r = 0) as Hr0 by lia. split; [|lia]. exists (d - 1). lia.
  - left. rewrite (HWi (i mod 2) Em eq_refl). assert (k < 4) as Hk by exact Hs. cbn [len] in Hq. destruct k as [|k].
    + destruct (a7_b0 _ _ _ _ _ _ _ _ H7 j Hj) as [_ Hh]. destruct (lookup_lt_is_Some_2 (cont vp own sh n j) q) as [v Hv].
      { unfold cont. rewrite Epr. unfold nk, kpx in Hq. cbn [Nat.eqb] in Hq. rewrite app_length. destruct (sh j); cbn [length]; lia. }
      pose proof (Hh q v Hv (i mod 2) Em) as H1. cbn [Nat.add] in H1. rewrite H1. eauto.
    + destruct (a7_bk _ _ _ _ _ _ _ _ H7 j (S k) Hj) as [_ Hh]; [lia|]. destruct (lookup_lt_is_Some_2 (own (S k) j) q) as [v Hv].
      { unfold nk in Hq. cbn [Nat.eqb] in Hq. lia. }
      pose proof (Hh q v Hv (i mod 2) Em) as H1. cbn [Nat.add] in H1. rewrite H1. eauto.
Qed.
End fill.

(* ---------- sums that fit ---------- *)
Section fits.
Context (V : view) (lab : nat -> rref) (F : forest) (HI : recog_input V lab F).
Notation pix := (region_pixels V lab (tab F)).
Lemma level_once x y p : live0 F x -> live0 F y -> gray0 F x = gray0 F y -> pix x p -> pix y p -> x = y.
Proof.
  intros Hx Hy Hg [_ H1] [_ H2]. destruct (decide (x = y)) as [|Hne]; [done|]. exfalso.
  destruct (vunder_linear _ _ _ _ H1 H2) as [H|H].
  - pose proof (under_gray V lab F HI x y Hx Hy H ltac:(done)). lia.
  - pose proof (under_gray V lab F HI y x Hy Hx H ltac:(done)). lia.
Qed.
Lemma sum_sizes q N : card_is (vw_in V) N -> NoDup q -> (forall z, z ∈ q -> live0 F z) -> sum_list (map (size0 F) q) <= 256 * N.
Proof.
  intros (all & Hall & Hel & <-) Hnd Hlv.
  assert (exists K : list (nat * nat), NoDup K /\ length K = sum_list (map (size0 F) q) /\
    forall g p, (g, p) ∈ K <-> exists z, z ∈ q /\ g = gray0 F z /\ pix z p) as (K & K1 & <- & K3).
  { induction Hnd as [|z q Hz Hnd IH].
    - exists []. split; [constructor|]. split; [done|]. intros g p. split; [intros H; by apply elem_of_nil in H|]. intros (z & H & _). by apply elem_of_nil in H.
    - destruct IH as (K & K1 & K2 & K3). { intros y Hy. apply Hlv. by right. }
      assert (live0 F z) as Hlz by (apply Hlv; left). destruct (pix_card V lab F HI z Hlz) as (w & W1 & W2 & W3).
      exists (map (pair (gray0 F z)) w ++ K). split; [|split].
      + apply NoDup_app. split; [apply NoDup_map_in; [done|]; intros ? ? _ _; congruence|]. split; [|done].
        intros [g p] H1 H2. change (map ?f ?x) with (f <$> x) in H1. apply elem_of_list_fmap in H1 as (p' & E & Hp'). injection E as -> ->.
        apply K3 in H2 as (y & Hy & Hg & Hp). assert (z = y) as ->; [|done]. eapply (level_once z y p'); auto; [apply Hlv; by right|by apply W2].
      + rewrite app_length, map_length, W3, K2. done.
      + intros g p. rewrite elem_of_app, K3. change (map ?f ?x) with (f <$> x). rewrite elem_of_list_fmap. split.
        * intros [(p' & E & Hp')|(y & Hy & ? & ?)].
          -- injection E as -> ->. exists z. split; [left|]. split; auto. by apply W2.
          -- exists y. split; [by right|auto].
        * intros (y & Hy & -> & Hp). apply elem_of_cons in Hy as [->|Hy]; [left|right; eauto]. exists p. split; auto. by apply W2. }
  assert (K ⊆+ (seq 0 256 ≫= fun g => map (pair g) all)) as Hsub.
  { apply NoDup_submseteq; auto. intros [g p] (z & Hz & -> & Hp)%K3. apply elem_of_list_bind. exists (gray0 F z). split.
    - change (map ?f ?x) with (f <$> x). apply elem_of_list_fmap. exists p. split; auto. apply Hel, Hp.
    - apply elem_of_seq. destruct (Hlv z Hz) as (a & Ha & _). destruct z as [k i]. destruct (ri_reg _ _ _ HI k i a Ha) as (_ & Hg & _).
      unfold gray0. rewrite Ha. lia. }
  apply submseteq_length in Hsub. etrans; [exact Hsub|]. clear.
  assert (forall h s, length (seq s h ≫= (fun g => map (pair g) all)) = h * length all) as Hb; [|by rewrite Hb].
  induction h as [|h IH]; intros s; [done|]. cbn [seq]. rewrite bind_cons, app_length, map_length, IH. lia.
Qed.
Lemma count_live q : NoDup q -> (forall z, z ∈ q -> live0 F z) -> length q <= nregs F.
Proof.
  intros Hnd Hlv. rewrite <-refs_length. apply submseteq_length, NoDup_submseteq; auto. intros z Hz. destruct (Hlv z Hz) as (a & Ha & _). by eapply elem_refs.
Qed.
End fits.

(* SPEC: an image with at most 8196544 pixels, so that the sums of the sizes of the
   reported regions always fit *)
Definition modest_image (cols rows : nat) : Prop := (Z.of_nat (rows * cols) * 262 < 2 ^ 31)%Z.
Lemma modest_small cols rows : modest_image cols rows -> small_image cols rows.
Proof. unfold modest_image, small_image. lia. Qed.
Lemma modest_fits V lab F P m N : recog_input V lab F -> card_is (vw_in V) N -> nregs F <= N -> (Z.of_nat N * 262 < 2 ^ 31)%Z -> result_fits F P m.
Proof.
  intros HI HN Hnr H. assert (forall z, z ∈ reported F P m -> live0 F z) as Hlv by (intros z; by eapply l_live).
  pose proof (sum_sizes V lab F HI (reported F P m) N HN (l_NoDup F P m) Hlv) as H1. pose proof (count_live F (reported F P m) (l_NoDup F P m) Hlv) as H2.
  split; [lia|].
  assert (sum_list (map (fun z => size0 F z + 6) (reported F P m)) = sum_list (map (size0 F) (reported F P m)) + 6 * length (reported F P m)) as ->.
  { clear. induction (reported F P m) as [|x q IH]; [done|]. cbn [map sum_list length] in *. unfold id in *. lia. }
  lia.
Qed.

Lemma flood_all_len n gm fresh img cols k rs bs ts os : flood_all n gm fresh img cols k rs bs = Some (ts, os) -> length bs = length rs -> length os = length rs.
Proof.
  revert bs k ts os. induction rs as [|r rs IH]; intros [|b bs] k ts os; cbn [flood_all]; try done; try (by intros [= _ <-]).
  destruct (make_tree_patch _ _ _ _ _ _ _) as [regs b'| |]; try done. destruct (flood_all _ _ _ _ _ _ _ _) as [[ts' os']|] eqn:E; [|done].
  intros [= <- <-] Hl. cbn [length] in *. f_equal. eapply IH; eauto.
Qed.
Lemma build_len n fuel gm fresh img cols rows bs F os : build_tree n fuel 4 gm fresh img cols rows bs = Some (F, os) -> length bs = 4 -> length os = 4.
Proof.
  unfold build_tree. cbn [grid_of Nat.eqb]. destruct (flood_all _ _ _ _ _ _ _ _) as [[ts os']|] eqn:E; [|done].
  destruct (merge_seq _ _ _ _ _); [|done]. intros [= _ <-] Hl. apply flood_all_len in E; [|by rewrite rects_length]. rewrite E. by rewrite rects_length.
Qed.
Lemma reuse_all rs ps d os : length ps = length os -> (forall k h, length (d k h) = length h) ->
  (forall k p b r, ps !! k = Some p -> os !! k = Some b -> rs !! k = Some r -> length p = length (b_pts b) /\
     (forall i, (forall y x, y < r_h r -> x < r_w r -> i <> (y + 1) * (r_w r + 2) + (x + 1)) -> p !! i = b_pts b !! i)) ->
  all_reused rs os (put_heaps d (put_words ps os)).
Proof.
  intros Hl Hd H. unfold put_heaps, put_words. split; [by rewrite !imap_length|].
  intros k r b b' Hr Hb Hb'. rewrite !list_lookup_imap, Hb in Hb'. cbn in Hb'. destruct (lookup_lt_is_Some_2 ps k) as [p Hp].
  { rewrite Hl. by eapply lookup_lt_Some. }
  rewrite Hp in Hb'. injection Hb' as <-. destruct (H k p b r Hp Hb Hr) as [H1 H2]. split; [exact H1|]. split; [exact H2|]. cbn. auto.
Qed.

(* SPEC: what a call with four partitions is given: schedules that let the workers
   finish; m_heap keeps its length *)
Definition fair_chan (cols rows : nat) (c : chan) : Prop :=
  finishing (c_sched c) /\ fill_fair cols rows (c_fill c) /\ forall k h, length (c_dirt c k h) = length h.
(* SPEC: coordinates fit into 16 bits *)
Definition short_sides (cols rows : nat) : Prop := (Z.of_nat cols <= 2 ^ 15)%Z /\ (Z.of_nat rows <= 2 ^ 15)%Z.
(* SPEC: the result of one channel: the regions found by recognition on the tree of the
   image, stored without gaps *)
Definition channel_result (img : list N) (gm : N) (cols rows fuel : nat) (P : rparam) (c : chan) (b : cbuf) (R : mres) : Prop :=
  let V := image_view img gm cols rows in
  exists F lab s l k b', let m := mode_of 4 (rects 2 2 cols rows) (c_sched c F) in let s0 := RSt F (c_var0 c) (fun _ => false) in
    ready V lab F P fuel m s0 /\ recognize fuel m P b s0 = Some (s, l, k, b') /\
    exact_records V lab (tab F) cols l R /\ filled R /\ record_rects (rects 2 2 cols rows) R /\ exists rp kids, well_formed R rp kids.

Section chan.
Context (img : list N) (gm : N) (cols rows : nat) (HF : image_fits 2 2 img cols rows) (Hmod : modest_image cols rows) (Hsh : short_sides cols rows).
Context (F : forest) (os : list fbuf) (lab : nat -> rref) (HW : whole_ok 2 2 img gm cols rows F os lab) (Hos : length os = 4).
Notation rs := (rects 2 2 cols rows). Notation V := (image_view img gm cols rows).

Lemma result_ok P m s fuel thr heap0 fill : flagged F P (final F P m) s -> rows * cols + 1 < fuel -> fill_fair cols rows fill ->
  exists R ps, extract_pixel fuel gm thr rs os (s_F s) heap0 (reported F P m) fill = Some (R, ps) /\
    exact_records V lab (tab F) cols (reported F P m) R /\ filled R /\ record_rects rs R /\ (exists rp kids, well_formed R rp kids) /\ length ps = 4 /\
    forall k p b r, ps !! k = Some p -> os !! k = Some b -> rs !! k = Some r -> length p = length (b_pts b) /\
      (forall i, (forall y x, y < r_h r -> x < r_w r -> i <> (y + 1) * (r_w r + 2) + (x + 1)) -> p !! i = b_pts b !! i).
Proof.
  intros Hfl Hfu Hff. pose proof (modest_small _ _ Hmod) as Hsm. destruct Hsh as [Hc Hr].
  pose proof (whole_input 4 2 2 img cols rows gm eq_refl HF Hsm F os lab HW) as HI.
  destruct (decide (reported F P m = [])) as [E|Hne].
  { rewrite E. eexists _, _. split; [reflexivity|]. split; [split; [done|intros j z Hz; by rewrite lookup_nil in Hz]|].
    split; [intros i Hi; cbn in Hi; lia|]. split; [intros j c L js Hj; cbn in Hj; by rewrite lookup_nil in Hj|].
    split; [exists (fun _ => []), (fun _ => []); split; cbn; intros; lia|].
    split; [by rewrite map_length|]. intros k p b r Hp Hb _. rewrite list_lookup_fmap, Hb in Hp. injection Hp as <-. auto. }
  assert (card_is (vw_in V) (rows * cols)) as Hcard.
  { eapply card_ext; [|exact (whole_card 2 2 cols rows (fun _ => 0))]. intros p. pose proof HF as [H1 H2 _ _ _ _].
    symmetry. apply (whole_in 2 2 cols rows); auto; lia. }
  assert (result_fits F P m) as Hres.
  { eapply modest_fits; eauto. apply (wk_total _ _ _ _ _ _ _ _ _ HW). }
  destruct (extract_top img gm cols rows HF Hsm Hc Hr F os lab HW Hos P m s Hfl fuel Hfu Hres thr heap0 fill Hff) as (mem & ms & ps & E & H7 & Hlp & Hps).
  set (n := length (reported F P m)) in *. set (vp := ExtractLink.vp _ _ _) in *. set (own := ownp _ _ _ _ _) in *. set (sh := shr _ _ _ _) in *.
  exists (MRes (total n vp own sh) mem ms), ps. split. { unfold extract_pixel. destruct (reported F P m); [done|exact E]. }
  assert (forall i j, vp i = Some j -> i < j /\ j < n) as Hvp.
  { apply ExtractLink.Hvp; [apply l_NoDup|]. eapply vp_lt; eauto. eapply Hnr; eauto. }
  assert (length ms = n) as Hln by apply (a7_len _ _ _ _ _ _ _ _ H7).
  assert (forall j, j < n -> exists z, reported F P m !! j = Some z) as Hat. { intros j Hj. by apply lookup_lt_is_Some_2. }
  assert (forall j, j < n -> exists L js, visit n (MRes (total n vp own sh) mem ms) [j] = Some (L, js) /\ L ≡ₚ pts vp own j) as Hvis.
  { intros j Hj. destruct (finished_visit n vp Hvp own sh _ _ (mem, ms) j H7 Hj) as (L & js & Ev & HL & _). eauto. }
  assert (forall j z, reported F P m !! j = Some z -> lists_set cols (region_pixels V lab (tab F) z) (pts vp own j)) as Hset.
  { intros j z Hz. by apply (pts_set img gm cols rows HF Hsm F os lab HW Hos P m s Hfl fuel Hfu). }
  split; [|split; [|split; [|split; [|split; auto]]]].
  - split; [exact Hln|]. intros j z Hz. assert (j < n) as Hj by (by eapply lookup_lt_Some).
    destruct (a7_ms _ _ _ _ _ _ _ _ H7 j Hj) as (rc & Hms & _). destruct (Hvis j Hj) as (L & js & Ev & HL).
    destruct (rec_sz V lab F HI P m s Hfl j z Hz) as (Es & Eg & Hlv). destruct (live_alive F z Hlv) as (a & [Ha1 Ha2] & Ga & Sa).
    eexists _, a, L, js. split; [exact Hms|]. split; [exact Ha1|]. split; [exact Ha2|]. cbn [ms_size ms_gray r_ms]. rewrite Es, Eg, Ga, Sa.
    split; [done|]. split; [done|]. cbn [snd] in *. rewrite Hln. split; [exact Ev|]. destruct (Hset j z Hz) as [S1 S2]. split; [by rewrite HL|].
    intros q. by rewrite HL, S2.
  - exact (finished_filled n vp Hvp own sh _ _ (mem, ms) H7).
  - intros j c L js Hj Ev. cbn [r_ms] in *. rewrite Hln in Ev. assert (j < n) as Hjn by (rewrite <-Hln; by eapply lookup_lt_Some).
    destruct (a7_ms _ _ _ _ _ _ _ _ H7 j Hjn) as (rc & Hms & Hrc). cbn [snd] in Hms. rewrite Hms in Hj. injection Hj as <-.
    cbn [ms_rect]. unfold rects_ok in Hrc. rewrite (proj2 (Nat.ltb_lt j n) Hjn) in Hrc. destruct (Hvis j Hjn) as (L' & js' & Ev' & HL).
    assert (L' = L) as -> by congruence. eapply boxed_perm; [symmetry; exact HL|]. eapply boxed_weak; [|exact Hrc].
    intros (r & Hr' & Hin) i Hi k k' Hk Hk' Ho Ho'.
    assert (forall k, k < 4 -> own k i <> [] -> rs !! k = Some r) as Hwhere.
    { intros w Hw Hn. destruct (own w i) as [|q rest] eqn:Eo; [done|]. assert (q ∈ own w i) as Hq by (rewrite Eo; left).
      assert (q ∈ L) as HqL. { rewrite HL. apply (elem_pts n vp Hvp). eauto. }
      apply (elem_ownp img gm cols rows HF Hsm F os lab HW Hos P m s Hfl fuel Hfu w i q Hw) in Hq as (cc & Hc1 & _ & ->).
      destruct (pxo_part img gm cols rows HF Hsm F os lab HW Hos P m s Hfl fuel Hfu w cc Hw Hc1) as [[r' [Hr1 Hr2]] _].
      rewrite Hr1. f_equal. apply elem_of_list_lookup in Hr' as [w' Hw']. destruct (Hin _ HqL) as [I1 I2].
      assert (w = w') as <-; [|congruence]. eapply (part_unique 2 2 cols rows); [..|by exists r'|exists r; split; [done|]]; try lia.
      unfold pixel in I1, I2. cbn [fst snd] in I1, I2. unfold in_rect. lia. }
    pose proof (Hwhere k Hk Ho) as Q1. pose proof (Hwhere k' Hk' Ho') as Q2.
    destruct (decide (k = k')) as [|Hd']; [done|]. exfalso.
    assert (exists q, q ∈ own k i) as [q Hq]. { destruct (own k i) as [|q rest]; [done|]. exists q. left. }
    apply (elem_ownp img gm cols rows HF Hsm F os lab HW Hos P m s Hfl fuel Hfu k i q Hk) in Hq as (cc & Hc1 & _ & _).
    destruct (pxo_part img gm cols rows HF Hsm F os lab HW Hos P m s Hfl fuel Hfu k cc Hk Hc1) as [[r' [Hr1 Hr2]] _]. apply Hd'. eapply (part_unique 2 2 cols rows); [..|by exists r'|exists r; split; [done|]]; try lia.
    by assert (r' = r) as <- by congruence.
  - eexists _, _. exact (finished_wf n vp Hvp own sh _ _ (mem, ms) H7).
Qed.
End chan.

Section run.
Context (img : list N) (cols rows : nat) (HF : image_fits 2 2 img cols rows) (Hmod : modest_image cols rows) (Hsh : short_sides cols rows).
Context (P : rparam) (Hdel : delta_ok P) (n fuel : nat) (Hn : 6 * (rows * cols) < n) (Hf : rows * cols + 514 < fuel) (thr : Z).
Notation rs := (rects 2 2 cols rows).

Lemma channel_ok gm fresh bs b c F os lab : build_tree n fuel 4 gm fresh img cols rows bs = Some (F, os) -> length bs = 4 ->
  whole_ok 2 2 img gm cols rows F os lab -> fair_chan cols rows c ->
  exists R os' b', channel n fuel 4 gm fresh img cols rows P thr bs b c = Some (R, os', b') /\ all_reused rs os os' /\
    channel_result img gm cols rows fuel P c b R.
Proof.
  intros E Hl HW (Hs & Hfill & Hd1). pose proof (build_len _ _ _ _ _ _ _ _ _ _ E Hl) as Hos.
  pose proof (whole_ready 4 2 2 img cols rows gm eq_refl HF (modest_small _ _ Hmod) F os lab P fuel (c_sched c F) (c_var0 c) HW Hdel ltac:(lia) (Hs F)) as HR.
  destruct (run_recognize _ _ _ _ _ _ _ HR b) as (s & Er & Hfl).
  destruct (result_ok img gm cols rows HF Hmod Hsh F os lab HW Hos P _ s fuel thr (c_heap0 c) (c_fill c) Hfl ltac:(lia) Hfill)
    as (R & ps & Ex & H1 & H2 & H3 & H3' & H4 & H5).
  eexists R, _, _. split.
  { unfold channel, detect. cbn [grid_of Nat.eqb]. rewrite E. rewrite Er. rewrite Ex. reflexivity. }
  split. { apply reuse_all; auto. congruence. }
  exists F, lab, s. eexists _, _, _. split; [exact HR|]. split; [exact Er|]. auto.
Qed.

Lemma run_ok bright bs b c0 c1 : allocated 2 2 cols rows 4 bs -> fair_chan cols rows c0 -> fair_chan cols rows c1 ->
  exists R0 R1, extract n fuel 4 true bright img cols rows P thr bs b c0 c1 = Some (R0, R1) /\
    channel_result img 0 cols rows fuel P c0 b R0 /\
    if bright then exists b1, channel_result img 255 cols rows fuel P c1 b1 R1 else R1 = no_result.
Proof.
  intros [Hl Hb] H0 H1. destruct (build_ok 4 2 2 img cols rows eq_refl HF n fuel bs Hl Hb Hn Hf) as (F & os & lab & E & HW & Hbr).
  destruct (channel_ok 0 true bs b c0 F os lab E Hl HW H0) as (R0 & os' & b' & E0 & Hre & Hc0). unfold extract. rewrite E0.
  destruct bright; [|by exists R0, no_result].
  destruct (Hbr os' Hre) as (F2 & os2 & lab2 & E2 & HW2). assert (length os' = 4) as Hl'.
  { destruct Hre as [-> _]. by eapply build_len. }
  destruct (channel_ok 255 false os' b' c1 F2 os2 lab2 E2 Hl' HW2 H1) as (R1 & os3 & b3 & E3 & _ & Hc1). cbn [negb]. rewrite E3.
  exists R0, R1. eauto.
Qed.
End run.
