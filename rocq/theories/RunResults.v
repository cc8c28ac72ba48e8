(* What the result of a call says about the image, without the tree. *)
From stdpp Require Import sorting relations functions list_numbers list.
From Coq Require Import NArith ZArith SpecFloat.
From Verif Require Import Spec TreeSpec TreeFacts JoinMath JoinCorrect Grid FloodModel FloodInit FloodTree FloodCorrect ConnectModel ConnectProof PartModel PartProof
  MergeProof WholeModel WholeProof WholeCorrect FloatModel FloatFacts RecogModel RecogSpec RecogStatic RecogWorkers RecogDup RecogTree RecogCompose RecogFinal
  RecogResults RecogPixels DetectModel Detect RectModel RectFacts ExtractModel ExtractAbs ExtractLink ExtractMem ExtractFinish ExtractDecode ExtractCorrect
  ExtractTree ExtractTop RunModel RunCorrect.
Local Open Scope nat_scope.

(* SPEC: record j of a result lists the set S of pixels, with its size *)
Definition lists_record (cols : nat) (R : mres) (j : nat) (S : nat -> Prop) : Prop :=
  exists c L js, r_ms R !! j = Some c /\ visit (length (r_ms R)) R [j] = Some (L, js) /\ lists_set cols S L /\ card_is S (ms_size c).
(* SPEC: the greatest and the least value of the image on a set of pixels *)
Definition max_on (img : list N) (S : nat -> Prop) (v : N) : Prop :=
  (exists p, S p /\ img !! p = Some v) /\ forall p w, S p -> img !! p = Some w -> (w <= v)%N.
Definition min_on (img : list N) (S : nat -> Prop) (v : N) : Prop :=
  (exists p, S p /\ img !! p = Some v) /\ forall p w, S p -> img !! p = Some w -> (v <= w)%N.

(* SPEC: two sets with the same members *)
Definition same_set (S S' : nat -> Prop) : Prop := forall p, S p <-> S' p.
Lemma lists_ext cols R j S S' : same_set S S' -> lists_record cols R j S -> lists_record cols R j S'.
Proof.
  intros H (c & L & js & H1 & H2 & [H3 H4] & H5). exists c, L, js. split; [done|]. split; [done|]. split; [|by eapply card_ext].
  split; [done|]. intros q. rewrite H4. split; intros (p & Hp & ->); exists p; split; auto; by apply H.
Qed.
Lemma lists_fun cols R j S S' : 0 < cols -> lists_record cols R j S -> lists_record cols R j S' -> same_set S S'.
Proof.
  intros Hc (c & L & js & H1 & H2 & [_ H4] & _) (c' & L' & js' & G1 & G2 & [_ G4] & _) p. assert (L' = L) as -> by congruence.
  assert (S p <-> pixel cols p ∈ L) as ->.
  { rewrite H4. split; [eauto|]. intros (q & Hq & E). by rewrite (px_inj cols p q E). }
  rewrite G4. split; [|eauto]. intros (q & Hq & E). by rewrite (px_inj cols p q E).
Qed.
Lemma extremal_top V g S : extremal V g S -> (exists p, S p /\ vw_in V p /\ vw_gray V p = g) /\ forall p, S p -> vw_gray V p <= g.
Proof.
  intros (p0 & Hin & Hg & HS). split.
  - exists p0. split; auto. apply HS. unfold vconn. repeat (split; [done || lia|]). apply rtc_refl.
  - intros p Hp. apply HS in Hp. by destruct Hp as (_ & _ & _ & ? & _).
Qed.
Lemma extremal_level V g g' S : extremal V g S -> extremal V g' S -> g = g'.
Proof.
  intros [(p & Hp & _ & E) H]%extremal_top [(q & Hq & _ & E') H']%extremal_top. pose proof (H q Hq). pose proof (H' p Hp). lia.
Qed.

Section res.
Context (img : list N) (gm : N) (cols rows fuel : nat) (P : rparam) (c : chan) (b : cbuf) (R : mres).
Context (HF : image_fits 2 2 img cols rows) (Hch : channel_result img gm cols rows fuel P c b R).
Notation V := (image_view img gm cols rows).

(* every record lists an extremal region of the channel *)
Lemma record_extremal j rc : r_ms R !! j = Some rc -> exists g S, extremal V g S /\ lists_record cols R j S /\ ms_gray rc = N.of_nat g.
Proof.
  intros Hj. destruct Hch as (F & lab & s & l & k & b' & HR & Er & [Hlen Hrec] & _). destruct (lookup_lt_is_Some_2 l j) as [z Hz].
  { rewrite <-Hlen. by eapply lookup_lt_Some. }
  destruct (Hrec j z Hz) as (rc' & a & L & js & Hj' & Ha & Hlv & Hs & Hg & Hv & HL). assert (rc' = rc) as -> by congruence.
  pose proof (rd_input _ _ _ _ _ _ _ HR) as HI.
  destruct (tree_extremal V lab (tab F) (ri_sym _ _ _ HI) (ri_tree _ _ _ HI)) as (Hx & _).
  exists (v_gray a), (region_pixels V lab (tab F) z). split; [by apply Hx|]. split; [|done]. exists rc, L, js. split; [done|]. split; [done|]. split; [done|].
  rewrite Hs. assert (live0 F z) as Hz0 by (by apply (alive_live F z a)). destruct (alive_live F z a) as (_ & _ & ->); [done|]. by apply (pix_card V lab F HI).
Qed.

Lemma view_pixel p : vw_in V p -> exists v, img !! p = Some v /\ (v < 256)%N /\ vw_gray V p = N.to_nat (N.lxor v gm).
Proof.
  intros Hp. assert (p < rows * cols) as Hlt. { pose proof HF as [H1 H2 _ _ _ _]. eapply (proj1 (whole_in 2 2 cols rows ltac:(lia) ltac:(lia) ltac:(lia) ltac:(lia) _ p)). exact Hp. }
  destruct (lookup_lt_is_Some_2 img p) as [v Hv]. { pose proof (if_len _ _ _ _ _ HF). lia. }
  exists v. split; auto. split; [by eapply if_byte|]. cbn. unfold level. by rewrite (nth_lookup_Some _ _ _ _ Hv).
Qed.
Lemma extremal_in g S p : extremal V g S -> S p -> vw_in V p.
Proof.
  intros (p0 & Hin & _ & HS) Hp. apply HS in Hp. by destruct Hp as (_ & ? & _).
Qed.

(* the reported level *)
Lemma record_level_dark j rc S : gm = 0%N -> r_ms R !! j = Some rc -> lists_record cols R j S -> max_on img S (ms_gray rc).
Proof.
  intros Hgm Hj HS. destruct (record_extremal j rc Hj) as (g & S' & Hx & HS' & ->). destruct (extremal_top _ _ _ Hx) as [(p & Hp & Hin & E) Hle].
  pose proof (if_cols _ _ _ _ _ HF) as Hc. assert (same_set S' S) as HSS by (apply (lists_fun cols R j); [lia|done|done]). split.
  - exists p. split; [by apply HSS|]. destruct (view_pixel p Hin) as (v & -> & _ & Ev). rewrite E, Hgm, N.lxor_0_r in Ev. f_equal. lia.
  - intros q w Hq Hw. apply HSS in Hq. pose proof (Hle q Hq) as H. destruct (view_pixel q (extremal_in _ _ q Hx Hq)) as (v & Hv & _ & Ev).
    rewrite Ev, Hgm, N.lxor_0_r in H. assert (v = w) as -> by congruence. lia.
Qed.
Lemma record_level_bright j rc S : gm = 255%N -> r_ms R !! j = Some rc -> lists_record cols R j S ->
  exists v, min_on img S v /\ ms_gray rc = (255 - v)%N /\ ms_gray rc <> v.
Proof.
  intros Hgm Hj HS. destruct (record_extremal j rc Hj) as (g & S' & Hx & HS' & ->). destruct (extremal_top _ _ _ Hx) as [(p & Hp & Hin & E) Hle].
  pose proof (if_cols _ _ _ _ _ HF) as Hc. assert (same_set S' S) as HSS by (apply (lists_fun cols R j); [lia|done|done]).
  destruct (view_pixel p Hin) as (v & Hv & Hb & Ev). rewrite E, Hgm, lxor_byte in Ev by auto. exists v. split; [split|].
  - exists p. split; [by apply HSS|done].
  - intros q w Hq Hw. apply HSS in Hq. pose proof (Hle q Hq) as H. destruct (view_pixel q (extremal_in _ _ q Hx Hq)) as (v' & Hv' & Hb' & Ev').
    rewrite Ev', Hgm, lxor_byte in H by auto. assert (v' = w) as -> by congruence. lia.
  - lia.
Qed.

(* records list different sets *)
Lemma records_differ i j S : lists_record cols R i S -> lists_record cols R j S -> i = j.
Proof.
  intros Hi Hj. destruct Hch as (F & lab & s & l & k & b' & HR & Er & [Hlen Hrec] & _). pose proof (rd_input _ _ _ _ _ _ _ HR) as HI.
  destruct (tree_extremal V lab (tab F) (ri_sym _ _ _ HI) (ri_tree _ _ _ HI)) as (Hx & _). pose proof (if_cols _ _ _ _ _ HF) as Hc.
  destruct (RecogResults.count_ok _ _ _ _ _ _ _ HR b) as (s' & l' & n' & b2 & Er' & _ & Hnd & _). assert (l' = l) as -> by congruence.
  assert (forall i, lists_record cols R i S -> exists z a, l !! i = Some z /\ alive F z a /\ same_set (region_pixels V lab (tab F) z) S) as Hat.
  { clear i j Hi Hj. intros i Hi. pose proof Hi as (rc & L & js & H1 & _). destruct (lookup_lt_is_Some_2 l i) as [z Hz]; [rewrite <-Hlen; by eapply lookup_lt_Some|].
    destruct (Hrec i z Hz) as (rc' & a & L' & js' & G1 & G2 & G3 & G4 & _ & G6 & G7). exists z, a. split; auto. split; [by split|].
    eapply (lists_fun cols R i); eauto; [lia|]. exists rc', L', js'. split; [done|]. split; [done|]. split; [done|]. rewrite G4.
    destruct (alive_live F z a) as (Hz0 & _ & ->); [done|]. by apply (pix_card V lab F HI). }
  destruct (Hat i Hi) as (x & a & Hxi & [Ha1 Ha2] & Hsx). destruct (Hat j Hj) as (y & d & Hyj & [Hd1 Hd2] & Hsy).
  assert (x = y) as <-; [|by eapply NoDup_lookup].
  pose proof (Hx x a Ha1 Ha2) as Ex. pose proof (Hx y d Hd1 Hd2) as Ey.
  assert (extremal V (v_gray d) (region_pixels V lab (tab F) x)) as Ey'.
  { destruct Ey as (p0 & E1 & E2 & E3). exists p0. split; auto. split; auto. intros p. by rewrite (Hsx p), <-(Hsy p), E3. }
  pose proof (extremal_level _ _ _ _ Ex Ey') as Eg. destruct (extremal_top _ _ _ Ex) as [(p & Hp & _) _].
  destruct (alive_live F x a) as (Lx & Gx & _); [done|]. destruct (alive_live F y d) as (Ly & Gy & _); [done|].
  apply (level_once V lab F HI x y p); auto; [congruence|]. apply Hsy, Hsx, Hp.
Qed.

(* the records and the regions reported by recognition *)
Lemma record_reports : exists F lab s l k b',
  ready V lab F P fuel (mode_of 4 (rects 2 2 cols rows) (c_sched c F)) (RSt F (c_var0 c) (fun _ => false)) /\
  recognize fuel (mode_of 4 (rects 2 2 cols rows) (c_sched c F)) P b (RSt F (c_var0 c) (fun _ => false)) = Some (s, l, k, b') /\
  length l = length (r_ms R) /\ (forall j z, l !! j = Some z -> lists_record cols R j (region_pixels V lab (tab F) z)) /\
  forall S, (exists j, lists_record cols R j S) <-> reports V lab F l S.
Proof.
  destruct Hch as (F & lab & s & l & k & b' & HR & Er & [Hlen Hrec] & _). exists F, lab, s, l, k, b'. split; auto. split; auto. split; [by rewrite Hlen|].
  pose proof (rd_input _ _ _ _ _ _ _ HR) as HI. pose proof (if_cols _ _ _ _ _ HF) as Hc.
  assert (forall j z, l !! j = Some z -> lists_record cols R j (region_pixels V lab (tab F) z)) as Hz2.
  { intros j z Hz. destruct (Hrec j z Hz) as (rc & a & L & js & G1 & G2 & G3 & G4 & _ & G6 & G7). exists rc, L, js. split; [done|]. split; [done|]. split; [done|].
    rewrite G4. destruct (alive_live F z a) as (Hz0 & _ & ->); [done|]. by apply (pix_card V lab F HI). }
  split; [exact Hz2|]. intros T. split.
  - intros (j & Hj). pose proof Hj as (rc & L & js & H1 & _). destruct (lookup_lt_is_Some_2 l j) as [z Hz]; [rewrite <-Hlen; by eapply lookup_lt_Some|].
    exists z. split; [by eapply elem_of_list_lookup_2|]. intros p. apply (lists_fun cols R j); auto. lia.
  - intros (z & Hz & Hp). apply elem_of_list_lookup in Hz as [j Hj]. exists j. eapply lists_ext; [|by apply Hz2]. intros p. by rewrite Hp.
Qed.

(* the limits *)
Lemma record_limits j rc S : r_ms R !! j = Some rc -> lists_record cols R j S ->
  (p_min P <= Z.of_nat (ms_size rc) <= p_max P)%Z /\ exists p, vw_in V p /\ ~ S p.
Proof.
  intros Hj HS. destruct record_reports as (F & lab & s & l & k & b' & HR & Er & Hlen & Hl & Hiff).
  destruct (limits_ok _ _ _ _ _ _ _ HR b) as (s' & l' & n' & b2 & Er' & Hlim). assert (l' = l) as -> by congruence.
  destruct (proj1 (Hiff S)) as (z & Hz & Hzs); [eauto|]. destruct (Hlim z Hz) as [(a & Ha1 & Ha2 & Hsz & _) (p & Hp & Hn)].
  split; [|exists p; split; auto; by rewrite Hzs]. pose proof (rd_input _ _ _ _ _ _ _ HR) as HI.
  destruct HS as (rc' & L & js & H1 & _ & _ & Hcard). assert (rc' = rc) as -> by congruence.
  destruct (alive_live F z a) as (Hz0 & _ & Esz); [done|]. assert (ms_size rc = v_size a) as ->; [|done].
  rewrite Esz. eapply (card_unique S); [done|]. eapply card_ext; [|by apply (pix_card V lab F HI)]. intros q. symmetry. by apply Hzs.
Qed.
(* nested records differ by more than the threshold *)
Lemma records_apart i j S S' : below1 (p_dup P) -> lists_record cols R i S -> lists_record cols R j S' -> i <> j ->
  (forall p, S p -> S' p) -> exceeds (p_dup P) S S'.
Proof.
  intros Hb1 Hi Hj Hne Hsub. destruct record_reports as (F & lab & s & l & k & b' & HR & Er & Hlen & Hl & Hiff).
  destruct (apart_ok _ _ _ _ _ _ _ HR b Hb1) as (s' & l' & n' & b2 & Er' & Hap). assert (l' = l) as -> by congruence.
  destruct (proj1 (Hiff S)) as (x & Hx & Hxs); [eauto|]. destruct (proj1 (Hiff S')) as (y & Hy & Hys); [eauto|].
  assert (x <> y) as Hxy. { intros ->. apply Hne. eapply records_differ; [exact Hi|]. eapply lists_ext; [|exact Hj]. intros p. by rewrite Hys, Hxs. }
  destruct (Hap x y Hx Hy Hxy) as (n & k' & H1 & H2 & H3). { intros p Hp. apply Hys, Hsub, Hxs, Hp. }
  exists n, k'. split; [|split; [|done]]; (eapply card_ext; [|eassumption]); intros p; symmetry; auto.
Qed.
(* without removal of duplicates the records are the stable extremal regions *)
Lemma records_msers d : (p_delta P = Z.of_nat d)%Z -> fge fzero (p_dup P) = true ->
  (forall j rc, r_ms R !! j = Some rc -> exists g S, mser V P d g S /\ lists_record cols R j S /\ ms_gray rc = N.of_nat g) /\
  forall g S, mser V P d g S -> exists j, lists_record cols R j S.
Proof.
  intros Hd Hdup. destruct record_reports as (F & lab & s & l & k & b' & HR & Er & Hlen & Hl & Hiff).
  destruct (reported_msers _ _ _ _ _ _ _ d b HR Hd (or_introl I) Hdup) as (s' & l' & n' & b2 & Er' & H1 & H2). assert (l' = l) as -> by congruence.
  split; [|intros g S HS; apply Hiff; by eapply H2].
  intros j rc Hj. destruct (lookup_lt_is_Some_2 l j) as [z Hz]. { rewrite Hlen. by eapply lookup_lt_Some. }
  destruct (H1 z) as (a & Ha & Hm); [by eapply elem_of_list_lookup_2|]. exists (v_gray a), (region_pixels V lab (tab F) z). split; auto. split; [by apply Hl|].
  destruct (record_extremal j rc Hj) as (g & S & Hx & HS & ->). f_equal. eapply extremal_level; [exact Hx|].
  destruct Hm as [Hcomp _]. destruct Hcomp as (p0 & E1 & E2 & E3). exists p0. split; auto. split; auto. intros p. rewrite <-E3.
  apply (lists_fun cols R j); auto. pose proof (if_cols _ _ _ _ _ HF). lia.
Qed.
End res.

Lemma result_rects img gm cols rows fuel P c b R : channel_result img gm cols rows fuel P c b R -> record_rects (rects 2 2 cols rows) R.
Proof. intros (F & lab & s & l & k & b' & _ & _ & _ & _ & H & _). exact H. Qed.
Lemma result_wf img gm cols rows fuel P c b R : channel_result img gm cols rows fuel P c b R -> exists rp kids, well_formed R rp kids.
Proof. intros (F & lab & s & l & k & b' & _ & _ & _ & _ & _ & H). exact H. Qed.

(* two calls *)
Lemma results_agree img gm cols rows fuel P c1 c2 b1 b2 R1 R2 : image_fits 2 2 img cols rows ->
  channel_result img gm cols rows fuel P c1 b1 R1 -> channel_result img gm cols rows fuel P c2 b2 R2 ->
  sane P -> below1 (p_dup P) ->
  length (r_ms R1) = length (r_ms R2) /\ forall S, (exists j, lists_record cols R1 j S) <-> exists j, lists_record cols R2 j S.
Proof.
  intros HF H1 H2 Hs Hb. destruct (record_reports _ _ _ _ _ _ _ _ _ HF H1) as (F & lab & s & l & k & b' & HR & Er & Hlen & Hl & Hiff).
  destruct (record_reports _ _ _ _ _ _ _ _ _ HF H2) as (F' & lab' & s' & l' & k' & b'' & HR' & Er' & Hlen' & Hl' & Hiff').
  destruct (threads_free _ _ _ _ _ _ _ _ _ _ _ b1 b2 HR HR' Hs Hb) as (t1 & m1 & n1 & d1 & t2 & m2 & n2 & d2 & G1 & G2 & Hn & Hre).
  destruct (RecogResults.count_ok _ _ _ _ _ _ _ HR b1) as (? & ? & ? & ? & G3 & C1 & _). destruct (RecogResults.count_ok _ _ _ _ _ _ _ HR' b2) as (? & ? & ? & ? & G4 & C2 & _).
  assert (m1 = l) as -> by congruence. assert (m2 = l') as -> by congruence. split; [congruence|].
  intros S. by rewrite Hiff, Hiff', Hre.
Qed.

(* ---------- fewer than four partitions ---------- *)
Lemma count_none s n rs os k : length os <= k -> count_part s n rs os k = None.
Proof. intros H. unfold count_part. rewrite (proj2 (lookup_ge_None os k) H). by destruct (rs !! k). Qed.
Lemma few_partitions fuel gm thr rs os F heap0 l sched : length os < 4 -> l <> [] -> extract_pixel fuel gm thr rs os F heap0 l sched = None.
Proof.
  intros Hos Hl. unfold extract_pixel. destruct l as [|x l]; [done|]. unfold extract_4.
  destruct (Z.leb _ _); [done|]. destruct (loop (rec_start gm) 0 _ _) as [[s1 ms1]|]; [|done].
  destruct (loop (classify fuel thr) 0 _ _) as [[[s2 ms2] total]|]; [|done]. destruct (each _ _ _) as [s3|]; [|done].
  rewrite (count_none s3 _ rs os 3) by lia.
  destruct (count_part s3 _ rs os 0) as [[[? ?] ?]|]; [|done]. destruct (count_part s3 _ rs os 1) as [[[? ?] ?]|]; [|done].
  by destruct (count_part s3 _ rs os 2) as [[[? ?] ?]|].
Qed.
