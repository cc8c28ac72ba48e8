(* What the result of an MS-MSER call says about the image. *)
From stdpp Require Import sorting relations functions list_numbers list.
From Coq Require Import NArith ZArith SpecFloat.
From Verif Require Import Spec TreeSpec TreeFacts JoinMath JoinCorrect FloodAbs Grid WordBits FloodModel FloodInit FloodTree FloodCorrect ConnectModel ConnectProof PartModel
  WholeModel WholeProof WholeCorrect FloatModel FloatFacts RecogModel RecogSpec RecogStatic RecogTree RecogCompose RecogFinal RecogTransport
  RecogResults RecogPixels DetectModel Detect RectModel RectFacts ExtractModel ExtractDecode ExtractTree ExtractTop RunModel RunCorrect RunResults
  LinkedModel LinkedGrid LinkedInit LinkedCorrect CvModel CvRecog CvExtract CvCorrect CvResults MsModel MsRecog MsMem MsTop.
Local Open Scope nat_scope.

(* SPEC: record j of a result lists the set S of pixels, with its size *)
Definition ms_lists (w : nat) (R : mres) (j : nat) (S : nat -> Prop) : Prop :=
  exists c L js, r_ms R !! j = Some c /\ ms_visit (length (r_ms R)) R [j] = Some (L, js) /\ lists_set w S L /\ card_is S (ms_size c).
(* SPEC: the array a channel leaves behind keeps its size *)
Definition ms_fair (c : mschan) : Prop := forall q, length (mc_dirt c q) = length q.
(* SPEC: the threshold for duplicates is a number *)
Definition dup_number (P : rparam) : Prop := fgt (p_dup P) fzero = true \/ fge fzero (p_dup P) = true.
(* SPEC: an image MS-MSER can process: its samples are bytes, it is not too large, and
   some grey value does not occur *)
Record ms_image (src : list N) (w h : nat) : Prop := {
  mi_fits : limg_fits src w w h; mi_modest : modest_image w h; mi_misses : misses_level src 0 w 0 0 w h
}.
(* SPEC: R is what the channel gm (0 dark, 255 bright) of a call for both channels
   returns, for some contents of the buffers *)
Definition ms_result (src : list N) (gm : N) (w h : nat) (P : rparam) (R : mres) : Prop :=
  exists n thr b c0 c1 R0 R1, 6 * (w * h) < n /\ buf_alloc w h b /\ ms_fair c0 /\
    ms_call n w h true src P thr b c0 c1 = Some (R0, R1) /\ R = if (gm =? 0)%N then R0 else R1.

Definition ms_records (src : list N) (gm : N) (w h : nat) (P : rparam) (F : forest) (lab : nat -> rref) (R : mres) : Prop :=
  length (r_ms R) = length (reported F P One) /\
  forall j z, reported F P One !! j = Some z -> exists rc L js, r_ms R !! j = Some rc /\ ms_visit (length (r_ms R)) R [j] = Some (L, js) /\
    lists_set w (region_pixels (lview false w w h (level src gm)) lab (tab F) z) L /\ ms_size rc = size0 F z /\ ms_gray rc = N.lxor (N.of_nat (gray0 F z)) gm /\ bounding L (ms_rect rc).

Lemma misses_both src w h gm : limg_fits src w w h -> gm = 0%N \/ gm = 255%N -> misses_level src 0 w 0 0 w h -> misses_level src gm w 0 0 w h.
Proof.
  intros HF [->| ->] (v & Hv & H); [by exists v|]. exists (255 - v). split; [lia|]. intros p Hp E. apply (H p Hp). unfold level in *.
  destruct (lookup_lt_is_Some_2 src p) as [x Hx].
  { destruct HF as [Hw Hh Hfit Hlen Hb]. unfold in_rect in Hp. pose proof (Nat.div_mod p w ltac:(lia)) as E'.
    assert (w * (p / w) <= w * (h - 1)) by (apply Nat.mul_le_mono_l; lia). nia. }
  rewrite (nth_lookup_Some _ _ _ _ Hx) in *. pose proof (lf_byte _ _ _ _ HF p x Hx). rewrite lxor_byte in E by auto. rewrite N.lxor_0_r. lia.
Qed.
Lemma between_heap cols top lft w h g b q : length q = length (b_heap b) -> buf_between cols top lft w h g b ->
  buf_between cols top lft w h g (FBuf (b_pts b) (b_ext b) (b_lvl b) q (b_hs b)).
Proof. intros Hq [H1 H2 H3 H4 H5 H6 H7 H8]. constructor; cbn [b_pts b_ext b_lvl b_heap b_hs]; auto. congruence. Qed.
Lemma ms_cfg_d w h gm : ms_cfg w h gm = cfgd true w h gm 0.
Proof. reflexivity. Qed.
Lemma ms_table V lab regs : (forall i a, regs !! i = Some a -> m_flag a = 0) -> ctree V lab (table_of regs) -> ctree V lab (ltable (map ms_lreg regs)).
Proof.
  intros Hf HT. assert (forall i, ltable (map ms_lreg regs) i = table_of regs i) as E.
  { intros i. unfold ltable, table_of. rewrite map_at. destruct (regs !! i) as [a|] eqn:Ea; [|done]. cbn. unfold vreg_of. by rewrite (Hf i a Ea). }
  assert (forall x y, vup (ltable (map ms_lreg regs)) x y <-> vup (table_of regs) x y) as Hu by (intros x y; unfold vup; by rewrite E).
  assert (forall x y, vunder (ltable (map ms_lreg regs)) x y <-> vunder (table_of regs) x y) as Hv.
  { intros x y. split; intros H; (induction H as [|x y z Hxy _ IH]; [apply rtc_refl|]; eapply rtc_l; [by apply Hu|exact IH]). }
  destruct HT as [T1 T2 T3 T4 T5 T6 T7]. constructor.
  - intros p. rewrite E. apply T1.
  - intros r a t. rewrite !E. apply T2.
  - intros r a. rewrite E. intros Ha Hl. destruct (T3 r a Ha Hl) as (t & b & ?). exists t, b. by rewrite E.
  - intros r a. rewrite E. intros Ha Hl. destruct (T4 r a Ha Hl) as (p & H1 & H2 & H3). exists p. split; auto. split; auto. by apply Hv.
  - intros r a p q. rewrite E, !Hv. apply T5.
  - intros r a. rewrite E. intros Ha Hl. eapply card_ext; [|exact (T6 r a Ha Hl)]. intros p. cbn beta. by rewrite Hv.
  - intros r a. rewrite E. intros Ha. destruct (T7 r a Ha) as (t & b & H1 & H2 & H3). exists t, b. rewrite E. split; [by apply Hv|auto].
Qed.

Section chan.
Context (src : list N) (gm : N) (w h : nat) (HF : limg_fits src w w h) (Hgm : gm = 0%N \/ gm = 255%N) (Hmod : modest_image w h).
Context (P : rparam) (Hd : delta_ok P) (Hdup : dup_number P).
Notation V := (lview false w w h (level src gm)).

Lemma level_byte p : vw_in V p -> level src gm p < 256.
Proof.
  intros Hp. destruct (lookup_lt_is_Some_2 src p) as [x Hx].
  { pose proof HF as [Hw Hh Hfit Hlen Hb]. cbn [vw_in lview] in Hp. unfold in_rect in Hp. pose proof (Nat.div_mod p w ltac:(lia)) as E'.
    assert (w * (p / w) <= w * (h - 1)) by (apply Nat.mul_le_mono_l; lia). nia. }
  unfold level. rewrite (nth_lookup_Some _ _ _ _ Hx). pose proof (lf_byte _ _ _ _ HF p x Hx). destruct Hgm as [->| ->]; [rewrite N.lxor_0_r; lia|].
  rewrite lxor_byte by auto. lia.
Qed.

Lemma ms_chan_tree n fresh b thr c regs b' lab : 6 * (w * h) < n -> ms_build n w h gm fresh src b = FTree regs b' ->
  flood_ok src gm w 0 0 w h 0 regs b' lab ->
  exists R, ms_channel n w h gm fresh src P thr b c = Some (R, FBuf (b_pts b') (b_ext b') (b_lvl b') (mc_dirt c (b_heap b')) (b_hs b')) /\
    ms_records src gm w h P (fo (map ms_lreg regs)) (fun p => (0, lab p)) R /\
    exists s0, ready V (fun p => (0, lab p)) (fo (map ms_lreg regs)) P n One s0.
Proof.
  intros Hn Eb (HT & _ & Hlen & Hreg & Hw). assert (0 < w * h) as Hpos. { destruct HF. nia. }
  assert (ctree V lab (ltable (map ms_lreg regs))) as HT2. { apply ms_table; [|exact HT]. intros i a Ha. by apply (Hreg i a). }
  assert (forall i a, map ms_lreg regs !! i = Some a -> n_flag a = 0 /\ n_gray a < 256) as H0.
  { intros i a Ha. rewrite map_at in Ha. destruct (regs !! i) as [a'|] eqn:Ea; [|done]. injection Ha as <-. cbn. destruct (Hreg i a' Ea) as (_ & _ & Hf). split; auto.
    destruct (ct_own _ _ _ HT i (vreg_of a')) as (p & Hp & Hg & _); [unfold table_of; by rewrite Ea|unfold vreg_of; cbn; by rewrite Hf|].
    cbn in Hg. rewrite <-Hg. by apply level_byte. }
  assert (length (map ms_lreg regs) <= w * h) as Hlen2 by (by rewrite map_length).
  assert (forall i a, map ms_lreg regs !! i = Some a -> is_Some (n_size a)) as Hsz.
  { intros i a Ha. rewrite map_at in Ha. destruct (regs !! i); [|done]. injection Ha as <-. cbn. eauto. }
  destruct (ms_recog_ok src gm w h HF Hgm (modest_cv w h Hmod) (map ms_lreg regs) lab HT2 H0 Hlen2 Hsz P n (mc_var0 c) Hd Hdup ltac:(lia))
    as (regs' & l' & ks & s3 & Er & Hrep & _ & EF & Hfl).
  destruct (ms_extract_top src gm w h HF Hgm Hmod (map ms_lreg regs) lab HT2 H0 Hlen2 Hsz P s3 Hfl n ltac:(lia) (b_pts b') Hw thr (mc_heap0 c)) as (R & Ex & HR1 & HR2).
  exists R. split.
  - unfold ms_channel. rewrite Eb, Er. change (ms_forest regs') with (fo regs'). rewrite <-EF. change (map (pair 0) l') with (pair 0 <$> l').
    rewrite <-Hrep, Ex. done.
  - split; [split; [exact HR1|exact HR2]|]. exists (RSt (fo (map ms_lreg regs)) (fun _ => fzero) (fun _ => false)). apply ready_fo; auto; [by apply modest_cv|lia].
Qed.
End chan.

Section call.
Context (src : list N) (w h : nat) (HM : ms_image src w h) (P : rparam) (Hd : delta_ok P) (Hdup : dup_number P).

Lemma ms_patch : patch_fits src w 0 0 w h.
Proof.
  destruct HM as [[H1 H2 H3 H4 H5] H6 _]. unfold modest_image in H6. constructor; auto; [|lia]. nia.
Qed.
Notation tree gm F lab := (exists fuel s0, ready (lview false w w h (level src gm)) lab F P fuel One s0).
Lemma ms_alloc_ok d : buf_alloc w h (ms_alloc w h d).
Proof. constructor; cbn [ms_alloc b_pts b_ext b_hs b_heap]; rewrite ?replicate_length; auto. Qed.

(* a call returns; both channels hold the same regions whatever the buffers hold *)
Lemma ms_call_ok : exists F0 lab0 F1 lab1, tree 0%N F0 lab0 /\ tree 255%N F1 lab1 /\
  forall n thr b c0 c1 (bright : bool), 6 * (w * h) < n -> buf_alloc w h b -> ms_fair c0 ->
  exists R0 R1, ms_call n w h bright src P thr b c0 c1 = Some (R0, R1) /\ ms_records src 0 w h P F0 lab0 R0 /\
    if bright then ms_records src 255 w h P F1 lab1 R1 else R1 = MRes 0 (fun _ => None) [].
Proof.
  pose proof ms_patch as HP. pose proof HM as [HF Hmod Hmis]. pose proof (misses_both src w h 255 HF (or_intror eq_refl) Hmis) as Hmis2.
  set (n0 := S (6 * (w * h))). assert (6 * (w * h) < n0) as Hn0 by (unfold n0; lia).
  destruct (dark_pass_d true src w 0 0 w h 0 (ms_alloc w h 0) n0 (level src 0) (fun _ _ => eq_refl) HP Hmis (ms_alloc_ok 0) Hn0)
    as (_ & regs & b' & lab & _ & E & Hok & (a & Ha & -> & ->) & _ & Hbt).
  destruct (ms_chan_tree src 0 w h HF (or_introl eq_refl) Hmod P Hd Hdup n0 true _ 0%Z (MsChan (fun _ => fzero) (fun _ => None) id) _ b' _ Hn0 E Hok) as (_ & _ & _ & T0).
  destruct (bright_pass_d true src w 0 0 w h 0 b' n0 (level src 255) (fun _ _ => eq_refl) HP Hmis2 Hbt Hn0)
    as (_ & regs & b2 & lab & _ & E2 & Hok2 & (a2 & Ha2 & -> & ->) & _).
  destruct (ms_chan_tree src 255 w h HF (or_intror eq_refl) Hmod P Hd Hdup n0 false _ 0%Z (MsChan (fun _ => fzero) (fun _ => None) id) _ b2 _ Hn0 E2 Hok2) as (_ & _ & _ & T1).
  eexists _, _, _, _. split; [exists n0; exact T0|]. split; [exists n0; exact T1|]. clear b' E Hok Hbt T0 b2 E2 Hok2 T1.
  intros n thr b c0 c1 bright Hn Hb Hc.
  destruct (dark_pass_d true src w 0 0 w h 0 b n (level src 0) (fun _ _ => eq_refl) HP Hmis Hb Hn) as (_ & regs & b' & lab & _ & E & Hok & (a' & Ha' & -> & ->) & _ & Hbt).
  rewrite (arun_same _ _ _ _ _ _ Ha' Ha) in *.
  destruct (ms_chan_tree src 0 w h HF (or_introl eq_refl) Hmod P Hd Hdup n true b thr c0 _ b' _ Hn E Hok) as (R0 & E0 & HR0 & _).
  unfold ms_call. rewrite E0. destruct bright; [|by eauto].
  pose proof (between_heap w 0 0 w h _ b' _ (Hc (b_heap b')) Hbt) as Hbt2.
  destruct (bright_pass_d true src w 0 0 w h 0 _ n (level src 255) (fun _ _ => eq_refl) HP Hmis2 Hbt2 Hn)
    as (_ & regs2 & b2 & lab2 & _ & E2 & Hok2 & (a2' & Ha2' & -> & ->) & _). rewrite (arun_same _ _ _ _ _ _ Ha2' Ha2) in *.
  destruct (ms_chan_tree src 255 w h HF (or_intror eq_refl) Hmod P Hd Hdup n false _ thr c1 _ b2 _ Hn E2 Hok2) as (R1 & E1 & HR1 & _).
  rewrite E1. eauto.
Qed.
Lemma ms_result_records gm : gm = 0%N \/ gm = 255%N -> exists F lab, tree gm F lab /\ forall R, ms_result src gm w h P R -> ms_records src gm w h P F lab R.
Proof.
  intros Hgm. destruct ms_call_ok as (F0 & lab0 & F1 & lab1 & T0 & T1 & Hcall).
  assert (forall R, ms_result src gm w h P R -> if (gm =? 0)%N then ms_records src 0 w h P F0 lab0 R else ms_records src 255 w h P F1 lab1 R) as H.
  { intros R (n & thr & b & c0 & c1 & R0 & R1 & Hn & Hb & Hc & E & ->). destruct (Hcall n thr b c0 c1 true Hn Hb Hc) as (R0' & R1' & E' & H0 & H1).
    rewrite E in E'. injection E' as <- <-. by destruct (gm =? 0)%N. }
  destruct Hgm as [->| ->]; eauto.
Qed.
End call.

Lemma ms_lists_ext w R j S S' : same_set S S' -> ms_lists w R j S -> ms_lists w R j S'.
Proof.
  intros H (c & L & js & H1 & H2 & [H3 H4] & H5). exists c, L, js. split; [done|]. split; [done|]. split; [|by eapply card_ext].
  split; [done|]. intros q. rewrite H4. split; intros (p & Hp & ->); exists p; split; auto; by apply H.
Qed.
Lemma ms_lists_fun w R j S S' : ms_lists w R j S -> ms_lists w R j S' -> same_set S S'.
Proof.
  intros (c & L & js & H1 & H2 & [_ H4] & _) (c' & L' & js' & G1 & G2 & [_ G4] & _) p. assert (L' = L) as -> by congruence.
  assert (S p <-> pixel w p ∈ L) as ->.
  { rewrite H4. split; [eauto|]. intros (q & Hq & E). by rewrite (px_inj w p q E). }
  rewrite G4. split; [|eauto]. intros (q & Hq & E). by rewrite (px_inj w p q E).
Qed.

Section res.
Context (src : list N) (gm : N) (w h : nat) (HM : ms_image src w h) (Hgm : gm = 0%N \/ gm = 255%N).
Context (P : rparam) (Hd : delta_ok P) (Hdup : dup_number P).
Notation V := (lview false w w h (level src gm)).

Lemma ms_read F lab R : (exists fuel s0, ready V lab F P fuel One s0) -> ms_records src gm w h P F lab R -> forall j z, reported F P One !! j = Some z ->
  live0 F z /\ ms_lists w R j (region_pixels V lab (tab F) z).
Proof.
  intros (fuel & s0 & Hr) [_ Hrec] j z Hz. pose proof (rd_input _ _ _ _ _ _ _ Hr) as HI.
  assert (live0 F z) as Hl by (by eapply l_live, elem_of_list_lookup_2). split; auto.
  destruct (Hrec j z Hz) as (rc & L & js & E1 & E2 & E3 & E4 & _). exists rc, L, js. split; [done|]. split; [done|]. split; [done|].
  rewrite E4. by apply (pix_card V lab F HI).
Qed.

(* the same records whatever the buffers hold and whatever the threshold *)
Lemma ms_unique R R' : ms_result src gm w h P R -> ms_result src gm w h P R' -> length (r_ms R) = length (r_ms R') /\
  forall j rc, r_ms R !! j = Some rc -> exists rc' S, r_ms R' !! j = Some rc' /\ ms_lists w R j S /\ ms_lists w R' j S /\
    ms_gray rc = ms_gray rc' /\ ms_size rc = ms_size rc' /\ ms_rect rc = ms_rect rc'.
Proof.
  intros H H'. destruct (ms_result_records src w h HM P Hd Hdup gm Hgm) as (F & lab & HT & Hall). pose proof (Hall R H) as HR. pose proof (Hall R' H') as HR'.
  split; [rewrite (proj1 HR), (proj1 HR'); done|]. intros j rc Hj. destruct (lookup_lt_is_Some_2 (reported F P One) j) as [z Hz].
  { rewrite <-(proj1 HR). by eapply lookup_lt_Some. }
  destruct (ms_read F lab R HT HR j z Hz) as [_ Hl]. destruct (ms_read F lab R' HT HR' j z Hz) as [_ Hl'].
  destruct (proj2 HR j z Hz) as (rc0 & L & js & E1 & E2 & E3 & E4 & E5 & E6). destruct (proj2 HR' j z Hz) as (rc' & L' & js' & G1 & G2 & G3 & G4 & G5 & G6).
  assert (rc0 = rc) as -> by congruence. exists rc', (region_pixels V lab (tab F) z). split; auto. split; auto. split; auto. split; [congruence|]. split; [congruence|].
  assert (forall q, q ∈ L <-> q ∈ L') as HL by (intros q; rewrite (proj2 E3 q), (proj2 G3 q); done).
  destruct E6 as (A0 & (a1 & A1 & B1) & (a2 & A2 & B2) & (a3 & A3 & B3) & (a4 & A4 & B4)).
  destruct G6 as (C0 & (c1 & C1 & D1) & (c2 & C2 & D2) & (c3 & C3 & D3) & (c4 & C4 & D4)).
  apply HL in A1, A2, A3, A4. pose proof (C0 _ A1). pose proof (C0 _ A2). pose proof (C0 _ A3). pose proof (C0 _ A4).
  apply HL in C1, C2, C3, C4. pose proof (A0 _ C1). pose proof (A0 _ C2). pose proof (A0 _ C3). pose proof (A0 _ C4).
  destruct (ms_rect rc), (ms_rect rc'). cbn in *. f_equal; lia.
Qed.

Context (R : mres) (HR : ms_result src gm w h P R).

Lemma ms_reports : exists F lab, (exists fuel s0, ready V lab F P fuel One s0) /\ ms_records src gm w h P F lab R /\
  forall S, (exists j, ms_lists w R j S) <-> reports V lab F (reported F P One) S.
Proof.
  destruct (ms_result_records src w h HM P Hd Hdup gm Hgm) as (F & lab & HT & Hall). pose proof (Hall R HR) as Hrec. exists F, lab. split; auto. split; auto.
  intros S. split.
  - intros (j & Hj). pose proof Hj as (rc & L & js & H1 & _). destruct (lookup_lt_is_Some_2 (reported F P One) j) as [z Hz]; [rewrite <-(proj1 Hrec); by eapply lookup_lt_Some|].
    exists z. split; [by eapply elem_of_list_lookup_2|]. intros p. apply (ms_lists_fun w R j); auto. by apply (ms_read F lab R HT Hrec).
  - intros (z & Hz & Hp). apply elem_of_list_lookup in Hz as [j Hj]. exists j. eapply ms_lists_ext; [|by apply (ms_read F lab R HT Hrec j z)]. intros p. by rewrite Hp.
Qed.

(* every record lists an extremal region *)
Lemma ms_extremal j rc : r_ms R !! j = Some rc -> exists g S L js, extremal V g S /\ ms_lists w R j S /\ ms_gray rc = N.lxor (N.of_nat g) gm /\
  ms_visit (length (r_ms R)) R [j] = Some (L, js) /\ bounding L (ms_rect rc).
Proof.
  intros Hj. destruct ms_reports as (F & lab & HT & Hrec & _). pose proof HT as (fuel & s0 & Hr). pose proof (rd_input _ _ _ _ _ _ _ Hr) as HI.
  destruct (lookup_lt_is_Some_2 (reported F P One) j) as [z Hz]. { rewrite <-(proj1 Hrec). by eapply lookup_lt_Some. }
  destruct (ms_read F lab R HT Hrec j z Hz) as [Hzl Hls]. destruct (proj2 Hrec j z Hz) as (rc' & L & js & E1 & E2 & _ & _ & E5 & E6).
  assert (rc' = rc) as -> by congruence.
  destruct (tree_extremal V lab (tab F) (ri_sym _ _ _ HI) (ri_tree _ _ _ HI)) as (Hx & _).
  destruct (live_alive F z Hzl) as (a & [Ha1 Ha2] & Ea & _). exists (v_gray a), (region_pixels V lab (tab F) z), L, js.
  split; [by apply Hx|]. split; auto. rewrite Ea. auto.
Qed.

Lemma ms_pixel p : vw_in V p -> exists v, src !! p = Some v /\ (v < 256)%N /\ vw_gray V p = N.to_nat (N.lxor v gm).
Proof. exact (cv_pixel false src gm w w h (mi_fits _ _ _ HM) Hgm p). Qed.
Lemma ms_level j rc S : r_ms R !! j = Some rc -> ms_lists w R j S -> if (gm =? 0)%N then max_on src S (ms_gray rc) else min_on src S (ms_gray rc).
Proof.
  intros Hj HS. destruct (ms_extremal j rc Hj) as (g & S' & _ & _ & Hx & HS' & Eg & _). pose proof (ms_lists_fun w R j S' S HS' HS) as HSS.
  destruct (extremal_top _ _ _ Hx) as [(p & Hp & Hin & E) Hle]. rewrite Eg. destruct (ms_pixel p Hin) as (v & Hv & Hb & Ev). rewrite E in Ev. rewrite Ev.
  assert (forall q u, S q -> src !! q = Some u -> (u < 256)%N /\ N.to_nat (N.lxor u gm) <= g) as Hall.
  { intros q u Hq Hu. apply HSS in Hq. pose proof (Hle q Hq) as H.
    destruct (ms_pixel q) as (u' & Hu' & Hb' & Eu). { destruct Hx as (p0 & _ & _ & HS0). apply HS0 in Hq. by destruct Hq as (_ & ? & _). }
    assert (u' = u) as -> by congruence. split; auto. by rewrite <-Eu. }
  destruct Hgm as [E0|E0]; rewrite E0 in *; cbn [N.eqb].
  - rewrite !N.lxor_0_r, N2Nat.id in *. split; [exists p; split; [by apply HSS|done]|]. intros q u Hq Hu. destruct (Hall q u Hq Hu) as [_ H]. rewrite N.lxor_0_r in H. lia.
  - rewrite N2Nat.id, N.lxor_assoc, N.lxor_nilpotent, N.lxor_0_r. split; [exists p; split; [by apply HSS|done]|].
    intros q u Hq Hu. destruct (Hall q u Hq Hu) as [Hb' H]. rewrite lxor_byte in H by auto. rewrite lxor_byte in Ev by auto. lia.
Qed.

Lemma ms_differ i j S : ms_lists w R i S -> ms_lists w R j S -> i = j.
Proof.
  intros Hi Hj. destruct ms_reports as (F & lab & HT & Hrec & _). pose proof HT as (fuel & s0 & Hr). pose proof (rd_input _ _ _ _ _ _ _ Hr) as HI.
  assert (forall i, ms_lists w R i S -> exists z, reported F P One !! i = Some z /\ live0 F z /\ same_set (region_pixels V lab (tab F) z) S) as Hat.
  { clear i j Hi Hj. intros i Hi. pose proof Hi as (rc & L & js & H1 & _). destruct (lookup_lt_is_Some_2 (reported F P One) i) as [z Hz]; [rewrite <-(proj1 Hrec); by eapply lookup_lt_Some|].
    destruct (ms_read F lab R HT Hrec i z Hz) as (Hzl & Hls). exists z. split; auto. split; auto. by apply (ms_lists_fun w R i). }
  destruct (Hat i Hi) as (x & Hxi & Lx & Hsx). destruct (Hat j Hj) as (y & Hyj & Ly & Hsy).
  assert (x = y) as <-; [|eapply NoDup_lookup; [apply l_NoDup| |]; eauto].
  destruct (pix_own V lab F HI x Lx) as (p & Hp & Gp). destruct (pix_own V lab F HI y Ly) as (q & Hq & Gq).
  assert (region_pixels V lab (tab F) y p) as Hp' by (by apply Hsy, Hsx). assert (region_pixels V lab (tab F) x q) as Hq' by (by apply Hsx, Hsy).
  pose proof (pix_gray V lab F HI y p Ly Hp'). pose proof (pix_gray V lab F HI x q Lx Hq').
  apply (level_once V lab F HI x y p); auto. lia.
Qed.

Lemma ms_limits j rc S : r_ms R !! j = Some rc -> ms_lists w R j S ->
  (p_min P <= Z.of_nat (ms_size rc) <= p_max P)%Z /\ exists p, vw_in V p /\ ~ S p.
Proof.
  intros Hj HS. destruct ms_reports as (F & lab & HT & Hrec & _). pose proof HT as (fuel & s0 & Hr). pose proof (rd_input _ _ _ _ _ _ _ Hr) as HI.
  destruct (lookup_lt_is_Some_2 (reported F P One) j) as [z Hz]; [rewrite <-(proj1 Hrec); by eapply lookup_lt_Some|].
  destruct (ms_read F lab R HT Hrec j z Hz) as (Hl & Hls). destruct (proj2 Hrec j z Hz) as (rc' & L & js & E1 & _ & _ & E4 & _).
  assert (rc' = rc) as -> by congruence. pose proof (ms_lists_fun w R j _ _ Hls HS) as HSS.
  assert (flags F P One z = 0) as Hf. { apply elem_of_list_lookup_2 in Hz. apply (elem_reported V lab F HI P One z) in Hz. tauto. }
  destruct (flags_limits V lab F HI P One z Hl Hf) as [Hlim Hsz]. rewrite E4. split; auto.
  destruct Hlim as (_ & _ & _ & _ & t & Ht). pose proof (input_start V lab F HI) as H0.
  apply (sparent_RP F H0 z t) in Ht as [_ Ht]. destruct (live0_RP F H0 z t Hl Ht) as [Hlt Hg].
  destruct (pix_own V lab F HI t Hlt) as (p & Hp & Hgp). exists p. split; [apply Hp|].
  intros Hc%HSS. pose proof (pix_gray V lab F HI z p Hl Hc). lia.
Qed.

(* the records are the regions the serial recognition of the same tree reports *)
Lemma ms_recognized : exists F lab fuel s0, ready V lab F P fuel One s0 /\ forall b, exists s l k b', recognize fuel One P b s0 = Some (s, l, k, b') /\
    length (r_ms R) = length l /\ (forall j z, l !! j = Some z -> live0 F z /\ ms_lists w R j (region_pixels V lab (tab F) z)) /\
    forall S, (exists j, ms_lists w R j S) <-> reports V lab F l S.
Proof.
  destruct ms_reports as (F & lab & HT & Hrec & Hiff). pose proof HT as (fuel & s0 & Hr). exists F, lab, fuel, s0. split; auto.
  intros b. destruct (run_recognize _ _ _ _ _ _ _ Hr b) as (s & Er & _). eexists s, (reported F P One), _, _. split; [exact Er|].
  split; [apply Hrec|]. split; [|exact Hiff]. intros j z Hz. by apply (ms_read F lab R HT Hrec).
Qed.

Lemma ms_apart i j S S' : below1 (p_dup P) -> ms_lists w R i S -> ms_lists w R j S' -> i <> j ->
  (forall p, S p -> S' p) -> exceeds (p_dup P) S S'.
Proof.
  intros Hb1 Hi Hj Hne Hsub. destruct ms_recognized as (F & lab & fuel & s0 & Hr & Hrec).
  destruct (Hrec (CBuf 0 0)) as (s & l & k & b' & Er & Hlen & Hl & Hiff).
  destruct (apart_ok _ _ _ _ _ _ _ Hr (CBuf 0 0) Hb1) as (s' & l' & n' & b2 & Er' & Hap). assert (l' = l) as -> by congruence.
  destruct (proj1 (Hiff S)) as (x & Hx & Hxs); [eauto|]. destruct (proj1 (Hiff S')) as (y & Hy & Hys); [eauto|].
  assert (x <> y) as Hxy. { intros ->. apply Hne. eapply ms_differ; [exact Hi|]. eapply ms_lists_ext; [|exact Hj]. intros p. by rewrite Hys, Hxs. }
  destruct (Hap x y Hx Hy Hxy) as (n & k' & H1 & H2 & H3). { intros p Hp. apply Hys, Hsub, Hxs, Hp. }
  exists n, k'. split; [|split; [|done]]; (eapply card_ext; [|eassumption]); intros p; symmetry; auto.
Qed.

Lemma ms_msers d : (p_delta P = Z.of_nat d)%Z -> sane P -> fge fzero (p_dup P) = true ->
  (forall j rc, r_ms R !! j = Some rc -> exists g S, mser V P d g S /\ ms_lists w R j S /\ ms_gray rc = N.lxor (N.of_nat g) gm) /\
  forall g S, mser V P d g S -> exists j, ms_lists w R j S.
Proof.
  intros Hdd Hs Hdup0. destruct ms_recognized as (F & lab & fuel & s0 & Hr & Hrec).
  destruct (Hrec (CBuf 0 0)) as (s & l & k & b' & Er & Hlen & Hl & Hiff).
  destruct (reported_msers _ _ _ _ _ _ _ d (CBuf 0 0) Hr Hdd Hs Hdup0) as (s' & l' & n' & b2 & Er' & H1 & H2). assert (l' = l) as -> by congruence.
  split; [|intros g S HS; apply Hiff; by eapply H2].
  intros j rc Hj. destruct (lookup_lt_is_Some_2 l j) as [z Hz]. { rewrite <-Hlen. by eapply lookup_lt_Some. }
  destruct (H1 z) as (a & Ha & Hm); [by eapply elem_of_list_lookup_2|]. destruct (Hl j z Hz) as [_ Hzl].
  exists (v_gray a), (region_pixels V lab (tab F) z). split; auto. split; auto.
  destruct (ms_extremal j rc Hj) as (g & S & _ & _ & Hx & HS & -> & _). do 2 f_equal. eapply extremal_level; [exact Hx|].
  destruct Hm as [Hcomp _]. destruct Hcomp as (p0 & E1 & E2 & E3). exists p0. split; auto. split; auto. intros p. rewrite <-E3.
  apply (ms_lists_fun w R j); auto.
Qed.
End res.

(* MS-MSER and CV-MSER+ with four neighbours *)
Lemma ms_same_as_cv src gm w h P Rc R : ms_image src w h -> gm = 0%N \/ gm = 255%N -> delta_ok P ->
  cv_result false src gm w w h P Rc -> ms_result src gm w h P R -> sane P -> below1 (p_dup P) ->
  length (cv_ms Rc) = length (r_ms R) /\ forall S, (exists j, cv_lists w Rc j S) <-> exists j, ms_lists w R j S.
Proof.
  intros HM Hgm Hd H1 H2 Hs Hb. pose proof HM as [HF Hmod _]. pose proof (dup_cases P Hb) as Hdup.
  destruct (cv_recognized false src gm w w h HF Hgm (modest_cv w h Hmod) P Hd Rc H1 Hdup) as (F' & lab' & fuel' & s0' & HR' & Hrec').
  destruct (ms_recognized src gm w h HM Hgm P Hd Hdup R H2) as (F & lab & fuel & s0 & HR & Hrec).
  destruct (Hrec (CBuf 0 0)) as (s & l & k & b' & Er & Hlen & _ & Hiff). destruct (Hrec' (CBuf 0 0)) as (s' & l' & k' & b'' & Er' & Hlen' & _ & Hiff').
  pose proof (ready_more _ _ _ _ _ _ _ (max fuel fuel') HR ltac:(lia)) as HRm. pose proof (ready_more _ _ _ _ _ _ _ (max fuel fuel') HR' ltac:(lia)) as HRm'.
  destruct (threads_free _ _ _ _ _ _ _ _ _ _ _ (CBuf 0 0) (CBuf 0 0) HRm HRm' Hs Hb) as (t1 & m1 & n1 & d1 & t2 & m2 & n2 & d2 & G1 & G2 & Hn & Hre).
  destruct (RecogResults.count_ok _ _ _ _ _ _ _ HRm (CBuf 0 0)) as (? & ? & ? & ? & G3 & C1 & _). destruct (RecogResults.count_ok _ _ _ _ _ _ _ HRm' (CBuf 0 0)) as (? & ? & ? & ? & G4 & C2 & _).
  destruct (run_recognize _ _ _ _ _ _ _ HR (CBuf 0 0)) as (? & K1 & _). destruct (run_recognize _ _ _ _ _ _ _ HR' (CBuf 0 0)) as (? & K2 & _).
  destruct (run_recognize _ _ _ _ _ _ _ HRm (CBuf 0 0)) as (? & K3 & _). destruct (run_recognize _ _ _ _ _ _ _ HRm' (CBuf 0 0)) as (? & K4 & _).
  assert (m1 = l) as -> by congruence. assert (m2 = l') as -> by congruence. split; [congruence|].
  intros S. by rewrite Hiff, Hiff', Hre.
Qed.
(* MS-MSER and Fast MSER V2 *)
Lemma ms_same_as_v2 src gm w h fuel P c b Rv R : image_fits 2 2 src w h -> ms_image src w h -> gm = 0%N \/ gm = 255%N -> delta_ok P ->
  channel_result src gm w h fuel P c b Rv -> ms_result src gm w h P R -> sane P -> below1 (p_dup P) ->
  length (r_ms Rv) = length (r_ms R) /\ forall S, (exists j, lists_record w Rv j S) <-> exists j, ms_lists w R j S.
Proof.
  intros HV HM Hgm Hd H1 H2 Hs Hb. pose proof HM as [HF Hmod _].
  destruct (one_result false src gm w w h HF Hgm (modest_cv w h Hmod) P Hd) as (Rc & Hc & _).
  destruct (ms_same_as_cv src gm w h P Rc R HM Hgm Hd Hc H2 Hs Hb) as [E1 E2].
  destruct (cv_same_as_v2 src gm w h fuel P c b Rv Rc HV Hmod Hgm H1 Hc Hs Hb) as [E3 E4].
  split; [congruence|]. intros S. by rewrite E4, E2.
Qed.
(* the trees of both passes *)
Lemma ms_trees src w h n b : ms_image src w h -> 6 * (w * h) < n -> buf_alloc w h b ->
  exists regs b' lab, ms_build n w h 0 true src b = FTree regs b' /\ flood_ok src 0 w 0 0 w h 0 regs b' lab /\
    forall q, length q = length (b_heap b') -> exists regs2 b2 lab2,
      ms_build n w h 255 false src (FBuf (b_pts b') (b_ext b') (b_lvl b') q (b_hs b')) = FTree regs2 b2 /\ flood_ok src 255 w 0 0 w h 0 regs2 b2 lab2.
Proof.
  intros HM Hn Hb. pose proof (ms_patch src w h HM) as HP. pose proof HM as [HF Hmod Hmis].
  destruct (dark_pass_d true src w 0 0 w h 0 b n (level src 0) (fun _ _ => eq_refl) HP Hmis Hb Hn) as (_ & regs & b' & lab & _ & E & Hok & _ & _ & Hbt).
  exists regs, b', lab. split; [exact E|]. split; [exact Hok|]. intros q Hq.
  destruct (bright_pass_d true src w 0 0 w h 0 _ n (level src 255) (fun _ _ => eq_refl) HP (misses_both src w h 255 HF (or_intror eq_refl) Hmis)
    (between_heap w 0 0 w h _ b' q Hq Hbt) Hn) as (_ & regs2 & b2 & lab2 & _ & E2 & Hok2 & _). eauto.
Qed.
(* a call returns results *)
Lemma ms_total src w h P n thr b c0 c1 : ms_image src w h -> delta_ok P -> dup_number P -> 6 * (w * h) < n -> buf_alloc w h b -> ms_fair c0 ->
  exists R0 R1, ms_call n w h true src P thr b c0 c1 = Some (R0, R1) /\ ms_result src 0 w h P R0 /\ ms_result src 255 w h P R1 /\
    ms_call n w h false src P thr b c0 c1 = Some (R0, MRes 0 (fun _ => None) []).
Proof.
  intros HM Hd Hdup Hn Hb Hc. destruct (ms_call_ok src w h HM P Hd Hdup) as (F0 & lab0 & F1 & lab1 & _ & _ & H).
  destruct (H n thr b c0 c1 true Hn Hb Hc) as (R0 & R1 & E & _). exists R0, R1. split; [exact E|].
  split; [exists n, thr, b, c0, c1, R0, R1; auto|]. split; [exists n, thr, b, c0, c1, R0, R1; auto|].
  unfold ms_call in E |- *. destruct (ms_channel _ _ _ _ _ _ _ _ _ _) as [[R0' b1]|]; [|done].
  destruct (ms_channel _ _ _ _ _ _ _ _ _ _) as [[R1' b2]|]; [|done]. congruence.
Qed.
