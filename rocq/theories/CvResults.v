(* What the result of a CV-MSER+ call says about the image. *)
From stdpp Require Import sorting relations functions list_numbers list.
From Coq Require Import NArith ZArith SpecFloat.
From Verif Require Import Spec TreeSpec TreeFacts JoinMath JoinCorrect Grid FloodModel FloodInit FloodTree FloodCorrect ConnectModel ConnectProof PartModel
  WholeModel WholeProof WholeCorrect FloatModel FloatFacts RecogModel RecogSpec RecogStatic RecogTree RecogCompose RecogFinal RecogTransport
  RecogResults RecogPixels DetectModel Detect RectModel RectFacts ExtractModel ExtractDecode ExtractTop RunModel RunCorrect RunResults
  LinkedModel LinkedGrid LinkedInit LinkedCorrect CvModel CvRecog CvExtract CvCorrect.
Local Open Scope nat_scope.

(* SPEC: record j of a result lists the set S of pixels, with its size *)
Definition cv_lists (step : nat) (R : cvres) (j : nat) (S : nat -> Prop) : Prop :=
  exists c L, cv_ms R !! j = Some c /\ cv_read R c = Some L /\ lists_set step S L /\ card_is S (cr_size c).
(* SPEC: the memory of a result is completely written, the records lie one after the
   other in it, and nothing is left over *)
Definition cv_packed (R : cvres) : Prop :=
  (forall o, o ∈ cv_mem R -> is_Some o) /\
  (forall j c, cv_ms R !! j = Some c -> cr_pts c = sum_list (map cr_size (take j (cv_ms R)))) /\
  length (cv_mem R) = sum_list (map cr_size (cv_ms R)).
(* SPEC: R is what one channel of a call returns, for some contents of the buffers;
   e: eight neighbours, gm: 0 dark, 255 bright *)
Definition cv_result (e : bool) (src : list N) (gm : N) (step w h : nat) (P : rparam) (R : cvres) : Prop :=
  exists n b c b', (if e then 10 else 6) * (w * h) < n /\ lbuf_ok w h b /\ fair_dirt c /\
    cv_channel n (lcfgn e w h) gm src step P b c = Some (R, b').

Lemma take_map {A B} (f : A -> B) j l : take j (map f l) = map f (take j l).
Proof. symmetry. apply (fmap_take f). Qed.
Lemma fuel_deg (e : bool) k n : (if e then 10 else 6) * k < n -> (ldeg e + 2) * k < n.
Proof. by destruct e. Qed.

Section res.
Context (e : bool) (src : list N) (gm : N) (step w h : nat).
Context (HF : limg_fits src step w h) (Hgm : gm = 0%N \/ gm = 255%N) (Hmod : cv_modest w h).
Context (P : rparam) (Hd : delta_ok P).
Notation V := (lview e step w h (level src gm)).

Lemma result_is F lab Lof R : channel_tree e src gm step w h F lab Lof -> cv_result e src gm step w h P R -> R = chan_res gm step F P Lof.
Proof.
  intros HC (n & b & c & b' & Hn & Hb & Hc & E). destruct (ch_run _ _ _ _ _ _ _ _ _ HC P n b c Hd Hb (fuel_deg _ _ _ Hn) Hc) as (b2 & E2 & _). congruence.
Qed.

(* one result for all contents of the buffers *)
Lemma one_result : exists R, cv_result e src gm step w h P R /\
  forall n b c, (if e then 10 else 6) * (w * h) < n -> lbuf_ok w h b -> fair_dirt c ->
  exists b', cv_channel n (lcfgn e w h) gm src step P b c = Some (R, b') /\ lbuf_ok w h b'.
Proof.
  destruct (channel_ok e src gm step w h HF Hgm Hmod) as (F & lab & Lof & HC).
  assert (forall n b c, (if e then 10 else 6) * (w * h) < n -> lbuf_ok w h b -> fair_dirt c ->
    exists b', cv_channel n (lcfgn e w h) gm src step P b c = Some (chan_res gm step F P Lof, b') /\ lbuf_ok w h b') as H.
  { intros n b c Hn Hb Hc. by apply (ch_run _ _ _ _ _ _ _ _ _ HC P n b c Hd Hb (fuel_deg _ _ _ Hn) Hc). }
  exists (chan_res gm step F P Lof). split; [|exact H].
  destruct (H (S ((if e then 10 else 6) * (w * h))) (lalloc_buf w h 0%N) (CvChan (fun _ => fzero) id)) as (b' & E & _); [lia|apply alloc_buf_ok|done|].
  eexists _, _, _, b'. split; [|split; [|split; [|exact E]]]; [lia|apply alloc_buf_ok|done].
Qed.

Context (R : cvres) (HR : cv_result e src gm step w h P R).

Lemma cv_step_pos : 0 < step.
Proof. clear HR. destruct HF. lia. Qed.

(* the records and the tree *)
Lemma cv_reports : exists F lab fuel s0, ready V lab F P fuel One s0 /\ NoDup (cvl F P) /\
  (fgt (p_dup P) fzero = true \/ fge fzero (p_dup P) = true -> cvl F P = reported F P One) /\
  length (cv_ms R) = length (cvl F P) /\ cv_packed R /\
  forall j z, cvl F P !! j = Some z -> live0 F z /\ flags F P One z = 0 /\
    cv_lists step R j (region_pixels V lab (tab F) z) /\
    exists rc L, cv_ms R !! j = Some rc /\ cv_read R rc = Some L /\ cr_gray rc = out_gray gm (gray0 F z) /\ cr_size rc = size0 F z /\ bounding L (cr_rect rc).
Proof.
  pose proof cv_step_pos as Hstep.
  destruct (channel_ok e src gm step w h HF Hgm Hmod) as (F & lab & Lof & HC). pose proof (result_is F lab Lof R HC HR) as ->.
  destruct HC as [HI Hreg HL Hcvl Hnd Hrep _]. exists F, lab, (S (nregs F)), (RSt F (fun _ => fzero) (fun _ => false)).
  set (Ls := map (fun z => map (pixel_xy step) (Lof z)) (cvl F P)). set (gs := map (gray0 F) (cvl F P)).
  assert (length gs = length Ls) as Hlen by (unfold gs, Ls; by rewrite !map_length).
  split. { constructor; auto. done. }
  split; [apply Hnd|]. split; [apply Hrep|]. unfold chan_res. fold Ls. fold gs. cbn [cv_ms cv_mem].
  split; [rewrite recs_length by auto; unfold gs; by rewrite map_length|]. split.
  - assert (forall gs Ls off, length gs = length Ls -> map cr_size (recs_of gm off gs Ls) = map length Ls) as Hsz.
    { clear. induction gs as [|g gs IH]; intros [|L Ls] off H; try done. cbn. f_equal. apply IH. cbn in H. lia. }
    assert (forall Ls : list (list (Z * Z)), length (concat Ls) = sum_list (map length Ls)) as Hcat.
    { clear. induction Ls as [|L Ls IH]; [done|]. cbn [concat map]. rewrite app_length, IH. done. }
    split; [|split]; cbn [cv_mem cv_ms].
    + intros o Ho. apply elem_of_list_fmap in Ho as (q & -> & _). eauto.
    + intros j c Hj. destruct (lookup_lt_is_Some_2 gs j) as [g Hg]. { rewrite <-(recs_length gm 0 gs Ls) by auto. by eapply lookup_lt_Some. }
      destruct (lookup_lt_is_Some_2 Ls j) as [L HLj]. { rewrite <-Hlen. by eapply lookup_lt_Some. }
      rewrite (recs_lookup gm gs Ls j g L Hg HLj 0) in Hj. injection Hj as <-. cbn [cr_pts Nat.add].
      rewrite Hcat, <-!take_map. rewrite Hsz by auto. done.
    + rewrite fmap_length, Hcat, Hsz by auto. done.
  - intros j z Hz. destruct (Hcvl P z) as [Hzl Hzf]; [by eapply elem_of_list_lookup_2|]. split; auto. split; auto.
    destruct (HL z Hzl) as (N1 & N2 & N3).
    assert (gs !! j = Some (gray0 F z)) as Hg by (unfold gs; by rewrite map_at, Hz).
    assert (Ls !! j = Some (map (pixel_xy step) (Lof z))) as HLj by (unfold Ls; by rewrite map_at, Hz).
    destruct (read_ok gm gs Ls j _ _ Hg HLj Hlen) as (rc & E1 & E2 & E3 & E4 & E5 & E6). rewrite map_length in E3. split.
    + exists rc, (map (pixel_xy step) (Lof z)). split; [done|]. split; [done|]. split; [split|].
      * apply NoDup_fmap_2_strong; auto. intros p q _ _. by apply pixel_inj.
      * intros q. change (map ?f ?x) with (f <$> x). rewrite elem_of_list_fmap. split; intros (p & H1 & H2); exists p; [split; [by apply N3|done]|split; [done|by apply N3]].
      * rewrite E3. exists (Lof z). auto.
    + exists rc, (map (pixel_xy step) (Lof z)). split; auto. split; auto. split; auto. split; [congruence|]. rewrite E4. apply box_bounding.
      destruct (pix_own V lab F HI z Hzl) as (p & Hp & _). apply N3 in Hp. destruct (Lof z); [by apply elem_of_nil in Hp|done].
Qed.

Lemma cv_lists_ext j S S' : same_set S S' -> cv_lists step R j S -> cv_lists step R j S'.
Proof.
  clear. intros H (c & L & H1 & H2 & [H3 H4] & H5). exists c, L. split; [done|]. split; [done|]. split; [|by eapply card_ext].
  split; [done|]. intros q. rewrite H4. split; intros (p & Hp & ->); exists p; split; auto; by apply H.
Qed.
Lemma cv_lists_fun j S S' : cv_lists step R j S -> cv_lists step R j S' -> same_set S S'.
Proof.
  pose proof cv_step_pos as Hs. clear -Hs. intros (c & L & H1 & H2 & [_ H4] & _) (c' & L' & G1 & G2 & [_ G4] & _) p. assert (L' = L) as -> by congruence.
  assert (S p <-> pixel step p ∈ L) as ->.
  { rewrite H4. split; [eauto|]. intros (q & Hq & E). by rewrite (pixel_inj step p q Hs E). }
  rewrite G4. split; [|eauto]. intros (q & Hq & E). by rewrite (pixel_inj step p q Hs E).
Qed.

Lemma cv_packed_ok : cv_packed R.
Proof. by destruct cv_reports as (F & lab & fuel & s0 & _ & _ & _ & _ & H & _). Qed.

(* every record lists an extremal region *)
Lemma cv_extremal j rc : cv_ms R !! j = Some rc -> exists g S L, extremal V g S /\ cv_lists step R j S /\ cr_gray rc = out_gray gm g /\
  cv_read R rc = Some L /\ bounding L (cr_rect rc).
Proof.
  intros Hj. destruct cv_reports as (F & lab & fuel & s0 & Hr & _ & _ & Hlen & _ & Hrec).
  pose proof (rd_input _ _ _ _ _ _ _ Hr) as HI. destruct (lookup_lt_is_Some_2 (cvl F P) j) as [z Hz]. { rewrite <-Hlen. by eapply lookup_lt_Some. }
  destruct (Hrec j z Hz) as (Hzl & _ & Hls & rc' & L & E1 & E2 & E3 & E4 & E5). assert (rc' = rc) as -> by congruence.
  destruct (tree_extremal V lab (tab F) (ri_sym _ _ _ HI) (ri_tree _ _ _ HI)) as (Hx & _).
  destruct (live_alive F z Hzl) as (a & [Ha1 Ha2] & Ea & _). exists (v_gray a), (region_pixels V lab (tab F) z), L.
  split; [by apply Hx|]. split; auto. rewrite Ea. auto.
Qed.

Lemma cv_pixel p : vw_in V p -> exists v, src !! p = Some v /\ (v < 256)%N /\ vw_gray V p = N.to_nat (N.lxor v gm).
Proof.
  intros Hp. clear HR. pose proof HF as [Hw Hh Hfit Hlen Hbyte]. cbn [vw_in lview] in Hp. unfold in_rect in Hp.
  destruct (lookup_lt_is_Some_2 src p) as [v Hv].
  { pose proof (Nat.div_mod p step ltac:(lia)) as E. destruct Hp as [H1 H2]. assert (step * (p / step) <= step * (h - 1)) by (apply Nat.mul_le_mono_l; lia). nia. }
  exists v. split; auto. split; [by eapply Hbyte|]. cbn. unfold level. by rewrite (nth_lookup_Some _ _ _ _ Hv).
Qed.

Lemma cv_level_dark j rc S : gm = 0%N -> cv_ms R !! j = Some rc -> cv_lists step R j S -> max_on src S (N.of_nat (cr_gray rc)).
Proof.
  intros E0 Hj HS. destruct (cv_extremal j rc Hj) as (g & S' & _ & Hx & HS' & Eg & _). pose proof (cv_lists_fun j S' S HS' HS) as HSS.
  destruct (extremal_top _ _ _ Hx) as [(p & Hp & Hin & E) Hle]. rewrite Eg. unfold out_gray. rewrite E0. cbn [N.eqb]. split.
  - exists p. split; [by apply HSS|]. destruct (cv_pixel p Hin) as (v & -> & _ & Ev). rewrite E, E0, N.lxor_0_r in Ev. f_equal. lia.
  - intros q v Hq Hv. apply HSS in Hq. pose proof (Hle q Hq) as H.
    destruct (cv_pixel q) as (v' & Hv' & _ & Ev). { destruct Hx as (p0 & _ & _ & HS0). apply HS0 in Hq. by destruct Hq as (_ & ? & _). }
    rewrite Ev, E0, N.lxor_0_r in H. assert (v' = v) as -> by congruence. lia.
Qed.
Lemma cv_level_bright j rc S : gm = 255%N -> cv_ms R !! j = Some rc -> cv_lists step R j S -> min_on src S (N.of_nat (cr_gray rc)).
Proof.
  intros E0 Hj HS. destruct (cv_extremal j rc Hj) as (g & S' & _ & Hx & HS' & Eg & _). pose proof (cv_lists_fun j S' S HS' HS) as HSS.
  destruct (extremal_top _ _ _ Hx) as [(p & Hp & Hin & E) Hle]. rewrite Eg. unfold out_gray. rewrite E0. cbn [N.eqb].
  destruct (cv_pixel p Hin) as (v & Hv & Hb & Ev). rewrite E, E0, lxor_byte in Ev by auto. split.
  - exists p. split; [by apply HSS|]. rewrite Hv. f_equal. lia.
  - intros q u Hq Hu. apply HSS in Hq. pose proof (Hle q Hq) as H.
    destruct (cv_pixel q) as (u' & Hu' & Hb' & Eu). { destruct Hx as (p0 & _ & _ & HS0). apply HS0 in Hq. by destruct Hq as (_ & ? & _). }
    rewrite Eu, E0, lxor_byte in H by auto. assert (u' = u) as -> by congruence. lia.
Qed.

(* the sets listed by the records *)
Lemma cv_sets F lab : (forall j z, cvl F P !! j = Some z -> cv_lists step R j (region_pixels V lab (tab F) z)) ->
  length (cv_ms R) = length (cvl F P) ->
  forall S, (exists j, cv_lists step R j S) <-> reports V lab F (cvl F P) S.
Proof.
  intros Hrec Hlen S. split.
  - intros (j & Hj). pose proof Hj as (rc & L & H1 & _). destruct (lookup_lt_is_Some_2 (cvl F P) j) as [z Hz]; [rewrite <-Hlen; by eapply lookup_lt_Some|].
    exists z. split; [by eapply elem_of_list_lookup_2|]. intros p. apply (cv_lists_fun j); auto.
  - intros (z & Hz & Hp). apply elem_of_list_lookup in Hz as [j Hj]. exists j. eapply cv_lists_ext; [|by apply Hrec]. intros p. by rewrite Hp.
Qed.

Lemma cv_differ i j S : cv_lists step R i S -> cv_lists step R j S -> i = j.
Proof.
  intros Hi Hj. destruct cv_reports as (F & lab & fuel & s0 & Hr & Hnd & _ & Hlen & _ & Hrec).
  pose proof (rd_input _ _ _ _ _ _ _ Hr) as HI.
  assert (forall i, cv_lists step R i S -> exists z, cvl F P !! i = Some z /\ live0 F z /\ same_set (region_pixels V lab (tab F) z) S) as Hat.
  { clear i j Hi Hj. intros i Hi. pose proof Hi as (rc & L & H1 & _). destruct (lookup_lt_is_Some_2 (cvl F P) i) as [z Hz]; [rewrite <-Hlen; by eapply lookup_lt_Some|].
    destruct (Hrec i z Hz) as (Hzl & _ & Hls & _). exists z. split; auto. split; auto. by apply (cv_lists_fun i). }
  destruct (Hat i Hi) as (x & Hxi & Lx & Hsx). destruct (Hat j Hj) as (y & Hyj & Ly & Hsy).
  assert (x = y) as <-; [|by eapply NoDup_lookup].
  destruct (pix_own V lab F HI x Lx) as (p & Hp & Gp). destruct (pix_own V lab F HI y Ly) as (q & Hq & Gq).
  assert (region_pixels V lab (tab F) y p) as Hp' by (by apply Hsy, Hsx). assert (region_pixels V lab (tab F) x q) as Hq' by (by apply Hsx, Hsy).
  pose proof (pix_gray V lab F HI y p Ly Hp'). pose proof (pix_gray V lab F HI x q Lx Hq').
  apply (level_once V lab F HI x y p); auto. lia.
Qed.

Lemma cv_limits j rc S : cv_ms R !! j = Some rc -> cv_lists step R j S ->
  (p_min P <= Z.of_nat (cr_size rc) <= p_max P)%Z /\ exists p, vw_in V p /\ ~ S p.
Proof.
  intros Hj HS. destruct cv_reports as (F & lab & fuel & s0 & Hr & Hnd & _ & Hlen & _ & Hrec).
  pose proof (rd_input _ _ _ _ _ _ _ Hr) as HI. destruct (lookup_lt_is_Some_2 (cvl F P) j) as [z Hz]; [rewrite <-Hlen; by eapply lookup_lt_Some|].
  destruct (Hrec j z Hz) as (Hl & Hf & Hls & rc' & L & E1 & _ & _ & E4 & _). assert (rc' = rc) as -> by congruence. pose proof (cv_lists_fun j _ _ Hls HS) as HSS.
  destruct (flags_limits V lab F HI P One z Hl Hf) as [Hlim Hsz]. rewrite E4. split; auto.
  destruct Hlim as (_ & _ & _ & _ & t & Ht). pose proof (input_start V lab F HI) as H0.
  apply (sparent_RP F H0 z t) in Ht as [_ Ht]. destruct (live0_RP F H0 z t Hl Ht) as [Hlt Hg].
  destruct (pix_own V lab F HI t Hlt) as (p & Hp & Hgp). exists p. split; [apply Hp|].
  intros Hc%HSS. pose proof (pix_gray V lab F HI z p Hl Hc). lia.
Qed.

(* the records are the regions the serial recognition of the same tree reports *)
Lemma cv_recognized : fgt (p_dup P) fzero = true \/ fge fzero (p_dup P) = true ->
  exists F lab fuel s0, ready V lab F P fuel One s0 /\ forall b, exists s l k b', recognize fuel One P b s0 = Some (s, l, k, b') /\
    length (cv_ms R) = length l /\ (forall j z, l !! j = Some z -> live0 F z /\ cv_lists step R j (region_pixels V lab (tab F) z)) /\
    forall S, (exists j, cv_lists step R j S) <-> reports V lab F l S.
Proof.
  intros Hdup. destruct cv_reports as (F & lab & fuel & s0 & Hr & Hnd & Hrep & Hlen & _ & Hrec). exists F, lab, fuel, s0. split; auto.
  intros b. destruct (run_recognize _ _ _ _ _ _ _ Hr b) as (s & Er & _). rewrite <-(Hrep Hdup) in Er. eexists s, (cvl F P), _, _. split; [exact Er|].
  split; auto. assert (forall j z, cvl F P !! j = Some z -> live0 F z /\ cv_lists step R j (region_pixels V lab (tab F) z)) as H.
  { intros j z Hz. destruct (Hrec j z Hz) as (? & _ & ? & _). auto. }
  split; auto. apply cv_sets; auto. intros j z Hz. by apply H.
Qed.
Lemma dup_cases : below1 (p_dup P) -> fgt (p_dup P) fzero = true \/ fge fzero (p_dup P) = true.
Proof.
  intros Hb. destruct (fgt (p_dup P) fzero) eqn:E; [by left|]. right. by apply not_gt_zero.
Qed.

Lemma cv_apart i j S S' : below1 (p_dup P) -> cv_lists step R i S -> cv_lists step R j S' -> i <> j ->
  (forall p, S p -> S' p) -> exceeds (p_dup P) S S'.
Proof.
  intros Hb1 Hi Hj Hne Hsub. destruct (cv_recognized (dup_cases Hb1)) as (F & lab & fuel & s0 & Hr & Hrec).
  destruct (Hrec (CBuf 0 0)) as (s & l & k & b' & Er & Hlen & Hl & Hiff).
  destruct (apart_ok _ _ _ _ _ _ _ Hr (CBuf 0 0) Hb1) as (s' & l' & n' & b2 & Er' & Hap). assert (l' = l) as -> by congruence.
  destruct (proj1 (Hiff S)) as (x & Hx & Hxs); [eauto|]. destruct (proj1 (Hiff S')) as (y & Hy & Hys); [eauto|].
  assert (x <> y) as Hxy. { intros ->. apply Hne. eapply cv_differ; [exact Hi|]. eapply cv_lists_ext; [|exact Hj]. intros p. by rewrite Hys, Hxs. }
  destruct (Hap x y Hx Hy Hxy) as (n & k' & H1 & H2 & H3). { intros p Hp. apply Hys, Hsub, Hxs, Hp. }
  exists n, k'. split; [|split; [|done]]; (eapply card_ext; [|eassumption]); intros p; symmetry; auto.
Qed.

Lemma cv_msers d : (p_delta P = Z.of_nat d)%Z -> sane P -> fge fzero (p_dup P) = true ->
  (forall j rc, cv_ms R !! j = Some rc -> exists g S, mser V P d g S /\ cv_lists step R j S /\ cr_gray rc = out_gray gm g) /\
  forall g S, mser V P d g S -> exists j, cv_lists step R j S.
Proof.
  intros Hdd Hs Hdup. destruct (cv_recognized (or_intror Hdup)) as (F & lab & fuel & s0 & Hr & Hrec).
  destruct (Hrec (CBuf 0 0)) as (s & l & k & b' & Er & Hlen & Hl & Hiff).
  destruct (reported_msers _ _ _ _ _ _ _ d (CBuf 0 0) Hr Hdd Hs Hdup) as (s' & l' & n' & b2 & Er' & H1 & H2). assert (l' = l) as -> by congruence.
  split; [|intros g S HS; apply Hiff; by eapply H2].
  intros j rc Hj. destruct (lookup_lt_is_Some_2 l j) as [z Hz]. { rewrite <-Hlen. by eapply lookup_lt_Some. }
  destruct (H1 z) as (a & Ha & Hm); [by eapply elem_of_list_lookup_2|]. destruct (Hl j z Hz) as [_ Hzl].
  exists (v_gray a), (region_pixels V lab (tab F) z). split; auto. split; auto.
  destruct (cv_extremal j rc Hj) as (g & S & _ & Hx & HS & -> & _). f_equal. eapply extremal_level; [exact Hx|].
  destruct Hm as [Hcomp _]. destruct Hcomp as (p0 & E1 & E2 & E3). exists p0. split; auto. split; auto. intros p. rewrite <-E3.
  apply (cv_lists_fun j); auto.
Qed.
End res.

Lemma ready_more V lab F P fuel m s0 fuel' : ready V lab F P fuel m s0 -> fuel <= fuel' -> ready V lab F P fuel' m s0.
Proof. intros [H1 H2 H3 H4 H5 H6] Hle. constructor; auto. lia. Qed.

(* Fast MSER V2 and CV-MSER+ with four neighbours *)
Lemma cv_same_as_v2 img gm cols rows fuel P c b Rv R : image_fits 2 2 img cols rows -> modest_image cols rows -> gm = 0%N \/ gm = 255%N ->
  channel_result img gm cols rows fuel P c b Rv -> cv_result false img gm cols cols rows P R -> sane P -> below1 (p_dup P) ->
  length (r_ms Rv) = length (cv_ms R) /\ forall S, (exists j, lists_record cols Rv j S) <-> exists j, cv_lists cols R j S.
Proof.
  intros HF Hm Hgm H1 H2 Hs Hb. destruct (record_reports _ _ _ _ _ _ _ _ _ HF H1) as (F & lab & s & l & k & b' & HR & Er & Hlen & Hl & Hiff).
  assert (limg_fits img cols cols rows) as HF'. { pose proof HF as [? ? ? ? ? ?]. constructor; auto; try lia; nia. }
  assert (cv_modest cols rows) as Hm'. { unfold cv_modest, modest_image in *. lia. }
  destruct (cv_recognized false img gm cols cols rows HF' Hgm Hm' P (rd_delta _ _ _ _ _ _ _ HR) R H2 (dup_cases P Hb)) as (F' & lab' & fuel' & s0' & HR' & Hrec).
  destruct (Hrec b) as (s' & l' & k' & b'' & Er' & Hlen' & _ & Hiff').
  pose proof (ready_more _ _ _ _ _ _ _ (max fuel fuel') HR ltac:(lia)) as HRm. pose proof (ready_more _ _ _ _ _ _ _ (max fuel fuel') HR' ltac:(lia)) as HRm'.
  destruct (threads_free _ _ _ _ _ _ _ _ _ _ _ b b HRm HRm' Hs Hb) as (t1 & m1 & n1 & d1 & t2 & m2 & n2 & d2 & G1 & G2 & Hn & Hre).
  destruct (RecogResults.count_ok _ _ _ _ _ _ _ HRm b) as (? & ? & ? & ? & G3 & C1 & _). destruct (RecogResults.count_ok _ _ _ _ _ _ _ HRm' b) as (? & ? & ? & ? & G4 & C2 & _).
  destruct (run_recognize _ _ _ _ _ _ _ HR b) as (? & K1 & _). destruct (run_recognize _ _ _ _ _ _ _ HR' b) as (? & K2 & _).
  destruct (run_recognize _ _ _ _ _ _ _ HRm b) as (? & K3 & _). destruct (run_recognize _ _ _ _ _ _ _ HRm' b) as (? & K4 & _).
  assert (m1 = l) as -> by congruence. assert (m2 = l') as -> by congruence. split; [congruence|].
  intros S. by rewrite Hiff, Hiff', Hre.
Qed.

(* a call *)
Lemma cv_call_ok (e dark bright : bool) src step w h P : limg_fits src step w h -> cv_modest w h -> delta_ok P ->
  exists R0 R1, (if dark then cv_result e src 0 step w h P R0 else R0 = cv_none) /\
    (if bright then cv_result e src 255 step w h P R1 else R1 = cv_none) /\
    forall n b c0 c1, (if e then 10 else 6) * (w * h) < n -> lbuf_ok w h b -> fair_dirt c0 -> fair_dirt c1 ->
    cv_call n (lcfgn e w h) dark bright src step P b c0 c1 = Some (R0, R1).
Proof.
  intros HF Hm Hd. destruct (one_result e src 0%N step w h HF (or_introl eq_refl) Hm P Hd) as (R0 & H0 & E0).
  destruct (one_result e src 255%N step w h HF (or_intror eq_refl) Hm P Hd) as (R1 & H1 & E1).
  exists (if dark then R0 else cv_none), (if bright then R1 else cv_none). split; [by destruct dark|]. split; [by destruct bright|].
  intros n b c0 c1 Hn Hb Hc0 Hc1. unfold cv_call. destruct dark.
  - destruct (E0 n b c0 Hn Hb Hc0) as (b1 & -> & Hb1). destruct bright; [|done]. by destruct (E1 n b1 c1 Hn Hb1 Hc1) as (b2 & -> & _).
  - destruct bright; [|done]. by destruct (E1 n b c1 Hn Hb Hc1) as (b2 & -> & _).
Qed.
Lemma cv_unique e src gm step w h P R R' : limg_fits src step w h -> gm = 0%N \/ gm = 255%N -> cv_modest w h -> delta_ok P ->
  cv_result e src gm step w h P R -> cv_result e src gm step w h P R' -> R = R'.
Proof.
  intros HF Hgm Hm Hd H1 H2. destruct (channel_ok e src gm step w h HF Hgm Hm) as (F & lab & Lof & HC).
  rewrite (result_is e src gm step w h P Hd F lab Lof R HC H1). by rewrite (result_is e src gm step w h P Hd F lab Lof R' HC H2).
Qed.
