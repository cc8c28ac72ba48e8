(* What the result of a call of the original implementation says about the image. *)
From stdpp Require Import sorting relations functions list_numbers list.
From Coq Require Import NArith ZArith SpecFloat.
From Verif Require Import Spec TreeSpec TreeFacts JoinMath JoinCorrect FloodAbs Grid WordBits FloodModel FloodInit FloodTree FloodCorrect ConnectModel ConnectProof PartModel
  WholeModel WholeProof WholeCorrect FloatModel FloatFacts RecogModel RecogSpec RecogStatic RecogTree RecogCompose RecogFinal RecogTransport
  RecogResults RecogPixels DetectModel Detect RectModel RectFacts ExtractModel ExtractDecode ExtractTree ExtractTop RunModel RunCorrect RunResults
  LinkedModel LinkedGrid LinkedInit LinkedCorrect CvModel CvRecog CvExtract CvCorrect CvResults MsTop OrgModel OrgBuild OrgTree OrgPad OrgPass OrgLink OrgRecog OrgExtract.
Local Open Scope nat_scope.

(* SPEC: record j of a result lists the set S of pixels, each once, and has their number
   as its size *)
Definition o_lists (step : nat) (l : list orec) (j : nat) (S : nat -> Prop) : Prop :=
  exists c, l !! j = Some c /\ lists_set step S (q_pts c) /\ card_is S (q_size c).
(* SPEC: an object on which an image of w x h pixels can be processed: it holds no regions
   or its last call was for an image of that many pixels *)
Definition o_clean (w h : nat) (ob : oobj) : Prop := ob_area ob = w * h \/ ob_regs ob = [].
(* SPEC: l is what the channel gm (0 dark, 255 bright) of a call returns, on some such
   object *)
Definition o_result (e : bool) (src : list N) (gm : N) (step w h : nat) (P : rparam) (l : list orec) : Prop :=
  exists n dk br ob r0 r1 ob', w * h + 1 < n /\ o_clean w h ob /\ o_extract n e dk br src step w h P ob = Some (r0, r1, ob') /\
    if (gm =? 0)%N then dk = true /\ l = r0 else br = true /\ l = r1.

(* both passes build the component trees *)
Lemma o_trees e src step w h : limg_fits src step w h -> forall n rcap, w * h + 1 < n -> w * h <= rcap ->
  exists img pts st st', o_pad src step w h = Some img /\ o_order img w h = Some pts /\
    o_pass n (w * h) rcap img (o_offs e w) pts [] = Some st /\
    ctree (lview e step w h (level src 0)) (fun j => olab (os_own st) (framed step w j)) (otable (os_regs st)) /\
    o_pass n (w * h) rcap (o_reverse img) (o_offs e w) (rev pts) [] = Some st' /\
    ctree (lview e step w h (level src 255)) (fun j => olab (os_own st') (framed step w j)) (otable (os_regs st')).
Proof.
  intros HF n rcap Hn Hr. exists (pimg src step w h), (opts src step w h).
  destruct (org_pass e src step w h HF 0 (or_introl eq_refl) n rcap Hn Hr) as (g & st & sg & E & _ & _ & HT & _).
  destruct (org_pass e src step w h HF 255 (or_intror eq_refl) n rcap Hn Hr) as (g' & st' & sg' & E' & _ & _ & HT' & _).
  exists st, st'. split; [by apply pad_ok|]. split; [by apply order_pts|]. split; [exact E|]. split; [exact HT|]. split; [exact E'|exact HT'].
Qed.

Section call.
Context (e : bool) (src : list N) (step w h : nat) (HF : limg_fits src step w h) (Hmod : cv_modest w h).
Context (P : rparam) (Hd : delta_ok P).
Notation view gm := (lview e step w h (level src gm)).

Definition o_records (gm : N) (l : list orec) : Prop := exists F lab zs s0,
  ready (view gm) lab F P (S (nregs F)) One s0 /\ NoDup zs /\ (forall z, z ∈ zs -> live0 F z /\ (p_min P <= Z.of_nat (size0 F z) <= p_max P)%Z) /\
  orecs e src gm step w h F lab zs l /\ ((p_max P < Z.of_nat (w * h))%Z -> below1 (p_dup P) -> zs = reported F P One).

(* a call returns *)
Lemma o_call_ok n dk br ob : w * h + 1 < n -> o_clean w h ob ->
  exists r0 r1 ob', o_extract n e dk br src step w h P ob = Some (r0, r1, ob') /\ ob_area ob' = w * h /\
    (if dk then o_records 0 r0 else r0 = []) /\ (if br then o_records 255 r1 else r1 = []).
Proof using HF Hmod Hd.
  intros Hn Hob. unfold o_extract. rewrite (pad_ok src step w h HF), (order_pts src step w h HF).
  assert ((if ob_area ob =? w * h then [] else ob_regs ob) = []) as ->.
  { destruct Hob as [->| ->]; [by rewrite Nat.eqb_refl|by destruct (_ =? _)]. }
  set (rcap := Nat.max (w * h) (ob_cap ob)). cbn [length Nat.eqb negb]. rewrite andb_false_r.
  assert (w * h <= rcap) as Hr by (unfold rcap; lia).
  destruct (chan_any e src step w h HF 0 (or_introl eq_refl) Hmod P Hd n rcap Hn Hr) as (F0 & lab0 & zs0 & l0 & regs0 & s0 & E0 & H0).
  destruct (chan_any e src step w h HF 255 (or_intror eq_refl) Hmod P Hd n rcap Hn Hr) as (F1 & lab1 & zs1 & l1 & regs1 & s1 & E1 & H1).
  change (gimg src step w h 0) with (pimg src step w h) in E0. change (gpts src step w h 0) with (opts src step w h) in E0.
  change (gimg src step w h 255) with (o_reverse (pimg src step w h)) in E1. change (gpts src step w h 255) with (rev (opts src step w h)) in E1.
  assert (o_records 0 l0) as R0 by (exists F0, lab0, zs0, s0; exact H0).
  assert (o_records 255 l1) as R1 by (exists F1, lab1, zs1, s1; exact H1).
  destruct dk, br.
  - rewrite E0, E1. exists l0, l1. eexists. split; [reflexivity|]. split; [reflexivity|]. split; [exact R0|exact R1].
  - rewrite E0. exists l0, []. eexists. split; [reflexivity|]. split; [reflexivity|]. split; [exact R0|reflexivity].
  - rewrite E1. exists [], l1. eexists. split; [reflexivity|]. split; [reflexivity|]. split; [reflexivity|exact R1].
  - exists [], []. eexists. split; [reflexivity|]. split; [reflexivity|]. split; reflexivity.
Qed.
Lemma o_total n dk br ob : w * h + 1 < n -> o_clean w h ob ->
  exists r0 r1 ob', o_extract n e dk br src step w h P ob = Some (r0, r1, ob') /\ o_clean w h ob' /\
    (if dk then o_result e src 0 step w h P r0 else r0 = []) /\ (if br then o_result e src 255 step w h P r1 else r1 = []).
Proof using HF Hmod Hd.
  intros Hn Hob. destruct (o_call_ok n dk br ob Hn Hob) as (r0 & r1 & ob' & E & Ha & H0 & H1). exists r0, r1, ob'. split; [exact E|]. split; [by left|]. split.
  - destruct dk; [|exact H0]. exists n, true, br, ob, r0, r1, ob'. split; [exact Hn|]. split; [exact Hob|]. split; [exact E|]. split; reflexivity.
  - destruct br; [|exact H1]. exists n, dk, true, ob, r0, r1, ob'. split; [exact Hn|]. split; [exact Hob|]. split; [exact E|]. split; reflexivity.
Qed.
Lemma o_result_records gm l : gm = 0%N \/ gm = 255%N -> o_result e src gm step w h P l -> o_records gm l.
Proof using HF Hmod Hd.
  intros Hgm (n & dk & br & ob & r0 & r1 & ob' & Hn & Hob & E & H). destruct (o_call_ok n dk br ob Hn Hob) as (r0' & r1' & ob2 & E' & _ & H0 & H1).
  rewrite E in E'. injection E' as <- <- <-. destruct Hgm as [->| ->]; cbn [N.eqb] in H; destruct H as [-> ->]; auto.
Qed.
End call.

Lemma o_lists_ext step l j S S' : same_set S S' -> o_lists step l j S -> o_lists step l j S'.
Proof.
  intros H (c & H1 & [H3 H4] & H5). exists c. split; [done|]. split; [|by eapply card_ext].
  split; [done|]. intros q. rewrite H4. split; intros (p & Hp & ->); exists p; split; auto; by apply H.
Qed.
Lemma o_lists_fun step l j S S' : 0 < step -> o_lists step l j S -> o_lists step l j S' -> same_set S S'.
Proof.
  intros Hs (c & H1 & [_ H4] & _) (c' & G1 & [_ G4] & _) p. assert (c' = c) as -> by congruence.
  assert (S p <-> pixel step p ∈ q_pts c) as ->.
  { rewrite H4. split; [eauto|]. intros (q & Hq & E). by rewrite (pixel_inj step p q Hs E). }
  rewrite G4. split; [|eauto]. intros (q & Hq & E). by rewrite (pixel_inj step p q Hs E).
Qed.

Section res.
Context (e : bool) (src : list N) (gm : N) (step w h : nat) (HF : limg_fits src step w h) (Hgm : gm = 0%N \/ gm = 255%N) (Hmod : cv_modest w h).
Context (P : rparam) (Hd : delta_ok P) (l : list orec) (HR : o_result e src gm step w h P l).
Notation V := (lview e step w h (level src gm)).
Lemma o_step_pos : 0 < step.
Proof using HF. clear -HF. pose proof (lf_w _ _ _ _ HF). pose proof (lf_step _ _ _ _ HF). lia. Qed.
Lemma o_read_rec F lab zs fuel s0 : ready V lab F P fuel One s0 -> (forall z, z ∈ zs -> live0 F z /\ (p_min P <= Z.of_nat (size0 F z) <= p_max P)%Z) ->
  orecs e src gm step w h F lab zs l -> forall j z, zs !! j = Some z -> live0 F z /\ o_lists step l j (region_pixels V lab (tab F) z).
Proof using.
  intros Hr Hz [_ Hrec] j z Hj. pose proof (rd_input _ _ _ _ _ _ _ Hr) as HI.
  assert (live0 F z) as Hl by (by eapply Hz, elem_of_list_lookup_2). split; auto.
  destruct (Hrec j z Hj) as (rc & E1 & E3 & E4 & _). exists rc. split; [done|]. split; [done|]. rewrite E4. by apply (pix_card V lab F HI).
Qed.

(* every record lists an extremal region *)
Lemma o_extremal j rc : l !! j = Some rc -> exists g S, extremal V g S /\ o_lists step l j S /\ q_gray rc = N.lxor (N.of_nat g) gm /\
  bounding (q_pts rc) (q_rect rc) /\ (p_min P <= Z.of_nat (q_size rc) <= p_max P)%Z.
Proof using HF Hgm Hmod Hd HR.
  intros Hj. destruct (o_result_records e src step w h HF Hmod P Hd gm l Hgm HR) as (F & lab & zs & s0 & Hr & _ & Hzs & Hrec & _).
  pose proof (rd_input _ _ _ _ _ _ _ Hr) as HI.
  destruct (lookup_lt_is_Some_2 zs j) as [z Hz]. { rewrite <-(proj1 Hrec). by eapply lookup_lt_Some. }
  destruct (o_read_rec F lab zs _ s0 Hr Hzs Hrec j z Hz) as [Hzl Hls]. destruct (proj2 Hrec j z Hz) as (rc' & E1 & E2 & E4 & E5 & E6).
  assert (rc' = rc) as -> by congruence.
  destruct (tree_extremal V lab (tab F) (ri_sym _ _ _ HI) (ri_tree _ _ _ HI)) as (Hx & _).
  destruct (live_alive F z Hzl) as (a & [Ha1 Ha2] & Ea & _). exists (v_gray a), (region_pixels V lab (tab F) z).
  split; [by apply Hx|]. split; auto. rewrite Ea. split; auto. split; auto. rewrite E4. apply Hzs. by eapply elem_of_list_lookup_2.
Qed.

Lemma o_level j rc S : l !! j = Some rc -> o_lists step l j S -> if (gm =? 0)%N then max_on src S (q_gray rc) else min_on src S (q_gray rc).
Proof using HF Hgm Hmod Hd HR.
  intros Hj HS. destruct (o_extremal j rc Hj) as (g & S' & Hx & HS' & Eg & _). pose proof (o_lists_fun step l j S' S o_step_pos HS' HS) as HSS.
  destruct (extremal_top _ _ _ Hx) as [(p & Hp & Hin & E) Hle]. rewrite Eg. destruct (cv_pixel e src gm step w h HF Hgm p Hin) as (v & Hv & Hb & Ev). rewrite E in Ev. rewrite Ev.
  assert (forall q u, S q -> src !! q = Some u -> (u < 256)%N /\ N.to_nat (N.lxor u gm) <= g) as Hall.
  { intros q u Hq Hu. apply HSS in Hq. pose proof (Hle q Hq) as H.
    destruct (cv_pixel e src gm step w h HF Hgm q) as (u' & Hu' & Hb' & Eu). { destruct Hx as (p0 & _ & _ & HS0). apply HS0 in Hq. by destruct Hq as (_ & ? & _). }
    assert (u' = u) as -> by congruence. split; auto. by rewrite <-Eu. }
  destruct Hgm as [E0|E0]; rewrite E0 in *; cbn [N.eqb].
  - rewrite !N.lxor_0_r, N2Nat.id in *. split; [exists p; split; [by apply HSS|done]|]. intros q u Hq Hu. destruct (Hall q u Hq Hu) as [_ H]. rewrite N.lxor_0_r in H. lia.
  - rewrite N2Nat.id, N.lxor_assoc, N.lxor_nilpotent, N.lxor_0_r. split; [exists p; split; [by apply HSS|done]|].
    intros q u Hq Hu. destruct (Hall q u Hq Hu) as [Hb' H]. rewrite lxor_byte in H by auto. rewrite lxor_byte in Ev by auto. lia.
Qed.

Lemma o_differ i j S : o_lists step l i S -> o_lists step l j S -> i = j.
Proof using HF Hgm Hmod Hd HR.
  intros Hi Hj. destruct (o_result_records e src step w h HF Hmod P Hd gm l Hgm HR) as (F & lab & zs & s0 & Hr & Hnd & Hzs & Hrec & _).
  pose proof (rd_input _ _ _ _ _ _ _ Hr) as HI.
  assert (forall i, o_lists step l i S -> exists z, zs !! i = Some z /\ live0 F z /\ same_set (region_pixels V lab (tab F) z) S) as Hat.
  { clear i j Hi Hj. intros i Hi. pose proof Hi as (rc & H1 & _). destruct (lookup_lt_is_Some_2 zs i) as [z Hz]; [rewrite <-(proj1 Hrec); by eapply lookup_lt_Some|].
    destruct (o_read_rec F lab zs _ s0 Hr Hzs Hrec i z Hz) as (Hzl & Hls). exists z. split; auto. split; auto. by apply (o_lists_fun step l i _ _ o_step_pos). }
  destruct (Hat i Hi) as (x & Hxi & Lx & Hsx). destruct (Hat j Hj) as (y & Hyj & Ly & Hsy).
  assert (x = y) as <-; [|eapply NoDup_lookup; eauto].
  destruct (pix_own V lab F HI x Lx) as (p & Hp & Gp). destruct (pix_own V lab F HI y Ly) as (q & Hq & Gq).
  assert (region_pixels V lab (tab F) y p) as Hp' by (by apply Hsy, Hsx). assert (region_pixels V lab (tab F) x q) as Hq' by (by apply Hsx, Hsy).
  pose proof (pix_gray V lab F HI y p Ly Hp'). pose proof (pix_gray V lab F HI x q Lx Hq').
  apply (level_once V lab F HI x y p); auto. lia.
Qed.

Context (Hmax : (p_max P < Z.of_nat (w * h))%Z) (Hb1 : below1 (p_dup P)).

(* the records are the regions the serial recognition of the same tree reports *)
Lemma o_recognized : exists F lab fuel s0, ready V lab F P fuel One s0 /\ forall b, exists s zs k b', recognize fuel One P b s0 = Some (s, zs, k, b') /\
    length l = length zs /\ (forall j z, zs !! j = Some z -> live0 F z /\ o_lists step l j (region_pixels V lab (tab F) z)) /\
    forall S, (exists j, o_lists step l j S) <-> reports V lab F zs S.
Proof using HF Hgm Hmod Hd HR Hmax Hb1.
  destruct (o_result_records e src step w h HF Hmod P Hd gm l Hgm HR) as (F & lab & zs & s0 & Hr & Hnd & Hzs & Hrec & Erep).
  specialize (Erep Hmax Hb1). exists F, lab, (S (nregs F)), s0. split; auto.
  intros b. destruct (run_recognize _ _ _ _ _ _ _ Hr b) as (s & Er & _). eexists s, zs, _, _. split; [rewrite Erep; exact Er|].
  split; [apply Hrec|]. split; [exact (o_read_rec F lab zs _ s0 Hr Hzs Hrec)|]. intros S. split.
  - intros (j & Hj). pose proof Hj as (rc & H1 & _). destruct (lookup_lt_is_Some_2 zs j) as [z Hz]; [rewrite <-(proj1 Hrec); by eapply lookup_lt_Some|].
    exists z. split; [by eapply elem_of_list_lookup_2|]. intros p. apply (o_lists_fun step l j _ _ o_step_pos); auto. by apply (o_read_rec F lab zs _ s0 Hr Hzs Hrec).
  - intros (z & Hz & Hp). apply elem_of_list_lookup in Hz as [j Hj]. exists j. eapply o_lists_ext; [|by apply (o_read_rec F lab zs _ s0 Hr Hzs Hrec j z)]. intros p. by rewrite Hp.
Qed.

Lemma o_apart i j S S' : o_lists step l i S -> o_lists step l j S' -> i <> j -> (forall p, S p -> S' p) -> exceeds (p_dup P) S S'.
Proof using HF Hgm Hmod Hd HR Hmax Hb1.
  intros Hi Hj Hne Hsub. destruct o_recognized as (F & lab & fuel & s0 & Hr & Hrec).
  destruct (Hrec (CBuf 0 0)) as (s & zs & k & b' & Er & Hlen & Hl & Hiff).
  destruct (apart_ok _ _ _ _ _ _ _ Hr (CBuf 0 0) Hb1) as (s' & l' & n' & b2 & Er' & Hap). assert (l' = zs) as -> by congruence.
  destruct (proj1 (Hiff S)) as (x & Hx & Hxs); [eauto|]. destruct (proj1 (Hiff S')) as (y & Hy & Hys); [eauto|].
  assert (x <> y) as Hxy. { intros ->. apply Hne. eapply o_differ; [exact Hi|]. eapply o_lists_ext; [|exact Hj]. intros p. by rewrite Hys, Hxs. }
  destruct (Hap x y Hx Hy Hxy) as (n & k' & H1 & H2 & H3). { intros p Hp. apply Hys, Hsub, Hxs, Hp. }
  exists n, k'. split; [|split; [|done]]; (eapply card_ext; [|eassumption]); intros p; symmetry; auto.
Qed.

Lemma o_msers d : (p_delta P = Z.of_nat d)%Z -> sane P -> fge fzero (p_dup P) = true ->
  (forall j rc, l !! j = Some rc -> exists g S, mser V P d g S /\ o_lists step l j S /\ q_gray rc = N.lxor (N.of_nat g) gm) /\
  forall g S, mser V P d g S -> exists j, o_lists step l j S.
Proof using HF Hgm Hmod Hd HR Hmax Hb1.
  intros Hdd Hs Hdup0. destruct o_recognized as (F & lab & fuel & s0 & Hr & Hrec).
  destruct (Hrec (CBuf 0 0)) as (s & zs & k & b' & Er & Hlen & Hl & Hiff).
  destruct (reported_msers _ _ _ _ _ _ _ d (CBuf 0 0) Hr Hdd Hs Hdup0) as (s' & l' & n' & b2 & Er' & H1 & H2). assert (l' = zs) as -> by congruence.
  split; [|intros g S HS; apply Hiff; by eapply H2].
  intros j rc Hj. destruct (lookup_lt_is_Some_2 zs j) as [z Hz]. { rewrite <-Hlen. by eapply lookup_lt_Some. }
  destruct (H1 z) as (a & Ha & Hm); [by eapply elem_of_list_lookup_2|]. destruct (Hl j z Hz) as [_ Hzl].
  exists (v_gray a), (region_pixels V lab (tab F) z). split; auto. split; auto.
  destruct (o_extremal j rc Hj) as (g & S & Hx & HS & -> & _). do 2 f_equal. eapply extremal_level; [exact Hx|].
  destruct Hm as [Hcomp _]. destruct Hcomp as (p0 & E1 & E2 & E3). exists p0. split; auto. split; auto. intros p. rewrite <-E3.
  apply (o_lists_fun step l j _ _ o_step_pos); auto.
Qed.
End res.

(* the original implementation and CV-MSER+ *)
Lemma o_same_as_cv e src gm step w h P Rc l : limg_fits src step w h -> gm = 0%N \/ gm = 255%N -> cv_modest w h -> delta_ok P ->
  cv_result e src gm step w h P Rc -> o_result e src gm step w h P l -> (p_max P < Z.of_nat (w * h))%Z -> sane P -> below1 (p_dup P) ->
  length (cv_ms Rc) = length l /\ forall S, (exists j, cv_lists step Rc j S) <-> exists j, o_lists step l j S.
Proof.
  intros HF Hgm Hmod Hd H1 H2 Hmax Hs Hb. pose proof (dup_cases P Hb) as Hdup.
  destruct (cv_recognized e src gm step w h HF Hgm Hmod P Hd Rc H1 Hdup) as (F' & lab' & fuel' & s0' & HR' & Hrec').
  destruct (o_recognized e src gm step w h HF Hgm Hmod P Hd l H2 Hmax Hb) as (F & lab & fuel & s0 & HR & Hrec).
  destruct (Hrec (CBuf 0 0)) as (s & zs & k & b' & Er & Hlen & _ & Hiff). destruct (Hrec' (CBuf 0 0)) as (s' & l' & k' & b'' & Er' & Hlen' & _ & Hiff').
  pose proof (ready_more _ _ _ _ _ _ _ (max fuel fuel') HR ltac:(lia)) as HRm. pose proof (ready_more _ _ _ _ _ _ _ (max fuel fuel') HR' ltac:(lia)) as HRm'.
  destruct (threads_free _ _ _ _ _ _ _ _ _ _ _ (CBuf 0 0) (CBuf 0 0) HRm HRm' Hs Hb) as (t1 & m1 & n1 & d1 & t2 & m2 & n2 & d2 & G1 & G2 & Hn & Hre).
  destruct (RecogResults.count_ok _ _ _ _ _ _ _ HRm (CBuf 0 0)) as (? & ? & ? & ? & G3 & C1 & _). destruct (RecogResults.count_ok _ _ _ _ _ _ _ HRm' (CBuf 0 0)) as (? & ? & ? & ? & G4 & C2 & _).
  destruct (run_recognize _ _ _ _ _ _ _ HR (CBuf 0 0)) as (? & K1 & _). destruct (run_recognize _ _ _ _ _ _ _ HR' (CBuf 0 0)) as (? & K2 & _).
  destruct (run_recognize _ _ _ _ _ _ _ HRm (CBuf 0 0)) as (? & K3 & _). destruct (run_recognize _ _ _ _ _ _ _ HRm' (CBuf 0 0)) as (? & K4 & _).
  assert (m1 = zs) as -> by congruence. assert (m2 = l') as -> by congruence. split; [congruence|].
  intros S. by rewrite Hiff, Hiff', Hre.
Qed.
(* the original implementation and Fast MSER V2 *)
Lemma o_same_as_v2 src gm w h fuel P c b Rv l : image_fits 2 2 src w h -> modest_image w h -> gm = 0%N \/ gm = 255%N -> delta_ok P ->
  channel_result src gm w h fuel P c b Rv -> o_result false src gm w w h P l -> (p_max P < Z.of_nat (w * h))%Z -> sane P -> below1 (p_dup P) ->
  length (r_ms Rv) = length l /\ forall S, (exists j, lists_record w Rv j S) <-> exists j, o_lists w l j S.
Proof.
  intros HV Hmod Hgm Hd H1 H2 Hmax Hs Hb.
  assert (limg_fits src w w h) as HF. { pose proof HV as [? ? ? ? ? ?]. constructor; auto; try lia; nia. }
  destruct (one_result false src gm w w h HF Hgm (modest_cv w h Hmod) P Hd) as (Rc & Hc & _).
  destruct (o_same_as_cv false src gm w w h P Rc l HF Hgm (modest_cv w h Hmod) Hd Hc H2 Hmax Hs Hb) as [E1 E2].
  destruct (cv_same_as_v2 src gm w h fuel P c b Rv Rc HV Hmod Hgm H1 Hc Hs Hb) as [E3 E4].
  split; [congruence|]. intros S. by rewrite E4, E2.
Qed.
