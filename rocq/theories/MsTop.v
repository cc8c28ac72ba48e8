(* A channel of an MS-MSER call: tree, recognition and extraction together. *)
From stdpp Require Import sorting relations functions list_numbers list.
From Coq Require Import NArith ZArith SpecFloat.
From Verif Require Import Spec TreeSpec TreeFacts JoinMath JoinCorrect Grid WordBits FloodModel FloodInit FloodTree FloodCorrect ConnectModel ConnectProof PartModel PartProof MergeProof
  WholeModel WholeProof WholeCorrect FloatModel RecogModel RecogSpec RecogStatic RecogWorkers RecogDup RecogTree RecogCompose RecogFinal
  RecogResults RectModel RectFacts ExtractModel ExtractAbs ExtractLink ExtractMem ExtractDecode ExtractCorrect ExtractTree ExtractTop RunCorrect
  LinkedModel LinkedGrid LinkedCorrect CvModel CvRecog CvExtract CvCorrect MsModel MsRecog MsLink MsMem MsExtract.
Local Open Scope nat_scope.

Lemma rect_bounding L L' rc : (forall q, q ∈ L <-> q ∈ L') -> rect_of True L rc -> bounding L' rc.
Proof.
  intros HL ((T1 & B1) & (p2 & Hp2 & E2) & (T3 & B3) & (p4 & Hp4 & E4) & HB). destruct (HB I) as [B2 B4]. unfold right_of, bottom_of in *. split.
  - intros q Hq. apply HL in Hq. specialize (B1 q Hq). specialize (B2 q Hq). specialize (B3 q Hq). specialize (B4 q Hq). lia.
  - destruct T1 as (p1 & Hp1 & E1). destruct T3 as (p3 & Hp3 & E3). repeat split.
    + exists p1. rewrite <-HL. auto. + exists p2. rewrite <-HL. auto. + exists p3. rewrite <-HL. auto. + exists p4. rewrite <-HL. auto.
Qed.
Lemma modest_cv w h : modest_image w h -> cv_modest w h.
Proof. unfold modest_image, cv_modest. lia. Qed.

Lemma kids_sum n (v : nat -> option nat) : (forall i j, v i = Some j -> i < j /\ j < n) -> sumto (fun j => length (chl v j)) n <= n.
Proof.
  intros Hv. assert (forall k, length (seq 0 k ≫= chl v) = sumto (fun j => length (chl v j)) k) as <-.
  { induction k as [|k IH]; [done|]. rewrite seq_S, bind_app, app_length. cbn [Nat.add mbind list_bind sumto]. rewrite IH. by rewrite app_nil_r. }
  rewrite <-(seq_length n 0) at 2. apply submseteq_length, NoDup_submseteq.
  - apply NoDup_bind; [|intros; apply procs_NoDup|apply NoDup_seq].
    intros x1 x2 y _ _ H1 H2. apply (elem_chl n v Hv) in H1, H2. congruence.
  - intros c (j & Hc & Hj)%elem_of_list_bind. apply (elem_chl n v Hv) in Hc. pose proof (Hv _ _ Hc). apply elem_of_seq. lia.
Qed.
Lemma sumto_list (f : rref -> nat) q : sumto (fun j => match q !! j with Some z => f z | None => 0 end) (length q) = sum_list (map f q).
Proof.
  induction q as [|x q IH] using rev_ind; [done|]. rewrite app_length, map_app, sum_app. cbn [length map sum_list].
  rewrite Nat.add_1_r. cbn [sumto]. rewrite lookup_app_r, Nat.sub_diag by lia. cbn. rewrite Nat.add_0_r. f_equal. rewrite <-IH.
  apply sumto_ext. intros j Hj. by rewrite lookup_app_l.
Qed.

Section top.
Context (src : list N) (gm : N) (w h : nat) (HF : limg_fits src w w h) (Hgm : gm = 0%N \/ gm = 255%N) (Hmod : modest_image w h).
Notation V := (lview false w w h (level src gm)).
Context (regs : list lreg) (lab : nat -> nat).
Context (HT : ctree V lab (ltable regs)) (H0 : forall i a, regs !! i = Some a -> n_flag a = 0 /\ n_gray a < 256).
Context (Hlen : length regs <= w * h) (Hsz : forall i a, regs !! i = Some a -> is_Some (n_size a)).
Notation F := (fo regs). Notation lab2 := (fun p => (0, lab p)).
Let HI : recog_input V lab2 F := input_fo false src gm w w h HF Hgm (modest_cv w h Hmod) regs lab HT H0 Hlen Hsz.
Context (P : rparam) (s : rst) (Hfl : flagged F P (final F P One) s).
Context (fuel : nat) (Hfu : w * h + 1 < fuel) (words : list N).
Context (Hw : forall y x, y < h -> x < w -> words !! ((y + 1) * (w + 2) + (x + 1)) = Some (5 * 2 ^ 29 + N.of_nat (lab (y * w + x)))%N).
Notation F1 := (s_F s). Notation l := (reported F P One). Notation T := (tab F). Notation vp := (vp F1 l fuel).
Notation rec_of := (rec_of lab2 F P One s fuel). Notation r := (PRect 0 0 w h).
Lemma mnr : nregs F + 1 < fuel.
Proof. rewrite fo_nregs. lia. Qed.
Let Hvp := Hvp F1 l fuel (l_NoDup F P One) (vp_lt V lab2 F HI P One s Hfl fuel mnr).
Definition mpx (c : nat * nat) : nat := fst c * w + snd c.
Notation lbl := (fun c => lab (mpx c)).
Notation own := (mown F1 l fuel w h lbl).

Lemma mpx_coord c : c ∈ cells r -> mpx c / w = fst c /\ mpx c mod w = snd c /\ vw_in V (mpx c).
Proof.
  destruct c as [y x]. intros [Hy Hx]%elem_cells. cbn in Hy, Hx. unfold mpx. cbn [fst snd].
  destruct (coord w y x) as [E1 E2]; [lia|]. rewrite E1, E2. split; auto. split; auto. cbn [vw_in lview]. unfold in_rect. rewrite E1, E2. lia.
Qed.
Lemma mpx_find p : vw_in V p -> exists c, c ∈ cells r /\ mpx c = p.
Proof.
  intros Hp. cbn [vw_in lview] in Hp. unfold in_rect in Hp. exists (p / w, p mod w). split; [apply elem_cells; cbn; lia|].
  unfold mpx. cbn [fst snd]. rewrite (Nat.div_mod_eq p w) at 3. lia.
Qed.
Lemma mpx_inj c d : c ∈ cells r -> d ∈ cells r -> mpx c = mpx d -> c = d.
Proof.
  intros Hc Hd E. destruct (mpx_coord c Hc) as (E1 & E2 & _). destruct (mpx_coord d Hd) as (E3 & E4 & _). rewrite E in E1, E2. destruct c, d. cbn [fst snd] in *. congruence.
Qed.
Lemma mpx_px c : c ∈ cells r -> cpt r c = pixel w (mpx c).
Proof. intros Hc. unfold cpt, pixel. destruct (mpx_coord c Hc) as (-> & -> & _). cbn [r_left r_top]. f_equal; lia. Qed.
Lemma elem_mown j q : q ∈ own j <-> exists c, c ∈ cells r /\ rec_of (mpx c) = Some j /\ q = pixel w (mpx c).
Proof.
  unfold mown, hit. change (map ?f ?x) with (f <$> x). rewrite elem_of_list_fmap. split.
  - intros (c & -> & Hc). apply elem_of_list_filter in Hc as [Ho Hc]. exists c. split; auto. split; [exact Ho|by apply mpx_px].
  - intros (c & Hc & Ho & ->). exists c. split; [by rewrite mpx_px|]. apply elem_of_list_filter. split; [exact Ho|done].
Qed.
Lemma mown_once i i' k k' q : k < 4 -> k' < 4 -> q ∈ own4 own k i -> q ∈ own4 own k' i' -> i = i' /\ k = k'.
Proof.
  intros _ _. unfold own4. destruct (Nat.eqb_spec k 0) as [->|]; [|intros H; by apply elem_of_nil in H].
  destruct (Nat.eqb_spec k' 0) as [->|]; [|intros _ H; by apply elem_of_nil in H].
  intros (c & Hc & Ho & ->)%elem_mown (c' & Hc' & Ho' & E)%elem_mown. apply px_inj in E. rewrite E in Ho. split; [congruence|done].
Qed.
Lemma mown_NoDup i k : k < 4 -> NoDup (own4 own k i).
Proof.
  intros _. unfold own4. destruct (k =? 0); [|constructor]. unfold mown, hit. apply NoDup_map_in; [apply NoDup_filter, cells_NoDup|].
  intros c d [_ Hc]%elem_of_list_filter [_ Hdd]%elem_of_list_filter E. rewrite !mpx_px in E by auto. apply px_inj in E. by eapply mpx_inj.
Qed.
Lemma mpts_set j z : l !! j = Some z -> lists_set w (region_pixels V lab2 T z) (pts vp (own4 own) j).
Proof.
  intros Hz. split; [apply (pts_NoDup _ vp Hvp); [exact mown_once|exact mown_NoDup]|].
  intros q. rewrite (elem_pts _ vp Hvp). split.
  - intros (i & k & Hr & Hk & Hq). unfold own4 in Hq. destruct (k =? 0); [|by apply elem_of_nil in Hq].
    apply elem_mown in Hq as (c & Hc & Ho & ->). exists (mpx c). split; auto. destruct (mpx_coord c Hc) as (_ & _ & Hin).
    apply (rec_pix V lab2 F HI P One s Hfl fuel mnr _ j z Hin Hz). eauto.
  - intros (p & Hp & ->). assert (vw_in V p) as Hin by apply Hp. destruct (proj1 (rec_pix V lab2 F HI P One s Hfl fuel mnr p j z Hin Hz) Hp) as (i & Hi & Hr).
    destruct (mpx_find p Hin) as (c & Hc & <-). exists i, 0. split; auto. split; [lia|]. unfold own4. cbn [Nat.eqb]. apply elem_mown. eauto.
Qed.
Lemma mcost_fits thr : (Z.of_nat (sumto (mcost F1 l fuel thr) (length l)) < 2 ^ 31)%Z.
Proof.
  assert (result_fits F P One) as [_ Hr].
  { eapply (modest_fits V lab2 F P One (w * h)); [exact HI|apply lview_card; exact HF|by rewrite fo_nregs|]. unfold modest_image in Hmod. lia. }
  eapply Z.le_lt_trans; [|exact Hr]. apply Nat2Z.inj_le. clear Hr.
  etrans; [apply (sumto_mon _ (fun j => (match l !! j with Some z => size0 F z + 5 | None => 0 end) + length (chl vp j)))|].
  - intros j Hj. destruct (lookup_lt_is_Some_2 l j Hj) as [z Hz]. rewrite Hz.
    destruct (rec_sz V lab2 F HI P One s Hfl j z Hz) as (E & _). unfold mcost. rewrite E.
    pose proof (Nat.div_mod_eq (1 + length (chl vp j)) 2).
    set (q := (1 + length (chl vp j)) / 2) in *. set (u := ksum F1 l (chl vp j)). destruct (shr F1 l fuel thr j); lia.
  - rewrite sumto_add, (sumto_list (fun z => size0 F z + 5)). pose proof (kids_sum (length l) vp Hvp).
    assert (sum_list (map (fun z => size0 F z + 6) l) = sum_list (map (fun z => size0 F z + 5) l) + length l) as ->; [|lia].
    generalize l. intros q. induction q as [|x q IH]; [done|]. cbn in *. unfold id in *. lia.
Qed.
Lemma msize j : j < length l -> sz F1 l j = length (pts vp (own4 own) j).
Proof.
  intros Hj. destruct (lookup_lt_is_Some_2 l j Hj) as [z Hz]. destruct (rec_sz V lab2 F HI P One s Hfl j z Hz) as (-> & _ & Hlv).
  symmetry. eapply set_len; [by apply (pix_card V lab2 F HI)|by apply mpts_set].
Qed.

Lemma ms_extract_top thr heap0 : exists R, ms_extract fuel gm thr w h words F1 heap0 l = Some R /\ length (r_ms R) = length l /\
  forall j z, l !! j = Some z -> exists rc L js, r_ms R !! j = Some rc /\ ms_visit (length (r_ms R)) R [j] = Some (L, js) /\
    lists_set w (region_pixels V lab2 T z) L /\ ms_size rc = size0 F z /\ ms_gray rc = N.lxor (N.of_nat (gray0 F z)) gm /\ bounding L (ms_rect rc).
Proof.
  destruct (ms_extract_ok F1 l (dd F) fuel) with (gm := gm) (thr := thr) (w := w) (h := h) (words := words) (lbl := lbl) (heap0 := heap0) as (mem & ms & E & HFin).
  - apply (f1_id V lab2 F HI P One s Hfl). intros [k i] a Ha. destruct k as [|k]; [|done]. rewrite fo_get in Ha.
    destruct (regs !! i); [|done]. by injection Ha as <-.
  - exact (f1_dd V lab2 F HI P One s Hfl fuel mnr).
  - exact (f1_fuel V lab2 F HI P One s Hfl fuel mnr).
  - apply l_NoDup.
  - apply (l_flags V lab2 F HI P One s Hfl).
  - apply (vp_lt V lab2 F HI P One s Hfl fuel mnr).
  - intros c Hc. destruct (mpx_coord c Hc) as (_ & _ & Hin). pose proof (lab_stored V lab2 F HI P One s Hfl (mpx c) Hin) as Hst. cbn beta in Hst.
    destruct c as [y x]. apply elem_cells in Hc as [Hy Hx]. cbn in Hy, Hx. split; [|split; [|done]].
    + unfold word_at. cbn [fst snd r_w]. rewrite (Hw y x Hy Hx), bnd4_eq. done.
    + apply (f1_stored F P One s Hfl) in Hst as [a Ha]. rewrite fo_get in Ha. destruct (regs !! lab (mpx (y, x))) as [a'|] eqn:Ea; [|done].
      apply lookup_lt_Some in Ea. unfold modest_image in Hmod. lia.
  - exact msize.
  - intros j Hj. destruct (lookup_lt_is_Some_2 l j Hj) as [z Hz]. destruct (rec_own V lab2 F HI P One s Hfl fuel mnr j z Hz) as (p & Hin & Hp).
    destruct (mpx_find p Hin) as (c & Hc & <-). intros En. assert (pixel w (mpx c) ∈ own j) as Hel by (apply elem_mown; eauto).
    rewrite En in Hel. by apply elem_of_nil in Hel.
  - apply mcost_fits.
  - exists (MRes (mst vp own (shr F1 l fuel thr) (length l)) mem ms). split; [exact E|]. pose proof (fi_len _ _ _ _ _ _ _ _ HFin) as Hln. cbn [snd] in Hln.
    cbn [r_ms]. split; [done|]. intros j z Hz. assert (j < length l) as Hj by (by eapply lookup_lt_Some).
    destruct (fi_ms _ _ _ _ _ _ _ _ HFin j Hj) as (rc & Hrc & Hbox). rewrite (D_all _ vp Hvp) in Hbox by lia.
    destruct (ms_visit_one (length l) vp Hvp own (shr F1 l fuel thr) (mgr F1 l gm) (sz F1 l) msize (mem, ms) j HFin Hj) as (L & js & Ev & HL & _).
    destruct (rec_sz V lab2 F HI P One s Hfl j z Hz) as (Es & Eg & _).
    eexists _, L, js. split; [exact Hrc|]. split; [rewrite Hln; exact Ev|]. cbn [ms_size ms_gray ms_rect].
    destruct (mpts_set j z Hz) as [N1 N2]. split; [|split; [done|split]].
    + split; [by rewrite HL|]. intros q. by rewrite HL.
    + unfold mgr. by rewrite Eg.
    + eapply rect_bounding; [|exact Hbox]. intros q. by rewrite HL.
Qed.
End top.
