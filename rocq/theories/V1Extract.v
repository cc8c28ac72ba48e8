(* Fast MSER V1: the records of a call in terms of pixel sets. *)
From stdpp Require Import sorting relations functions list_numbers list.
From Coq Require Import NArith ZArith SpecFloat.
From Verif Require Import Spec TreeSpec TreeFacts JoinMath Grid FloodModel FloodInit FloodTree FloodCorrect
  ConnectModel ConnectProof PartModel PartProof WholeModel WholeProof WholeCorrect JoinCorrect FloatModel FloatFacts
  RecogModel RecogSpec RecogStatic RecogWorkers RecogSched RecogOrder RecogDup RecogTree RecogCompose RecogFinal RecogTransport RecogResults RecogPixels
  DetectModel Detect RectModel RectFacts ExtractModel ExtractDecode ExtractLink ExtractTree ExtractTop RunModel RunCorrect RunResults
  V1JoinModel V1Heap V1Model V1Union V1BuildModel V1AllocModel V1Build V1Alloc V1Comp V1RecogModel V1Recog V1Detect V1ExtractModel V1Copy V1Tops.
Local Open Scope nat_scope.

(* SPEC: record i of a result can be read: its pixels, each once, are the set S, and their
   number is its size *)
Definition k_lists (cols : nat) (R : kres) (i : nat) (S : nat -> Prop) : Prop :=
  exists r pl, k_recs R !! i = Some r /\ k_read (k_mem R) r = Some pl /\ NoDup pl /\ length pl = kr_size r /\
    forall p, S p <-> (p mod cols, p / cols) ∈ pl.
(* SPEC: the smallest rectangle around the pixel offsets S *)
Definition tight_rect (cols : nat) (S : nat -> Prop) (r : rect) : Prop :=
  (forall p, S p -> x_left r <= Z.of_nat (p mod cols) < x_left r + x_w r /\ x_top r <= Z.of_nat (p / cols) < x_top r + x_h r)%Z /\
  (exists p, S p /\ Z.of_nat (p mod cols) = x_left r) /\ (exists p, S p /\ Z.of_nat (p mod cols) = x_left r + x_w r - 1)%Z /\
  (exists p, S p /\ Z.of_nat (p / cols) = x_top r) /\ (exists p, S p /\ Z.of_nat (p / cols) = x_top r + x_h r - 1)%Z.

(* SPEC: the memory holds different pixels of the image, without gaps *)
Definition mem_filled (cols rows : nat) (mem : list (option (nat * nat))) : Prop :=
  exists ml, mem = Some <$> ml /\ NoDup ml /\ forall x y, (x, y) ∈ ml -> x < cols /\ y < rows.

(* SPEC: the records of a channel:
   - the memory holds different pixels of the image, without gaps;
   - each record can be read and lists a stable extremal region, with the smallest rectangle
     around it and its greatest (bright regions: least) value in the image;
   - of two nested ones the larger exceeds the smaller by more than the threshold;
   - each stable extremal region is listed, or it is nested with a listed one and both are
     within the threshold of a stable extremal region inside them *)
Record k_result (img : list N) (gm : N) (cols rows : nat) (P : rparam) (d : nat) (R : kres) : Prop := {
  kc_mem : mem_filled cols rows (k_mem R);
  kc_sound : forall i r, k_recs R !! i = Some r -> exists g S, k_lists cols R i S /\ mser (image_view img gm cols rows) P d g S /\
    tight_rect cols S (kr_rect r) /\ (gm = 0%N -> max_on img S (kr_gray r)) /\ (gm = 255%N -> min_on img S (kr_gray r));
  kc_apart : forall i j S S', i <> j -> k_lists cols R i S -> k_lists cols R j S' -> (forall p, S p -> S' p) -> exceeds (p_dup P) S S';
  kc_all : forall g S, mser (image_view img gm cols rows) P d g S -> (exists i, k_lists cols R i S) \/
    exists gc C i T, mser (image_view img gm cols rows) P d gc C /\ k_lists cols R i T /\
      (forall p, C p -> S p) /\ (forall p, C p -> T p) /\ ((forall p, S p -> T p) \/ (forall p, T p -> S p)) /\
      within (p_dup P) C S /\ within (p_dup P) C T
}.

(* SPEC: record i of a one-thread result: the words between its first and its last offset
   are the pixels of S, each once, and their number is its size *)
Definition o_lists (cols : nat) (O : list (option (nat * nat)) * list orec) (i : nat) (S : nat -> Prop) : Prop :=
  exists r pl p, snd O !! i = Some r /\ or_first r = Some p /\ or_last r = Some (p + length pl - 1) /\
    mapM (fun j => mjoin (fst O !! j)) (seq p (length pl)) = Some pl /\ NoDup pl /\ length pl = or_size r /\
    forall q, S q <-> (q mod cols, q / cols) ∈ pl.
(* SPEC: the records of a channel with one thread, as above without rectangles *)
Record o_result (img : list N) (gm : N) (cols rows : nat) (P : rparam) (d : nat) (O : list (option (nat * nat)) * list orec) : Prop := {
  oc_mem : mem_filled cols rows (fst O);
  oc_sound : forall i r, snd O !! i = Some r -> exists g S, o_lists cols O i S /\ mser (image_view img gm cols rows) P d g S /\
    (gm = 0%N -> max_on img S (or_gray r)) /\ (gm = 255%N -> min_on img S (or_gray r));
  oc_apart : forall i j S S', i <> j -> o_lists cols O i S -> o_lists cols O j S' -> (forall p, S p -> S' p) -> exceeds (p_dup P) S S';
  oc_all : forall g S, mser (image_view img gm cols rows) P d g S -> (exists i, o_lists cols O i S) \/
    exists gc C i T, mser (image_view img gm cols rows) P d gc C /\ o_lists cols O i T /\
      (forall p, C p -> S p) /\ (forall p, C p -> T p) /\ ((forall p, S p -> T p) \/ (forall p, T p -> S p)) /\
      within (p_dup P) C S /\ within (p_dup P) C T
}.

(* SPEC: schedules of the copying that let every worker finish *)
Definition copies (threads cols rows : nat) (xsched : list (list wreg) -> list rref -> list nat) : Prop :=
  forall F l, copy_fair threads (rows * cols) (xsched F l).
(* SPEC: the least size of a region is at least 2 and the threads less than two, so that
   the top regions have room and each is dealt to a worker *)
Definition sizes_ok (threads : nat) (P : rparam) : Prop := (2 <= p_min P)%Z /\ (Z.of_nat threads <= p_min P + 1)%Z.

Lemma xor_twice v : (v < 256)%N -> N.lxor (N.of_nat (N.to_nat (N.lxor v 255))) 255 = v.
Proof. intros _. rewrite N2Nat.id, N.lxor_assoc, N.lxor_nilpotent. apply N.lxor_0_r. Qed.

Section tree.
Context (img : list N) (gm : N) (cols rows hpn vpn : nat) (Hc : 0 < cols) (Hr : 0 < rows) (Hsm : small_image cols rows).
Context (HF : v1_fits hpn vpn img cols rows).
Notation V := (image_view img gm cols rows).
Lemma pixel_value p : vw_in V p -> exists v, img !! p = Some v /\ (v < 256)%N /\ vw_gray V p = N.to_nat (N.lxor v gm).
Proof using All.
  intros Hp. destruct (image_mod img gm cols rows p Hc Hp) as [H1 H2].
  assert (p < rows * cols) as Hlt. { rewrite (Nat.div_mod p cols) by lia. nia. }
  destruct (lookup_lt_is_Some_2 img p) as [v Hv]. { pose proof (v1_len _ _ _ _ _ HF). lia. }
  exists v. split; auto. split; [by eapply v1_byte|]. cbn. unfold level. by rewrite (nth_lookup_Some _ _ _ _ Hv).
Qed.
Lemma level_value g S : component V g S -> (gm = 0%N -> max_on img S (N.lxor (N.of_nat g) gm)) /\ (gm = 255%N -> min_on img S (N.lxor (N.of_nat g) gm)).
Proof using All.
  intros Hx. destruct (extremal_top _ _ _ Hx) as [(p & Hp & Hin & E) Hle]. destruct (pixel_value p Hin) as (v & Hv & Hb1 & Ev).
  assert (forall q, S q -> vw_in V q) as HS by (intros q; apply (extremal_in img gm cols rows g S q Hx)).
  split; intros Hg.
  - split.
    + exists p. split; [done|]. rewrite Hv. f_equal. rewrite Hg, N.lxor_0_r in *. lia.
    + intros q w Hq Hw. destruct (pixel_value q (HS q Hq)) as (v' & Hv' & _ & Ev'). pose proof (Hle q Hq) as H. rewrite Hg, N.lxor_0_r in *.
      assert (v' = w) as -> by congruence. lia.
  - assert (N.lxor (N.of_nat g) gm = v) as ->. { rewrite <-E, Ev, Hg. by apply xor_twice. }
    split; [by exists p|]. intros q w Hq Hw. destruct (pixel_value q (HS q Hq)) as (v' & Hv' & Hb2 & Ev'). pose proof (Hle q Hq) as H.
    assert (v' = w) as -> by congruence. rewrite <-E, Ev, Ev', Hg, !lxor_byte in H by done. lia.
Qed.

Context (threads : nat) (Hth : 0 < threads) (F : list (list wreg)) (Pt : list (list wpt)).
Context (HB : v1_built img gm cols rows F Pt) (HRec : v1_records threads (rows * cols) F).
Notation G := (forest_of F).
Context (P : rparam) (fuel cap d : nat) (sched : list nat) (var0 : rref -> flt).
Context (Hdl : delta_ok P) (Hsane : sane P) (Hfuel : rows * cols + 1 < fuel).
Context (Hsched : complete G sched) (Hcap : rows * cols <= cap) (Hb : below1 (p_dup P)).
Context (Hsz : sizes_ok threads P).

(* recognition and extraction *)
Definition the_list : list rref := reported G P (ThirtyTwo []).
Definition runs (R : kres) (O : list (option (nat * nat)) * list orec) (sched : list nat) (var0 : rref -> flt) : Prop :=
  exists s, v1_recognize fuel threads P sched cap (recog_start F var0) = Some (s, the_list, length the_list) /\
  (forall xs, copy_fair threads (rows * cols) xs -> v1_extract_k fuel threads cap gm F Pt (s_F s) the_list xs = Some R) /\
  (2 * (rows * cols) <= fuel -> v1_extract_1 fuel cap gm F Pt (s_F s) the_list = Some O).
Lemma take_ok : exists R O, (forall sched' var0', complete G sched' -> runs R O sched' var0') /\
  (mem_filled cols rows (k_mem R) /\ length (k_recs R) = length the_list /\
    forall i r, k_recs R !! i = Some r -> exists z a pl, the_list !! i = Some z /\ v1_live F z a /\ v1_pixels Pt a pl /\
      k_read (k_mem R) r = Some pl /\ kr_size r = Z.to_nat (w_size a) /\ kr_gray r = N.lxor (N.of_nat (w_gray a)) gm /\
      kr_rect r = Rect (Z.of_nat (w_left a)) (Z.of_nat (w_top a))
                       (Z.of_nat (w_right a) - Z.of_nat (w_left a) + 1) (Z.of_nat (w_bot a) - Z.of_nat (w_top a) + 1)) /\
  (2 * (rows * cols) <= fuel -> mem_filled cols rows (fst O) /\ length (snd O) = length the_list /\
    forall i r, snd O !! i = Some r -> exists z a pl p, the_list !! i = Some z /\ v1_live F z a /\ v1_pixels Pt a pl /\
      or_first r = Some p /\ or_last r = Some (p + length pl - 1) /\ mapM (fun i => mjoin (fst O !! i)) (seq p (length pl)) = Some pl /\
      or_size r = Z.to_nat (w_size a) /\ or_gray r = N.lxor (N.of_nat (w_gray a)) gm).
Proof using All.
  destruct (v1_input img gm cols rows Hc Hr Hsm threads F Pt HB HRec) as (lab & HI & _).
  assert (forall sched' var0', complete G sched' -> v1_ready V lab G P fuel threads sched' cap (recog_start F var0')) as HR.
  { intros sched' var0' Hs. destruct HRec as (L1 & L2 & _). constructor; auto; try done; rewrite ?forest_num, ?forest_len; try done; lia. }
  destruct (v1_run V lab G P fuel threads sched cap _ (HR sched var0 Hsched) Hb) as (s & E & Hfl).
  pose proof HB as (_ & _ & _ & (seg & Hseg) & _).
  assert (nregs G + 1 < fuel) as Hfu. { rewrite forest_num. destruct HRec as (_ & ? & _). lia. }
  assert (forall r a, v1_live F r a ->
    point_walk Pt (Z.to_nat (w_size a)) (w_head a) = Some (seg r) /\ NoDup (seg r) /\ last (seg r) = w_tail a /\
    forall y b, v1_live F y b ->
      (vunder (v1_table F) y r -> exists A B, seg r = A ++ seg y ++ B) /\
      (forall q, q ∈ seg r -> q ∈ seg y -> vunder (v1_table F) y r \/ vunder (v1_table F) r y)) as Hseg'.
  { intros r a [Ha Hf]. destruct (Hseg r a Ha Hf) as (A1 & A2 & A3 & A4). split; [done|]. split; [done|]. split; [done|].
    intros y b [Hy Hfy]. exact (A4 y b Hy Hfy). }
  destruct Hsz as [Hz1 Hz2].
  pose proof (fun s Hfl => extract_all img gm cols rows Hc Hr Hsm F Pt HB lab HI P (ThirtyTwo []) s Hfl fuel Hfu seg Hseg' threads Hth Hz1 Hz2 cap Hcap) as HK.
  pose proof (fun s Hfl => extract_one img gm cols rows Hc Hr Hsm F Pt HB lab HI P (ThirtyTwo []) s Hfl fuel Hfu seg Hseg' threads Hth Hz1 Hz2 cap Hcap) as HO.
  set (tl := topl F P (ThirtyTwo []) s fuel) in *.
  exists (kres_of gm F Pt seg tl the_list), (ores_of gm F Pt seg tl the_list). split; [|split].
  - intros sched' var0' Hs. destruct (v1_run V lab G P fuel threads sched' cap _ (HR sched' var0' Hs) Hb) as (s' & E' & Hfl'). exists s'. split; [exact E'|].
    assert (topl F P (ThirtyTwo []) s' fuel = tl) as Et by (by apply (topl_same V F lab HI)). split.
    + destruct (HK s' Hfl') as (R & ER & -> & _). rewrite Et in ER. exact ER.
    + intros H2. destruct (HO s' Hfl' H2) as (mem & os & EO & Eo & _). rewrite Et in Eo. unfold the_list. rewrite EO. by rewrite Eo.
  - destruct (HK s Hfl) as (R & _ & -> & HK'). exact HK'.
  - intros H2. destruct (HO s Hfl H2) as (mem & os & _ & Eo & HO'). change (reported G P (ThirtyTwo [])) with the_list in Eo. fold tl in Eo. rewrite <-Eo. exact HO'.
Qed.

Lemma region_facts z a : v1_live F z a -> exists pl, v1_pixels Pt a pl /\ NoDup pl /\ length pl = Z.to_nat (w_size a) /\
  (forall x y, (x, y) ∈ pl -> x < cols) /\ tight_box a pl.
Proof using All.
  intros [Ha Hf]. destruct HB as (lab & _ & _ & _ & Hreg). destruct (Hreg z a Ha Hf) as (_ & _ & _ & pl & W & N & E & _ & _ & T). exists pl.
  split; [exact W|]. split; [done|]. split; [|split; [|done]].
  - clear -W. revert W. generalize (w_head a) (Z.to_nat (w_size a)). intros o n. revert o pl. induction n as [|n IH]; intros o pl; cbn [pixel_walk]; [by intros [= <-]|].
    destruct o as [q|]; [|done]. destruct (get2 Pt q) as [x|]; [|done]. destruct (pixel_walk Pt n (t_next x)) eqn:E; [|done]. intros [= <-]. cbn. f_equal. eauto.
  - intros x y H. by apply E in H as (? & _).
Qed.
Lemma off_of x y : x < cols -> (y * cols + x) mod cols = x /\ (y * cols + x) / cols = y.
Proof using All.
  intros H. rewrite Nat.add_comm, Nat.mod_add, Nat.div_add by lia. by rewrite Nat.mod_small, Nat.div_small by lia.
Qed.
Lemma box_rect a pl S : tight_box a pl -> (forall x y, (x, y) ∈ pl -> x < cols) -> (forall p, S p <-> (p mod cols, p / cols) ∈ pl) ->
  tight_rect cols S (Rect (Z.of_nat (w_left a)) (Z.of_nat (w_top a)) (Z.of_nat (w_right a) - Z.of_nat (w_left a) + 1) (Z.of_nat (w_bot a) - Z.of_nat (w_top a) + 1)).
Proof using All.
  intros (T1 & (y1 & T2) & (y2 & T3) & (x1 & T4) & (x2 & T5)) Hx HS. unfold tight_rect. cbn [x_left x_top x_w x_h].
  assert (forall x y, (x, y) ∈ pl -> S (y * cols + x)) as HS'. { intros x y H. apply HS. destruct (off_of x y (Hx x y H)) as [-> ->]. done. }
  split; [|split_and!].
  - intros p Hp. apply HS, T1 in Hp. lia.
  - eexists. split; [apply (HS' _ _ T2)|]. by rewrite (proj1 (off_of _ _ (Hx _ _ T2))).
  - eexists. split; [apply (HS' _ _ T3)|]. rewrite (proj1 (off_of _ _ (Hx _ _ T3))). lia.
  - eexists. split; [apply (HS' _ _ T4)|]. by rewrite (proj2 (off_of _ _ (Hx _ _ T4))).
  - eexists. split; [apply (HS' _ _ T5)|]. rewrite (proj2 (off_of _ _ (Hx _ _ T5))). lia.
Qed.

Lemma k_result_ok : (p_delta P = Z.of_nat d)%Z -> exists R O, (forall sched' var0', complete G sched' -> runs R O sched' var0') /\
  k_result img gm cols rows P d R /\ length (k_recs R) = length the_list /\
  (forall S, (exists i, k_lists cols R i S) <-> exists g, v1_reports cols F Pt the_list g S) /\
  (2 * (rows * cols) <= fuel -> o_result img gm cols rows P d O).
Proof using All.
  intros Hd. destruct take_ok as (R & O & ER & (Rmem & Rlen & Rrec) & HO). exists R, O. split; [done|].
  destruct (ER sched var0 Hsched) as (s & E & _).
  destruct (v1_result_ok img gm cols rows Hc Hr Hsm threads F Pt HB HRec P fuel cap d sched var0 Hdl Hd Hsane ltac:(lia) Hsched Hcap Hb) as (s' & l' & k' & E' & HV).
  rewrite E in E'. injection E' as <- <- <-. destruct HV as [_ Hnd Hsound Hapart Hall].
  assert (forall i S, k_lists cols R i S <-> exists z g, the_list !! i = Some z /\ v1_lists cols F Pt z g S) as HL.
  { intros i S. split.
    - intros (r & pl & Hi & Hrd & N & Hlen & HS). destruct (Rrec i r Hi) as (z & a & pl' & Hz & Ha & Hpx & Hrd' & _).
      assert (pl' = pl) as -> by congruence. exists z, (w_gray a). split; [done|]. exists a, pl. auto.
    - intros (z & g & Hz & (a & pl & Ha & Hg & Hpx & HS)). destruct (lookup_lt_is_Some_2 (k_recs R) i) as [r Hi].
      { rewrite Rlen. by eapply lookup_lt_Some. }
      destruct (Rrec i r Hi) as (z' & a' & pl' & Hz' & Ha' & Hpx' & Hrd' & Hsz' & _). assert (z' = z) as -> by congruence.
      assert (a' = a) as -> by (destruct Ha, Ha'; congruence). assert (pl' = pl) as -> by (unfold v1_pixels in *; congruence).
      destruct (region_facts z a Ha) as (pl2 & Hpx2 & N & Hlen & _). assert (pl2 = pl) as -> by (unfold v1_pixels in *; congruence).
      exists r, pl. split; [done|]. split; [done|]. split; [done|]. split; [congruence|done]. }
  assert (forall S, (exists i, k_lists cols R i S) <-> exists g, v1_reports cols F Pt the_list g S) as HLr.
  { intros S. split.
    - intros (i & (z & g & Hz & Hv)%HL). exists g, z. split; [by eapply elem_of_list_lookup_2|done].
    - intros (g & z & Hz & Hv). apply elem_of_list_lookup in Hz as (i & Hi). exists i. apply HL. eauto. }
  split; [|split; [done|split; [done|]]].
  2: { intros H2. destruct (HO H2) as (Omem & Olen & Orec).
    assert (forall i S, o_lists cols O i S <-> exists z g, the_list !! i = Some z /\ v1_lists cols F Pt z g S) as HLo.
    { intros i S. split.
      - intros (r & pl & p & Hi & Hf & Hlast & Hrd & N & Hlen & HS). destruct (Orec i r Hi) as (z & a & pl' & p' & Hz & Ha & Hpx & Hf' & _ & Hrd' & Hsz' & _).
        assert (p' = p) as -> by congruence. assert (length pl' = length pl) as El.
        { destruct (region_facts z a Ha) as (pl2 & Hpx2 & _ & Hlen2 & _). assert (pl2 = pl') as -> by (unfold v1_pixels in *; congruence). congruence. }
        rewrite El in Hrd'. assert (pl' = pl) as -> by congruence. exists z, (w_gray a). split; [done|]. exists a, pl. auto.
      - intros (z & g & Hz & (a & pl & Ha & Hg & Hpx & HS)). destruct (lookup_lt_is_Some_2 (snd O) i) as [r Hi].
        { rewrite Olen. by eapply lookup_lt_Some. }
        destruct (Orec i r Hi) as (z' & a' & pl' & p' & Hz' & Ha' & Hpx' & Hf' & Hla' & Hrd' & Hsz' & _). assert (z' = z) as -> by congruence.
        assert (a' = a) as -> by (destruct Ha, Ha'; congruence). assert (pl' = pl) as -> by (unfold v1_pixels in *; congruence).
        destruct (region_facts z a Ha) as (pl2 & Hpx2 & N & Hlen & _). assert (pl2 = pl) as -> by (unfold v1_pixels in *; congruence).
        exists r, pl, p'. split; [done|]. split; [done|]. split; [done|]. split; [done|]. split; [done|]. split; [congruence|done]. }
    assert (forall S, (exists i, o_lists cols O i S) <-> exists g, v1_reports cols F Pt the_list g S) as HLro.
    { intros S. split.
      - intros (i & (z & g & Hz & Hv)%HLo). exists g, z. split; [by eapply elem_of_list_lookup_2|done].
      - intros (g & z & Hz & Hv). apply elem_of_list_lookup in Hz as (i & Hi). exists i. apply HLo. eauto. }
    constructor; [done| | |].
    - intros i r Hi. destruct (Orec i r Hi) as (z & a & pl & p & Hz & Ha & Hpx & _ & _ & _ & _ & Hg).
      assert (z ∈ the_list) as Hzl by (by eapply elem_of_list_lookup_2).
      destruct (Hsound z Hzl) as (g & S & Hls & Hm). exists g, S. split; [apply HLo; eauto|]. split; [done|].
      destruct Hls as (a' & pl' & Ha' & Hg' & Hpx' & HS). assert (a' = a) as -> by (destruct Ha, Ha'; congruence).
      rewrite Hg, Hg'. apply level_value. by destruct Hm as (? & _).
    - intros i j S S' Hij Hi Hj Hsub. apply HLo in Hi as (x & g & Hx & Hi). apply HLo in Hj as (y & g' & Hy & Hj).
      eapply (Hapart x y); eauto using elem_of_list_lookup_2. intros ->. apply Hij. by eapply NoDup_lookup.
    - intros g S Hm. destruct (Hall g S Hm) as [Hrep|(gc & C & gr & T & C1 & C2 & C3)].
      + left. apply HLro. eauto.
      + right. destruct (proj2 (HLro T) (ex_intro _ gr C2)) as (i & Hi). exists gc, C, i, T. auto. }
  constructor; [done| | |].
  - intros i r Hi. destruct (Rrec i r Hi) as (z & a & pl & Hz & Ha & Hpx & Hrd & Hsz' & Hg & Hrc).
    assert (z ∈ the_list) as Hzl by (by eapply elem_of_list_lookup_2).
    destruct (Hsound z Hzl) as (g & S & Hls & Hm). exists g, S. split; [apply HL; eauto|]. split; [done|].
    destruct Hls as (a' & pl' & Ha' & Hg' & Hpx' & HS). assert (a' = a) as -> by (destruct Ha, Ha'; congruence).
    assert (pl' = pl) as -> by (unfold v1_pixels in *; congruence).
    destruct (region_facts z a Ha) as (pl2 & Hpx2 & _ & _ & Hx & T). assert (pl2 = pl) as -> by (unfold v1_pixels in *; congruence).
    split; [rewrite Hrc; by apply (box_rect a pl)|]. rewrite Hg, Hg'. apply level_value. by destruct Hm as (? & _).
  - intros i j S S' Hij Hi Hj Hsub. apply HL in Hi as (x & g & Hx & Hi). apply HL in Hj as (y & g' & Hy & Hj).
    eapply (Hapart x y); eauto using elem_of_list_lookup_2. intros ->. apply Hij. by eapply NoDup_lookup.
  - intros g S Hm. destruct (Hall g S Hm) as [Hrep|(gc & C & gr & T & C1 & C2 & C3)].
    + left. apply HLr. eauto.
    + right. destruct (proj2 (HLr T) (ex_intro _ gr C2)) as (i & Hi). exists gc, C, i, T. auto.
Qed.
End tree.

Section call.
Context (threads hpn vpn : nat) (img : list N) (cols rows n fuel : nat) (m : vmem) (pinfo : list (list nat * list nat)).
Context (P : rparam) (sched : forest -> list nat) (HC : v1_call threads hpn vpn img cols rows n fuel m pinfo P sched).
Context (Hb : below1 (p_dup P)) (Hsz : sizes_ok threads P).
Notation cap := (h_size threads cols rows).

Lemma call_threads : 0 < threads.
Proof using All.
  destruct HC as [HS _ _ _ _]. pose proof (st_grid _ _ _ _ _ _ _ _ _ _ HS) as Hg. destruct threads; [done|lia].
Qed.

Lemma channel_k d gm F os : (p_delta P = Z.of_nat d)%Z -> v1_built img gm cols rows F (vb_pts <$> os) -> v1_records threads (rows * cols) F ->
  exists R O, k_result img gm cols rows P d R /\ length (k_recs R) = length (the_list F P) /\
    (forall S, (exists i, k_lists cols R i S) <-> exists g, v1_reports cols F (vb_pts <$> os) (the_list F P) g S) /\
    (2 * (rows * cols) <= fuel -> o_result img gm cols rows P d O) /\
    (forall fresh bs sched' var0 xsched, finishing sched' -> copies threads cols rows xsched -> vbuild n fuel threads gm fresh img cols rows bs = Some (F, os) ->
      v1_channel n fuel threads gm fresh img cols rows P bs sched' xsched var0 = Some (F, os, the_list F P, R)) /\
    (forall fresh bs sched' var0, threads = 1 -> finishing sched' -> 2 * (rows * cols) <= fuel -> vbuild n fuel 1 gm fresh img cols rows bs = Some (F, os) ->
      v1_channel_1 n fuel gm fresh img cols rows P bs sched' var0 = Some (F, os, the_list F P, O)).
Proof using All.
  intros Hd HB HR. destruct (call_pos _ _ _ _ _ _ _ _ _ _ _ _ HC) as [Hc Hr]. pose proof (call_cap _ _ _ _ _ _ _ _ _ _ _ _ HC) as Hcap.
  pose proof call_threads as Hth. destruct HC as [HS C1 C2 C3 C4]. pose proof (st_fuel _ _ _ _ _ _ _ _ _ _ HS) as Hf.
  pose proof (st_fits _ _ _ _ _ _ _ _ _ _ HS) as HF.
  destruct (k_result_ok img gm cols rows hpn vpn Hc Hr C1 HF threads Hth F (vb_pts <$> os) HB HR P fuel cap d (sched (forest_of F)) (fun _ => fzero) C2 C3
    ltac:(lia) (C4 (forest_of F)) Hcap Hb Hsz Hd) as (R & O & ER & HK & HL & HS' & HO).
  exists R, O. split; [done|]. split; [done|]. split; [done|]. split; [done|]. split.
  - intros fresh bs sched' var0 xsched Hs Hx EB. unfold v1_channel, v1_detect. destruct (ER (sched' (forest_of F)) var0 (Hs _)) as (s & E & Ek & _). rewrite EB, E.
    rewrite (Ek _ (Hx F (the_list F P))). done.
  - intros fresh bs sched' var0 E1 Hs H2 EB. unfold v1_channel_1, v1_detect. rewrite E1 in *. destruct (ER (sched' (forest_of F)) var0 (Hs _)) as (s & E & _ & Eo). rewrite EB, E.
    rewrite (Eo H2). done.
Qed.

Lemma v1_channel_run d gm var0 xsched : (p_delta P = Z.of_nat d)%Z -> gm = 0%N \/ gm = 255%N -> copies threads cols rows xsched ->
  exists bs F os l R, valloc threads cols rows m pinfo = Some bs /\
    v1_channel n fuel threads gm true img cols rows P bs sched xsched var0 = Some (F, os, l, R) /\
    k_result img gm cols rows P d R /\
    (gm = 0%N -> forall os' var2 xsched2, Forall2 v1_kept os os' -> copies threads cols rows xsched2 -> exists F2 os2 l2 R2,
       v1_channel n fuel threads 255 false img cols rows P os' sched xsched2 var2 = Some (F2, os2, l2, R2) /\
       k_result img 255 cols rows P d R2).
Proof using All.
  intros Hd Hgm Hx. destruct (v1_trees _ _ _ _ _ _ _ _ _ _ _ _ HC gm Hgm) as (bs & F & os & A & B & H1 & H2 & H3).
  destruct (channel_k d gm F os Hd H1 H2) as (R & O & HK & _ & _ & _ & E & _). exists bs, F, os, (the_list F P), R. split; [done|]. split; [apply E; auto; apply HC|]. split; [done|].
  intros Hg os' var2 xsched2 Hk Hx2. destruct (H3 Hg os' Hk) as (F2 & os2 & B2 & H12 & H22).
  destruct (channel_k d 255%N F2 os2 Hd H12 H22) as (R2 & O2 & HK2 & _ & _ & _ & E2 & _). exists F2, os2, (the_list F2 P), R2. split; [apply E2; auto; apply HC|done].
Qed.

(* one thread *)
Lemma v1_channel_one d gm var0 : (p_delta P = Z.of_nat d)%Z -> gm = 0%N \/ gm = 255%N -> threads = 1 -> 2 * (rows * cols) <= fuel ->
  exists bs F os l O, valloc 1 cols rows m pinfo = Some bs /\
    v1_channel_1 n fuel gm true img cols rows P bs sched var0 = Some (F, os, l, O) /\
    o_result img gm cols rows P d O /\
    (gm = 0%N -> forall os' var2, Forall2 v1_kept os os' -> exists F2 os2 l2 O2,
       v1_channel_1 n fuel 255 false img cols rows P os' sched var2 = Some (F2, os2, l2, O2) /\
       o_result img 255 cols rows P d O2).
Proof using All.
  intros Hd Hgm E1 Hfu. destruct (v1_trees _ _ _ _ _ _ _ _ _ _ _ _ HC gm Hgm) as (bs & F & os & A & B & H1 & H2 & H3).
  destruct (channel_k d gm F os Hd H1 H2) as (R & O & _ & _ & _ & HO & _ & E). exists bs, F, os, (the_list F P), O. split; [by rewrite <-E1|].
  split; [apply E; auto; [apply HC|by rewrite <-E1]|]. split; [auto|].
  intros Hg os' var2 Hk. destruct (H3 Hg os' Hk) as (F2 & os2 & B2 & H12 & H22).
  destruct (channel_k d 255%N F2 os2 Hd H12 H22) as (R2 & O2 & _ & _ & _ & HO2 & _ & E2). exists F2, os2, (the_list F2 P), O2.
  split; [apply E2; auto; [apply HC|by rewrite <-E1]|auto].
Qed.
End call.

(* the schedules of recognition and copying and the old variations do not matter *)
Lemma v1_channel_same threads hpn vpn img cols rows n fuel m pinfo P sched0 gm : v1_call threads hpn vpn img cols rows n fuel m pinfo P sched0 ->
  gm = 0%N \/ gm = 255%N -> below1 (p_dup P) -> (0 <= p_delta P)%Z -> sizes_ok threads P ->
  exists bs F os l R, valloc threads cols rows m pinfo = Some bs /\
    forall sched xsched var0, finishing sched -> copies threads cols rows xsched ->
    v1_channel n fuel threads gm true img cols rows P bs sched xsched var0 = Some (F, os, l, R).
Proof.
  intros HC Hgm Hb Hd0 Hsz. destruct (v1_trees _ _ _ _ _ _ _ _ _ _ _ _ HC gm Hgm) as (bs & F & os & A & B & H1 & H2 & _).
  assert (exists d, p_delta P = Z.of_nat d)%Z as (d & Hd). { exists (Z.to_nat (p_delta P)). lia. }
  destruct (channel_k _ _ _ _ _ _ _ _ _ _ _ _ HC Hb Hsz d gm F os Hd H1 H2) as (R & O & _ & _ & _ & _ & E & _).
  exists bs, F, os, (the_list F P), R. split; [done|]. intros sched xsched var0 Hs Hx. by apply E.
Qed.

(* the records of V1 with any number of threads and of V2 list the same sets *)
Lemma list_reports img gm cols rows F Pt threads P : 0 < cols -> 0 < rows -> small_image cols rows ->
  v1_built img gm cols rows F Pt -> v1_records threads (rows * cols) F -> sane P -> below1 (p_dup P) ->
  exists lab, recog_input (image_view img gm cols rows) lab (forest_of F) /\
    forall S, (exists g, v1_reports cols F Pt (the_list F P) g S) <-> reports (image_view img gm cols rows) lab (forest_of F) (reported (forest_of F) P One) S.
Proof.
  intros Hc Hr Hsm HB HRec Hs Hb. destruct (v1_input img gm cols rows Hc Hr Hsm threads F Pt HB HRec) as (lab & HI & HL & HM). exists lab. split; [done|].
  unfold the_list. rewrite (reported_same _ lab _ P (ThirtyTwo []) One HI Hs Hb). intros S. split.
  - intros (g & z & Hz & Hv). destruct (HM z g S Hv) as (v & _ & _ & Hp). exists z. auto.
  - intros (z & Hz & Hp). assert (exists v, alive (forest_of F) z v) as (v & Hv).
    { destruct (live_alive (forest_of F) z) as (v & Hv & _); [|eauto]. by apply (elem_reported _ lab _ HI P One z) in Hz as (? & _). }
    exists (v_gray v), z. split; [done|]. destruct (HL z v Hv) as (a & pl & A1 & A2 & A3 & A4). exists a, pl. split; auto. split; auto. split; auto.
    intros p. by rewrite Hp, A4.
Qed.
Lemma v1_channels_agree threads hpn vpn threads' hpn' vpn' img cols rows n fuel n' fuel' m pinfo m' pinfo' P sched sched' xsched xsched' var0 var0' gm :
  v1_call threads hpn vpn img cols rows n fuel m pinfo P sched ->
  v1_call threads' hpn' vpn' img cols rows n' fuel' m' pinfo' P sched' -> below1 (p_dup P) -> gm = 0%N \/ gm = 255%N ->
  (0 <= p_delta P)%Z -> sizes_ok threads P -> sizes_ok threads' P -> copies threads cols rows xsched -> copies threads' cols rows xsched' ->
  exists bs bs' F os l R F' os' l' R', valloc threads cols rows m pinfo = Some bs /\ valloc threads' cols rows m' pinfo' = Some bs' /\
    v1_channel n fuel threads gm true img cols rows P bs sched xsched var0 = Some (F, os, l, R) /\
    v1_channel n' fuel' threads' gm true img cols rows P bs' sched' xsched' var0' = Some (F', os', l', R') /\
    length (k_recs R) = length (k_recs R') /\ forall S, (exists i, k_lists cols R i S) <-> exists i, k_lists cols R' i S.
Proof.
  intros HC HC' Hb Hgm Hd0 Hz Hz' Hx Hx'. destruct (v1_trees _ _ _ _ _ _ _ _ _ _ _ _ HC gm Hgm) as (bs & F & os & A & B & H1 & H2 & _).
  destruct (v1_trees _ _ _ _ _ _ _ _ _ _ _ _ HC' gm Hgm) as (bs' & F' & os' & A' & B' & H1' & H2' & _).
  pose proof (vl_delta _ _ _ _ _ _ _ _ _ _ _ _ HC) as Hdl. pose proof (vl_sane _ _ _ _ _ _ _ _ _ _ _ _ HC) as Hs.
  assert (exists d, p_delta P = Z.of_nat d)%Z as (d & Hd). { exists (Z.to_nat (p_delta P)). lia. }
  destruct (channel_k _ _ _ _ _ _ _ _ _ _ _ _ HC Hb Hz d gm F os Hd H1 H2) as (R & O & _ & L & HS & _ & E & _).
  destruct (channel_k _ _ _ _ _ _ _ _ _ _ _ _ HC' Hb Hz' d gm F' os' Hd H1' H2') as (R' & O' & _ & L' & HS' & _ & E' & _).
  exists bs, bs', F, os, (the_list F P), R, F', os', (the_list F' P), R'. split; [done|]. split; [done|].
  split; [apply E; auto; apply HC|]. split; [apply E'; auto; apply HC'|].
  destruct (call_pos _ _ _ _ _ _ _ _ _ _ _ _ HC) as [Hc Hr]. pose proof (vl_small _ _ _ _ _ _ _ _ _ _ _ _ HC) as Hsm.
  destruct (list_reports img gm cols rows F _ threads P Hc Hr Hsm H1 H2 Hs Hb) as (lab & HI & Hrep).
  destruct (list_reports img gm cols rows F' _ threads' P Hc Hr Hsm H1' H2' Hs Hb) as (lab' & HI' & Hrep').
  destruct (reported_sets _ lab lab' (forest_of F) (forest_of F') P (ThirtyTwo []) (ThirtyTwo []) HI HI' Hdl Hs Hb) as [HN _].
  destruct (reported_sets _ lab lab' (forest_of F) (forest_of F') P One One HI HI' Hdl Hs Hb) as [_ HN2].
  split; [rewrite L, L'; exact HN|]. intros S. by rewrite HS, HS', Hrep, Hrep', HN2.
Qed.
Lemma v1_v2_records threads hpn vpn img cols rows n fuel m pinfo P sched xsched var0 gm fuel' c b R2 :
  v1_call threads hpn vpn img cols rows n fuel m pinfo P sched -> below1 (p_dup P) -> gm = 0%N \/ gm = 255%N ->
  (0 <= p_delta P)%Z -> sizes_ok threads P -> copies threads cols rows xsched ->
  image_fits 2 2 img cols rows -> channel_result img gm cols rows fuel' P c b R2 ->
  exists bs F os l R, valloc threads cols rows m pinfo = Some bs /\
    v1_channel n fuel threads gm true img cols rows P bs sched xsched var0 = Some (F, os, l, R) /\
    length (k_recs R) = length (r_ms R2) /\ forall S, (exists i, k_lists cols R i S) <-> exists j, lists_record cols R2 j S.
Proof.
  intros HC Hb Hgm Hd0 Hz Hx HF HR2. destruct (v1_trees _ _ _ _ _ _ _ _ _ _ _ _ HC gm Hgm) as (bs & F & os & A & B & H1 & H2 & _).
  pose proof (vl_delta _ _ _ _ _ _ _ _ _ _ _ _ HC) as Hdl. pose proof (vl_sane _ _ _ _ _ _ _ _ _ _ _ _ HC) as Hs.
  assert (exists d, p_delta P = Z.of_nat d)%Z as (d & Hd). { exists (Z.to_nat (p_delta P)). lia. }
  destruct (channel_k _ _ _ _ _ _ _ _ _ _ _ _ HC Hb Hz d gm F os Hd H1 H2) as (R & O & _ & L & HS & _ & E & _).
  exists bs, F, os, (the_list F P), R. split; [done|]. split; [apply E; auto; apply HC|].
  destruct (call_pos _ _ _ _ _ _ _ _ _ _ _ _ HC) as [Hc Hr]. pose proof (vl_small _ _ _ _ _ _ _ _ _ _ _ _ HC) as Hsm.
  destruct (list_reports img gm cols rows F _ threads P Hc Hr Hsm H1 H2 Hs Hb) as (lab & HI & Hrep).
  destruct (record_reports _ _ _ _ _ _ _ _ _ HF HR2) as (F' & lab' & s' & l' & k' & b' & HR & Er & Hlen & _ & Hiff).
  destruct (run_recognize _ _ _ _ _ _ _ HR b) as (s2 & Er2 & _). rewrite Er in Er2. injection Er2 as -> -> -> ->.
  pose proof (rd_input _ _ _ _ _ _ _ HR) as HI'.
  destruct (reported_sets _ lab lab' (forest_of F) F' P (ThirtyTwo []) (mode_of 4 (rects 2 2 cols rows) (c_sched c F')) HI HI' Hdl Hs Hb) as [HN _].
  destruct (reported_sets _ lab lab' (forest_of F) F' P One (mode_of 4 (rects 2 2 cols rows) (c_sched c F')) HI HI' Hdl Hs Hb) as [_ HN2].
  split; [rewrite L, <-Hlen; exact HN|]. intros S. by rewrite HS, Hiff, Hrep, HN2.
Qed.
