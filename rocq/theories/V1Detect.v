(* Fast MSER V1: building the tree and recognition together, in terms of pixel sets; and
   the comparison with V2. *)
From stdpp Require Import sorting relations functions list_numbers list.
From Coq Require Import NArith ZArith SpecFloat.
From Verif Require Import Spec TreeSpec TreeFacts JoinMath Grid FloodModel FloodInit FloodTree FloodCorrect
  ConnectModel ConnectProof PartModel PartProof WholeModel WholeProof WholeCorrect JoinCorrect FloatModel FloatFacts
  RecogModel RecogSpec RecogStatic RecogWorkers RecogSched RecogOrder RecogTree RecogCompose RecogFinal RecogTransport RecogResults RecogPixels
  DetectModel Detect V1JoinModel V1Heap V1Model V1Union V1BuildModel V1AllocModel V1Build V1Alloc V1Comp V1RecogModel V1Recog.
Local Open Scope nat_scope.

(* SPEC: region z survives, has level g and lists the pixel offsets S *)
Definition v1_lists (cols : nat) (F : list (list wreg)) (Pt : list (list wpt)) (z : rref) (g : nat) (S : nat -> Prop) : Prop :=
  exists a pl, v1_live F z a /\ w_gray a = g /\ v1_pixels Pt a pl /\ forall p, S p <-> (p mod cols, p / cols) ∈ pl.
(* SPEC: the set S of level g is reported by the list l of regions *)
Definition v1_reports (cols : nat) (F : list (list wreg)) (Pt : list (list wpt)) (l : list rref) (g : nat) (S : nat -> Prop) : Prop :=
  exists z, z ∈ l /\ v1_lists cols F Pt z g S.

(* SPEC: the candidates l of a tree F with the points Pt:
   - each is listed once, in the order of levels, and a pointer to each fits in the heap;
   - each is a stable extremal region of the image, and each stable extremal region is one *)
Record v1_stable (img : list N) (gm : N) (cols rows : nat) (P : rparam) (d cap : nat) (F : list (list wreg)) (Pt : list (list wpt))
  (l : list rref) : Prop := {
  vs_once : NoDup l;
  vs_room : length l <= cap;
  vs_order : StronglySorted (before (forest_of F)) l;
  vs_sound : forall z, z ∈ l -> exists g S, v1_lists cols F Pt z g S /\ mser (image_view img gm cols rows) P d g S;
  vs_all : forall g S, mser (image_view img gm cols rows) P d g S -> v1_reports cols F Pt l g S
}.

(* SPEC: the reported regions l and their number k:
   - the number is right and each region is reported once;
   - each is a stable extremal region of the image;
   - of two nested ones the larger exceeds the smaller by more than the threshold;
   - each stable extremal region is reported, or it is nested with a reported one and both
     are within the threshold of a stable extremal region inside them *)
Record v1_result (img : list N) (gm : N) (cols rows : nat) (P : rparam) (d : nat) (F : list (list wreg)) (Pt : list (list wpt))
  (l : list rref) (k : nat) : Prop := {
  vr_count : k = length l;
  vr_once : NoDup l;
  vr_sound : forall z, z ∈ l -> exists g S, v1_lists cols F Pt z g S /\ mser (image_view img gm cols rows) P d g S;
  vr_apart : forall x y g S g' S', x ∈ l -> y ∈ l -> x <> y -> v1_lists cols F Pt x g S -> v1_lists cols F Pt y g' S' ->
    (forall p, S p -> S' p) -> exceeds (p_dup P) S S';
  vr_all : forall g S, mser (image_view img gm cols rows) P d g S -> v1_reports cols F Pt l g S \/
    exists gc C gr R, mser (image_view img gm cols rows) P d gc C /\ v1_reports cols F Pt l gr R /\
      (forall p, C p -> S p) /\ (forall p, C p -> R p) /\ ((forall p, S p -> R p) \/ (forall p, R p -> S p)) /\
      within (p_dup P) C S /\ within (p_dup P) C R
}.

Lemma fget_forest F z : fget (forest_of F) z = greg_of <$> get2 F z.
Proof.
  destruct z as [k i]. unfold fget, get2, forest_of. rewrite list_lookup_fmap. cbn [fst snd].
  destruct (F !! k) as [l|]; [|done]. cbn. by rewrite list_lookup_fmap.
Qed.
Lemma tab_forest F z : tab (forest_of F) z = v1_table F z.
Proof. unfold tab, v1_table. rewrite fget_forest. by destruct (get2 F z). Qed.
Lemma forest_len F : length (forest_of F) = length F.
Proof. unfold forest_of. apply map_length. Qed.
Lemma forest_num F : nregs (forest_of F) = num2 F.
Proof.
  unfold nregs, num2, forest_of. induction F as [|l F IH]; [done|]. cbn [map fmap list_fmap sum_list]. cbn. rewrite map_length. cbn in IH. by rewrite IH.
Qed.

Section tree.
Context (img : list N) (gm : N) (cols rows : nat) (Hc : 0 < cols) (Hr : 0 < rows) (Hsm : small_image cols rows).
Context (threads : nat) (F : list (list wreg)) (Pt : list (list wpt)).
Context (HB : v1_built img gm cols rows F Pt) (HRec : v1_records threads (rows * cols) F).
Notation V := (image_view img gm cols rows).
Notation G := (forest_of F).

Lemma v1_input : exists lab, recog_input V lab G /\
  (forall z v, alive G z v -> v1_lists cols F Pt z (v_gray v) (region_pixels V lab (tab G) z)) /\
  (forall z g S, v1_lists cols F Pt z g S -> exists v, alive G z v /\ v_gray v = g /\ forall p, S p <-> region_pixels V lab (tab G) z p).
Proof using All.
  destruct HB as (lab & HT & _ & _ & Hreg). destruct HRec as (L1 & L2 & L3). exists lab.
  change (whole_view cols rows (level img gm)) with V in HT.
  assert (forall x y, vunder (v1_table F) x y <-> vunder (tab G) x y) as HU.
  { apply vunder_same. intros r. by rewrite tab_forest. }
  assert (forall z a, v1_live F z a -> exists pl, v1_pixels Pt a pl /\
    forall p, region_pixels V lab (tab G) z p <-> (p mod cols, p / cols) ∈ pl) as Hpx.
  { intros z a [Ha Hf]. destruct (Hreg z a Ha Hf) as (_ & _ & _ & pl & W & _ & M & _). exists pl. split; [exact W|].
    intros p. rewrite M, off_px by auto. unfold region_pixels. rewrite <-HU. split.
    - intros [Hp Hu]. destruct (image_mod img gm cols rows p Hc Hp). auto.
    - intros (_ & Hy & Hu). split; auto. rewrite <-(off_px cols p Hc). apply (image_in img gm cols rows _ _ Hc); [|done].
      by apply Nat.mod_upper_bound; lia. }
  split; [|split].
  - constructor.
    + apply adj4_vsym.
    + apply (whole_connected 1 1 cols rows); lia.
    + eapply ctree_same; [exact HT|]. intros r. rewrite tab_forest. destruct (v1_table F r); [|done]. split_and!; auto.
    + exists (rows * cols). split; [|split; [by rewrite forest_num|exact Hsm]].
      eapply card_ext; [|exact (whole_card 1 1 cols rows (fun _ => 0))].
      intros p. symmetry. apply (whole_in 1 1 cols rows); lia.
    + intros k i a Ha. rewrite fget_forest in Ha. destruct (get2 F (k, i)) as [w|] eqn:Hw; [|done]. injection Ha as <-.
      exact (L3 k i w Hw).
  - intros z v [Hv Hl]. rewrite tab_forest in Hv. unfold v1_table in Hv. destruct (get2 F z) as [a|] eqn:Ha; [|done].
    injection Hv as <-. cbn in Hl. assert (v1_live F z a) as Hla by (split; [done|intros E; by rewrite E in Hl]).
    destruct (Hpx z a Hla) as (pl & W & M). exists a, pl. split; auto.
  - intros z g S (a & pl & Hla & Hg & W & M). destruct (Hpx z a Hla) as (pl' & W' & M').
    unfold v1_pixels in W, W'. rewrite W in W'. injection W' as <-. destruct Hla as [Ha Hf].
    eexists. split; [split; [rewrite tab_forest; unfold v1_table; rewrite Ha; reflexivity|]|].
    + cbn. destruct (Nat.eqb_spec (w_flag a) 3); done.
    + split; [done|]. intros p. by rewrite M, M'.
Qed.

Context (P : rparam) (fuel cap d : nat) (sched : list nat) (var0 : rref -> flt).
Context (Hdl : delta_ok P) (Hd : (p_delta P = Z.of_nat d)%Z) (Hsane : sane P) (Hfuel : rows * cols < fuel).
Context (Hsched : complete G sched) (Hcap : rows * cols <= cap).

Lemma v1_start_ready lab : recog_input V lab G -> v1_ready V lab G P fuel threads sched cap (recog_start F var0).
Proof using All.
  intros HI. destruct HRec as (L1 & L2 & _). constructor; auto; try done.
  - rewrite forest_num. lia.
  - by rewrite forest_len.
  - rewrite forest_num. lia.
Qed.
Lemma one_start_ready lab : recog_input V lab G -> ready V lab G P fuel One (recog_start F var0).
Proof using All.
  intros HI. destruct HRec as (L1 & L2 & _). constructor; auto; try done. rewrite forest_num. lia.
Qed.

Lemma v1_cands_same lab : recog_input V lab G -> exists s s' b', 
  v1_candidates threads P sched cap (recog_start F var0) = Some (s, CL G (flags G P One)) /\
  candidates fuel One P (CBuf 0 0) (recog_start F var0) = Some (s', CL G (flags G P One), b').
Proof using All.
  intros HI. pose proof (v1_start_ready lab HI) as [_ _ R2 R3 R4 R5 R6 R7]. pose proof (one_start_ready lab HI) as [_ _ G2 G3 G4 G5].
  destruct (v1_cand V lab G HI P Hdl threads sched cap _ R6 R3 R7 R4 R5) as (s & E & _).
  destruct (candidates_ok V lab G HI P Hdl fuel One (CBuf 0 0) _ G2 G3 G4 G5) as (s' & l' & b' & E' & (_ & -> & _) & _).
  exists s, s', b'. split; [|exact E']. rewrite E. do 2 f_equal. change (RecogWorkers.FLAG G P (allvis G)) with (flags G P (ThirtyTwo [])).
  apply (CL_ext G). intros z Hz. apply (same_flags V lab lab G G HI HI P (ThirtyTwo []) One z z Hsane). split; [done|]. split; done.
Qed.

Lemma v1_stable_ok : exists s l, v1_candidates threads P sched cap (recog_start F var0) = Some (s, l) /\
  v1_stable img gm cols rows P d cap F Pt l.
Proof using All.
  destruct v1_input as (lab & HI & HL & _). destruct (v1_cands_same lab HI) as (s & s' & b' & E & E').
  exists s, (CL G (flags G P One)). split; [exact E|]. pose proof (one_start_ready lab HI) as HR.
  assert (computes P One \/ fgt fzero (p_stable P) = false) as Hcm by exact Hsane.
  destruct (candidates_msers V lab G P fuel One _ d (CBuf 0 0) HR Hd Hcm) as (s1 & l1 & b1 & E1 & M1 & M2).
  rewrite E' in E1. injection E1 as <- <- <-.
  destruct (order_ok V lab G P fuel One _ HR (CBuf 0 0)) as (s1 & l1 & b1 & E1 & O1 & O2 & O3 & O4).
  rewrite E' in E1. injection E1 as <- <- <-.
  constructor; auto.
  - etransitivity; [apply (CL_len V lab G HI P)|]. rewrite forest_num. destruct HRec as (_ & ? & _). lia.
  - intros z Hz. destruct (M1 z Hz) as (v & Hv & HM). exists (v_gray v), (region_pixels V lab (tab G) z). auto.
  - intros g S HM. destruct (M2 g S HM) as (z & Hz & HS). destruct (M1 z Hz) as (v & Hv & HM').
    exists z. split; auto. destruct (HL z v Hv) as (a & pl & A1 & A2 & A3 & A4).
    assert (v_gray v = g) as Eg.
    { destruct HM' as (C1 & _). destruct HM as (C2 & _). symmetry. exact (component_fun V d g (v_gray v) S _ C2 C1 HS). }
    exists a, pl. split; auto. split; [congruence|]. split; auto. intros p. by rewrite HS, A4.
Qed.

Lemma mser_ext g S S' : (forall p, S p <-> S' p) -> mser V P d g S -> mser V P d g S'.
Proof.
  clear. intros HS (H1 & (n & Hn & Hlim) & (p & Hp & Hnp) & v & Hv & Hs & Hnms). split.
  { destruct H1 as (p0 & ? & ? & ?). exists p0. split; auto. split; auto. intros q. by rewrite <-HS. }
  split; [exists n; split; auto; by eapply card_ext|]. split; [exists p; split; auto; by rewrite <-HS|].
  exists v. split; [by eapply variation_ext|]. split; auto. intros Hg g' T v' Hc' Hv' Hadj.
  apply (Hnms Hg g' T v' Hc' Hv'). destruct Hadj as [[Hgg Hss]|[Hgg Hss]]; [left|right]; split; auto; intros q Hq.
  - apply Hss. by apply HS.
  - apply HS. by apply Hss.
Qed.
Lemma within_ext t A B B' : (forall p, B p <-> B' p) -> within t A B -> within t A B'.
Proof.
  clear. intros H [HA|(n & k & C1 & C2 & Hn)]; [left; intros p; by rewrite <-H|right]. exists n, k. split; auto. split; auto.
  by eapply card_ext.
Qed.

Lemma v1_result_ok : below1 (p_dup P) -> exists s l k, v1_recognize fuel threads P sched cap (recog_start F var0) = Some (s, l, k) /\
  v1_result img gm cols rows P d F Pt l k.
Proof using All.
  intros Hb. destruct v1_input as (lab & HI & HL & HM). pose proof (one_start_ready lab HI) as HR.
  destruct (v1_run V lab G P fuel threads sched cap _ (v1_start_ready lab HI) Hb) as (s & E & _).
  rewrite (reported_same V lab G P (ThirtyTwo []) One HI Hsane Hb) in E. exists s, (reported G P One), (length (reported G P One)). split; [exact E|].
  assert (computes P One \/ fgt fzero (p_stable P) = false) as Hcm by exact Hsane.
  destruct (run_recognize V lab G P fuel One _ HR (CBuf 0 0)) as (sr & Er & _).
  destruct (candidates_msers V lab G P fuel One _ d (CBuf 0 0) HR Hd Hcm) as (s1 & l1 & b1 & E1 & M1 & M2).
  destruct (covered_ok V lab G P fuel One _ HR (CBuf 0 0)) as (s2 & l2 & b2 & s3 & l3 & n3 & b3 & E2 & E3 & K1 & K2).
  rewrite E1 in E2. injection E2 as <- <- <-. rewrite Er in E3. injection E3 as <- <- <- <-.
  destruct (apart_ok V lab G P fuel One _ HR (CBuf 0 0) Hb) as (s4 & l4 & n4 & b4 & E4 & A).
  rewrite Er in E4. injection E4 as <- <- <- <-.
  destruct (count_ok V lab G P fuel One _ HR (CBuf 0 0)) as (s5 & l5 & n5 & b5 & E5 & _ & N5 & _).
  rewrite Er in E5. injection E5 as <- <- <- <-.
  assert (forall z, z ∈ l1 -> exists g, v1_lists cols F Pt z g (region_pixels V lab (tab G) z) /\ mser V P d g (region_pixels V lab (tab G) z)) as HZ.
  { intros z Hz. destruct (M1 z Hz) as (v & Hv & Hmz). exists (v_gray v). auto. }
  constructor; auto.
  - intros z Hz. destruct (HZ z (K1 z Hz)) as (g & ? & ?). exists g, (region_pixels V lab (tab G) z). auto.
  - intros x y g S g' S' Hx Hy Hne HS HS' Hsub. destruct (HM x g S HS) as (_ & _ & _ & X). destruct (HM y g' S' HS') as (_ & _ & _ & Y).
    destruct (A x y Hx Hy Hne) as (n & k & C1 & C2 & C3). { intros p Hp. apply Y, Hsub, X. done. }
    exists n, k. split; [by eapply card_ext; [|exact C1]; intros p; rewrite X|]. split; [by eapply card_ext; [|exact C2]; intros p; rewrite Y|]. done.
  - intros g S HMS. destruct (M2 g S HMS) as (z & Hz & HS). destruct (HZ z Hz) as (g1 & L1 & Mz).
    assert (g1 = g) as ->. { destruct Mz as (C1 & _). destruct HMS as (C2 & _). symmetry. exact (component_fun V d g g1 S _ C2 C1 HS). }
    destruct (decide (z ∈ reported G P One)) as [Hin|Hnin].
    + left. exists z. split; auto. destruct L1 as (a & pl & A1 & A2 & A3 & A4). exists a, pl. split; auto. split; auto. split; auto.
      intros p. by rewrite HS, A4.
    + right. destruct (K2 z Hz Hnin) as (c & r & Hcl & Hrl & C1 & C2 & C3 & W1 & W2).
      destruct (HZ c Hcl) as (gc & Lc & Mc). destruct (HZ r (K1 r Hrl)) as (gr & Lr & Mr).
      exists gc, (region_pixels V lab (tab G) c), gr, (region_pixels V lab (tab G) r). split; auto. split; [exists r; auto|].
      split; [intros p Hp; by apply HS, C1|]. split; auto. split.
      { destruct C3 as [C3|C3]; [left|right]; intros p Hp; [by apply C3, HS|by apply HS, C3]. }
      split; auto. eapply within_ext; [|exact W1]. intros p. by rewrite HS.
Qed.
End tree.

(* the reported sets of two trees of one picture *)
Lemma reported_sets V lab1 lab2 F1 F2 P m1 m2 : recog_input V lab1 F1 -> recog_input V lab2 F2 -> delta_ok P -> sane P -> below1 (p_dup P) ->
  length (reported F1 P m1) = length (reported F2 P m2) /\
  forall S, reports V lab1 F1 (reported F1 P m1) S <-> reports V lab2 F2 (reported F2 P m2) S.
Proof.
  intros H1 H2 Hd Hs Hb. rewrite (reported_same V lab1 F1 P m1 One H1 Hs Hb), (reported_same V lab2 F2 P m2 One H2 Hs Hb).
  set (fuel := Datatypes.S (nregs F1 + nregs F2)).
  assert (ready V lab1 F1 P fuel One (RSt F1 (fun _ => fzero) (fun _ => false))) as R1 by (constructor; auto; try done; unfold fuel; lia).
  assert (ready V lab2 F2 P fuel One (RSt F2 (fun _ => fzero) (fun _ => false))) as R2 by (constructor; auto; try done; unfold fuel; lia).
  destruct (threads_free V lab1 lab2 F1 F2 P fuel One One _ _ (CBuf 0 0) (CBuf 0 0) R1 R2 Hs Hb)
    as (s1 & l1 & n1 & c1 & s2 & l2 & n2 & c2 & E1 & E2 & En & HS).
  destruct (run_recognize _ _ _ _ _ _ _ R1 (CBuf 0 0)) as (t1 & G1 & _). destruct (run_recognize _ _ _ _ _ _ _ R2 (CBuf 0 0)) as (t2 & G2 & _).
  rewrite E1 in G1. injection G1 as _ -> -> _. rewrite E2 in G2. injection G2 as _ -> -> _. auto.
Qed.

(* SPEC: conditions of a run of building and recognition *)
Record v1_call (threads hpn vpn : nat) (img : list N) (cols rows n fuel : nat) (m : vmem) (pinfo : list (list nat * list nat))
  (P : rparam) (sched : forest -> list nat) : Prop := {
  vl_setup : v1_setup threads hpn vpn img cols rows n fuel m pinfo;
  vl_small : small_image cols rows;
  vl_delta : delta_ok P;
  vl_sane : sane P;
  vl_sched : finishing sched
}.

Section call.
Context (threads hpn vpn : nat) (img : list N) (cols rows n fuel : nat) (m : vmem) (pinfo : list (list nat * list nat)).
Context (P : rparam) (sched : forest -> list nat) (HC : v1_call threads hpn vpn img cols rows n fuel m pinfo P sched).
Notation cap := (h_size threads cols rows).

Lemma call_pos : 0 < cols /\ 0 < rows.
Proof using All.
  destruct HC as [HS _ _ _ _]. destruct (grid_prod _ _ _ (st_grid _ _ _ _ _ _ _ _ _ _ HS)).
  destruct (st_fits _ _ _ _ _ _ _ _ _ _ HS). lia.
Qed.
Lemma call_cap : rows * cols <= cap.
Proof using All.
  destruct HC as [HS _ _ _ _]. pose proof (st_heap _ _ _ _ _ _ _ _ _ _ HS). unfold h_size. rewrite wrap_small; lia.
Qed.

Lemma v1_trees gm : gm = 0%N \/ gm = 255%N -> exists bs F os, valloc threads cols rows m pinfo = Some bs /\
  vbuild n fuel threads gm true img cols rows bs = Some (F, os) /\
  v1_built img gm cols rows F (vb_pts <$> os) /\ v1_records threads (rows * cols) F /\
  (gm = 0%N -> forall os', Forall2 v1_kept os os' -> exists F2 os2,
     vbuild n fuel threads 255 false img cols rows os' = Some (F2, os2) /\
     v1_built img 255 cols rows F2 (vb_pts <$> os2) /\ v1_records threads (rows * cols) F2).
Proof using All.
  intros Hgm. destruct HC as [[S1 S2 S3 S4 S5 S6 S7 S8 S9] _ _ _ _].
  destruct (valloc_ok _ _ _ _ _ _ _ S1 S3 S4 S5 S6) as (ss & bs & _ & _ & _ & _ & _ & _ & Ha & Hb & Hp).
  destruct (v1_build_ok threads hpn vpn img cols rows S1 S2 n fuel gm bs Hgm Hb S7 S8) as (F & os & E & HB & H1 & H2); [lia|].
  exists bs, F, os. auto 10.
Qed.

Lemma call_stable d var0 gm F os : (p_delta P = Z.of_nat d)%Z -> v1_built img gm cols rows F (vb_pts <$> os) ->
  v1_records threads (rows * cols) F ->
  exists s l, v1_candidates threads P (sched (forest_of F)) cap (recog_start F var0) = Some (s, l) /\
    v1_stable img gm cols rows P d cap F (vb_pts <$> os) l.
Proof using All.
  intros Hd HB HR. destruct call_pos. pose proof call_cap. destruct HC as [HS C1 C2 C3 C4].
  pose proof (st_fuel _ _ _ _ _ _ _ _ _ _ HS). apply (v1_stable_ok img gm cols rows) with (fuel := fuel); auto; lia.
Qed.
Lemma call_result d var0 gm F os : (p_delta P = Z.of_nat d)%Z -> below1 (p_dup P) -> v1_built img gm cols rows F (vb_pts <$> os) ->
  v1_records threads (rows * cols) F ->
  exists s l k, v1_recognize fuel threads P (sched (forest_of F)) cap (recog_start F var0) = Some (s, l, k) /\
    v1_result img gm cols rows P d F (vb_pts <$> os) l k.
Proof using All.
  intros Hd Hb HB HR. destruct call_pos. pose proof call_cap. destruct HC as [HS C1 C2 C3 C4].
  pose proof (st_fuel _ _ _ _ _ _ _ _ _ _ HS). apply (v1_result_ok img gm cols rows); auto; lia.
Qed.

Lemma v1_candidates_run d gm var0 : (p_delta P = Z.of_nat d)%Z -> gm = 0%N \/ gm = 255%N ->
  exists bs F os s l, valloc threads cols rows m pinfo = Some bs /\
    vbuild n fuel threads gm true img cols rows bs = Some (F, os) /\
    v1_candidates threads P (sched (forest_of F)) cap (recog_start F var0) = Some (s, l) /\
    v1_stable img gm cols rows P d cap F (vb_pts <$> os) l /\
    (gm = 0%N -> forall os' var2, Forall2 v1_kept os os' -> exists F2 os2 s2 l2,
       vbuild n fuel threads 255 false img cols rows os' = Some (F2, os2) /\
       v1_candidates threads P (sched (forest_of F2)) cap (recog_start F2 var2) = Some (s2, l2) /\
       v1_stable img 255 cols rows P d cap F2 (vb_pts <$> os2) l2).
Proof using All.
  intros Hd Hgm. destruct (v1_trees gm Hgm) as (bs & F & os & A & B & H1 & H2 & H3).
  destruct (call_stable d var0 gm F os Hd H1 H2) as (s & l & E & HS). exists bs, F, os, s, l. split_and!; auto.
  intros Hg os' var2 Hk. destruct (H3 Hg os' Hk) as (F2 & os2 & B2 & H12 & H22).
  destruct (call_stable d var2 255%N F2 os2 Hd H12 H22) as (s2 & l2 & E2 & HS2). exists F2, os2, s2, l2. auto.
Qed.

Lemma v1_detect_run d gm var0 : (p_delta P = Z.of_nat d)%Z -> below1 (p_dup P) -> gm = 0%N \/ gm = 255%N ->
  exists bs F os s l k, valloc threads cols rows m pinfo = Some bs /\
    v1_detect n fuel threads gm true img cols rows P bs sched var0 = Some (F, os, s, l, k) /\
    v1_result img gm cols rows P d F (vb_pts <$> os) l k /\
    (gm = 0%N -> forall os' var2, Forall2 v1_kept os os' -> exists F2 os2 s2 l2 k2,
       v1_detect n fuel threads 255 false img cols rows P os' sched var2 = Some (F2, os2, s2, l2, k2) /\
       v1_result img 255 cols rows P d F2 (vb_pts <$> os2) l2 k2).
Proof using All.
  intros Hd Hb Hgm. destruct (v1_trees gm Hgm) as (bs & F & os & A & B & H1 & H2 & H3).
  destruct (call_result d var0 gm F os Hd Hb H1 H2) as (s & l & k & E & HS). exists bs, F, os, s, l, k. split; auto.
  split; [unfold v1_detect; by rewrite B, E|]. split; auto.
  intros Hg os' var2 Hk. destruct (H3 Hg os' Hk) as (F2 & os2 & B2 & H12 & H22).
  destruct (call_result d var2 255%N F2 os2 Hd Hb H12 H22) as (s2 & l2 & k2 & E2 & HS2). exists F2, os2, s2, l2, k2.
  split; auto. unfold v1_detect. by rewrite B2, E2.
Qed.

(* a run and its tree *)
Lemma v1_detect_tree gm var0 : below1 (p_dup P) -> gm = 0%N \/ gm = 255%N ->
  exists bs F os lab s, valloc threads cols rows m pinfo = Some bs /\
    v1_detect n fuel threads gm true img cols rows P bs sched var0 =
      Some (F, os, s, reported (forest_of F) P One, length (reported (forest_of F) P One)) /\
    recog_input (image_view img gm cols rows) lab (forest_of F) /\
    forall S g, v1_reports cols F (vb_pts <$> os) (reported (forest_of F) P One) g S <->
      component (image_view img gm cols rows) g S /\ reports (image_view img gm cols rows) lab (forest_of F) (reported (forest_of F) P One) S.
Proof using All.
  intros Hb Hgm. destruct (v1_trees gm Hgm) as (bs & F & os & A & B & H1 & H2 & H3).
  destruct call_pos as [Hc Hr]. pose proof call_cap as Hcap. destruct HC as [HS C1 C2 C3 C4]. pose proof (st_fuel _ _ _ _ _ _ _ _ _ _ HS) as Hf.
  destruct (v1_input img gm cols rows Hc Hr C1 threads F (vb_pts <$> os) H1 H2) as (lab & HI & HL & HM).
  assert (v1_ready (image_view img gm cols rows) lab (forest_of F) P fuel threads (sched (forest_of F)) cap (recog_start F var0)) as HR.
  { destruct H2 as (L1 & L2 & _). constructor; auto; try done; rewrite ?forest_num, ?forest_len; try done; lia. }
  destruct (v1_run _ _ _ _ _ _ _ _ _ HR Hb) as (s & E & _). rewrite (reported_same _ lab _ P (ThirtyTwo []) One HI C3 Hb) in E.
  exists bs, F, os, lab, s. split; auto. split; [unfold v1_detect; by rewrite B, E|]. split; auto.
  assert (forall z v, alive (forest_of F) z v -> component (image_view img gm cols rows) (v_gray v)
    (region_pixels (image_view img gm cols rows) lab (tab (forest_of F)) z)) as HE.
  { intros z v [Hv Hl]. destruct (tree_extremal _ lab _ (ri_sym _ _ _ HI) (ri_tree _ _ _ HI)) as (Hx & _). exact (Hx z v Hv Hl). }
  assert (forall g S S', (forall p, S p <-> S' p) -> component (image_view img gm cols rows) g S -> component (image_view img gm cols rows) g S') as HX.
  { intros g S S' Hss (p0 & ? & ? & Hp). exists p0. split; auto. split; auto. intros p. by rewrite <-Hss. }
  intros S g. split.
  - intros (z & Hz & Hls). destruct (HM z g S Hls) as (v & Hv & <- & Hp). split; [|exists z; auto].
    eapply HX; [|exact (HE z v Hv)]. intros p. by rewrite Hp.
  - intros [Hcm (z & Hz & Hp)]. exists z. split; auto.
    assert (exists v, alive (forest_of F) z v) as (v & Hv).
    { destruct (live_alive (forest_of F) z) as (v & Hv & _); [|eauto]. by apply (elem_reported _ lab _ HI P One z) in Hz as (? & _). }
    assert (g = v_gray v) as ->. { exact (component_fun _ 0 g (v_gray v) S _ Hcm (HE z v Hv) Hp). }
    destruct (HL z v Hv) as (a & pl & A1 & A2 & A3 & A4). exists a, pl. split; auto. split; auto. split; auto. intros p. by rewrite Hp, A4.
Qed.
End call.

(* two thread numbers *)
Lemma v1_detect_agree threads hpn vpn threads' hpn' vpn' img cols rows n fuel n' fuel' m pinfo m' pinfo' P sched sched' var0 var0' gm :
  v1_call threads hpn vpn img cols rows n fuel m pinfo P sched ->
  v1_call threads' hpn' vpn' img cols rows n' fuel' m' pinfo' P sched' -> below1 (p_dup P) -> gm = 0%N \/ gm = 255%N ->
  exists bs bs' F os s l k F' os' s' l' k', valloc threads cols rows m pinfo = Some bs /\ valloc threads' cols rows m' pinfo' = Some bs' /\
    v1_detect n fuel threads gm true img cols rows P bs sched var0 = Some (F, os, s, l, k) /\
    v1_detect n' fuel' threads' gm true img cols rows P bs' sched' var0' = Some (F', os', s', l', k') /\
    k = k' /\ forall g S, v1_reports cols F (vb_pts <$> os) l g S <-> v1_reports cols F' (vb_pts <$> os') l' g S.
Proof.
  intros H H' Hb Hgm. destruct (v1_detect_tree _ _ _ _ _ _ _ _ _ _ _ _ H gm var0 Hb Hgm) as (bs & F & os & lab & s & A & E & HI & HE).
  destruct (v1_detect_tree _ _ _ _ _ _ _ _ _ _ _ _ H' gm var0' Hb Hgm) as (bs' & F' & os' & lab' & s' & A' & E' & HI' & HE').
  exists bs, bs', F, os, s. eexists _, _, F', os', s', _, _. split; [exact A|]. split; [exact A'|]. split; [exact E|]. split; [exact E'|].
  destruct (reported_sets _ lab lab' (forest_of F) (forest_of F') P One One HI HI') as [HN HS]; auto; try apply H.
  split; auto. intros g S. by rewrite HE, HE', HS.
Qed.

(* V1 and V2 *)
Lemma v1_v2_detect threads hpn vpn img cols rows n fuel m pinfo P sched var0 threads' hpn' vpn' n' fuel' bs' sched' var0' b :
  v1_call threads hpn vpn img cols rows n fuel m pinfo P sched -> below1 (p_dup P) ->
  grid_of threads' = Some (hpn', vpn') -> image_fits hpn' vpn' img cols rows ->
  allocated hpn' vpn' cols rows threads' bs' -> 6 * (rows * cols) < n' -> rows * cols + 514 < fuel' -> finishing sched' ->
  exists bs F os s l k F' os' lab s' l' k' b',
    valloc threads cols rows m pinfo = Some bs /\
    v1_detect n fuel threads 0 true img cols rows P bs sched var0 = Some (F, os, s, l, k) /\
    detect n' fuel' threads' 0 true img cols rows P bs' sched' var0' b = Some (F', os', s', l', k', b') /\
    ctree (image_view img 0 cols rows) lab (tab F') /\ k = k' /\
    forall S, (exists g, v1_reports cols F (vb_pts <$> os) l g S) <-> reports (image_view img 0 cols rows) lab F' l' S.
Proof.
  intros HC Hb Hg HI Ha Hn Hf Hs. destruct (v1_detect_tree _ _ _ _ _ _ _ _ _ _ _ _ HC 0%N var0 Hb (or_introl eq_refl)) as (bs & F & os & lab & s & A & E & HI1 & HE).
  destruct HC as [HS C1 C2 C3 C4].
  destruct (detect_ready threads' hpn' vpn' img cols rows n' fuel' P bs' sched' var0' b Hg HI C1 Ha Hn Hf C2 Hs)
    as (F' & os' & lab' & s' & l' & k' & b' & E' & HR & Er & _).
  destruct (run_recognize _ _ _ _ _ _ _ HR b) as (s2 & Er2 & _). rewrite Er in Er2. injection Er2 as -> -> -> ->.
  exists bs, F, os, s. eexists _, _, F', os', lab', _, _, _, _. split; [exact A|]. split; [exact E|]. split; [exact E'|].
  pose proof (rd_input _ _ _ _ _ _ _ HR) as HI2. split; [exact (ri_tree _ _ _ HI2)|].
  destruct (reported_sets _ lab lab' (forest_of F) F' P One (mode_of threads' (rects hpn' vpn' cols rows) (sched' F')) HI1 HI2) as [HN HSS]; auto.
  split; auto. intros S. rewrite <-HSS. split.
  - intros (g & HG). by apply HE in HG as [_ ?].
  - intros HG. destruct HG as (z & Hz & Hp).
    assert (exists v, alive (forest_of F) z v) as (v & [Hv Hl]).
    { destruct (live_alive (forest_of F) z) as (v & Hv & _); [|eauto]. by apply (elem_reported _ lab _ HI1 P One z) in Hz as (? & _). }
    exists (v_gray v). apply HE. split; [|exists z; auto].
    destruct (tree_extremal _ lab _ (ri_sym _ _ _ HI1) (ri_tree _ _ _ HI1)) as (Hx & _). destruct (Hx z v Hv Hl) as (p0 & X1 & X2 & X3).
    exists p0. split; auto. split; auto. intros p. by rewrite Hp, X3.
Qed.
