(* connect of Fast MSER V1 adds one adjacency to the component tree and keeps the pixel lists right. *)
From stdpp Require Import sorting relations functions list.
From Coq Require Import ZArith.
From Verif Require Import Spec TreeSpec TreeFacts JoinMath FloodModel V1JoinModel V1Heap V1Lists V1Cut V1Connect V1Loop.
Local Open Scope nat_scope.

Section loop.
Context (V : view) (lab : nat -> rref) (C0 : nat -> rref -> rref -> Prop) (N : nat).
Context (xy : rref -> nat * nat) (pin : rref -> Prop) (pix : rref -> nat)
  (Hpin : forall q, pin q -> vw_in V (pix q)).
Notation J T os ob c := (jinv V lab C0 N T os ob c).
Notation labq := (fun q => lab (pix q)).
Notation pg := (fun q => vw_gray V (pix q)).
Notation order := (order pin labq pg).
Notation lists := (lists xy pin labq pg).
Notation W T := (vunder T).
Notation coreB := (coreB V lab C0 N xy pin pix).
Notation invB := (invB V lab C0 N xy pin pix).

Definition og (R : list (list wreg)) (o : option rref) : nat :=
  match o with Some r => match get2 R r with Some a => w_gray a | None => 0 end | None => 256 end.
Lemma og_some R r a : get2 R r = Some a -> og R (Some r) = w_gray a.
Proof. intros H. cbn. by rewrite H. Qed.

(* what the loop leaves behind *)
Definition done (R : list (list wreg)) (P : pts) (st : jst) : Prop :=
  exists sz os c cut seg, let T := tz (e_regs st) sz in
    J T os os c /\ szA T (e_regs st) sz /\
    lists (livez T) (W T) (grayz T) (e_regs st) (e_pts st) (e_mp st) cut (fun _ => False) seg /\
    (forall k, k ∈ cut -> lpar (livez T) (W T) k None) /\ wframe R (e_regs st) /\ psame P (e_pts st).
Lemma done_frame R P R0 P0 st : wframe R0 R -> psame P0 P -> done R P st -> done R0 P0 st.
Proof.
  intros HF HP (sz & os & c & cut & seg & H1 & H2 & H3 & H4 & H5 & H6).
  exists sz, os, c, cut, seg. cbn zeta in *. split_and!; auto; [by eapply wframe_trans|by eapply psame_trans].
Qed.

Lemma end_B split R P M s c lb sz St seg xs : coreB split (JSt R P M) s None c lb sz None St seg ->
  get2 R s = Some xs -> w_par xs = None -> done R P (JSt R P M).
Proof using.
  intros (HJ & Hg & Hps & HszB & HL & HSt & _ & Hlb) Hs Hxp. cbn [e_regs e_pts e_mp] in *.
  set (T := tz R sz) in *.
  assert (T s = Some (wv sz s xs)) as HTs by (by apply tz_get).
  set (sz' := fun y => if decide (y = s) then sz s + c else sz y). set (T' := tz R sz').
  assert (upd T T' s (VReg (v_gray (wv sz s xs)) (v_live (wv sz s xs)) (v_size (wv sz s xs) + c) None)) as HU.
  { intros y. unfold T', T, tz. destruct (decide (y = s)) as [->|Hys].
    - rewrite Hs. cbn. unfold wv, sz'. rewrite decide_True by done. cbn. by rewrite Hxp.
    - destruct (get2 R y); [|done]. cbn. unfold wv, sz'. rewrite decide_False by done. done. }
  assert (J T' None None c) as HJ'.
  { eapply (j_advance V lab C0 N T T' s (wv sz s xs) None None c HJ HTs); auto; done. }
  assert (forall u v, vunder T' u v <-> vunder T u v) as Hvun.
  { intros. apply vunder_iff. intros u' v'. eapply same_vup; [exact HU|exact HTs|]. cbn. congruence. }
  assert (forall y, livez T y <-> livez T' y) as HLL. { intros y. unfold T, T'. by rewrite !live_get. }
  assert (forall y, grayz T' y = grayz T y) as Hgz.
  { intros y. unfold grayz. rewrite (HU y). destruct (decide (y = s)) as [->|]; [by rewrite HTs|done]. }
  exists sz', None, c, [s], seg. cbn [e_regs e_pts e_mp]. cbn zeta. fold T'. split_and!.
  - exact HJ'.
  - intros y a Ly Ha. apply HLL in Ly. destruct (HszB y a Ly Ha) as [S1 S2]. unfold sz'.
    destruct (decide (y = s)) as [->|Hys].
    + by apply S1.
    + destruct (S2 Hys) as [U Z]. rewrite !decide_False in Z by done. split; [lia|done].
  - eapply V1Lists.lists_ext; [exact HLL| |intros; symmetry; apply Hgz| | |exact HL].
    + intros. symmetry. apply Hvun.
    + intros y a Ha. exists a. done.
    + intros y Ly Sy. destruct (HSt y Ly Sy) as [[Q1 Q2]|(b & [=] & _)]. apply Q2. by apply Hps.
  - intros k ->%elem_of_list_singleton. intros y Ly Hy. apply Hps; [by apply HLL|by apply Hvun].
  - apply wframe_refl.
  - apply psame_refl.
Qed.

(* one iteration once pixels are moved *)
Lemma loop_B n : forall fuel split st lb s ob c, invB split st s ob c lb -> wbounded (e_regs st) ->
  num2 (e_regs st) < fuel -> num2 (e_pts st) <= fuel ->
  512 - og (e_regs st) (Some s) - og (e_regs st) ob < n ->
  exists st', wconnect_loop n fuel split st lb true ob (Some s) = Some st' /\ done (e_regs st) (e_pts st) st'.
Proof using Hpin.
  induction n as [|n IH]; intros fuel split st lb s ob c HI HB Hf Hfp Hn; [lia|].
  destruct st as [R P M]. destruct HI as (sz & sp & St & seg & HC).
  change (coreB split (JSt R P M) s ob c lb sz sp St seg) in HC. cbn [e_regs e_pts e_mp] in *.
  pose proof HC as (HJ & Hg & Hps & _ & _ & _ & (is & His & Hlbs) & _). cbn [e_regs e_pts e_mp] in *.
  pose proof (j_wf _ _ _ _ _ _ _ _ HJ) as HW.
  pose proof (order_j V lab C0 N pin pix Hpin _ _ _ _ HJ) as HO.
  destruct (j_s _ _ _ _ _ _ _ _ HJ s eq_refl) as (v & Hv & Hlvs). destruct (get_tz _ _ _ _ Hv) as (xs & Hs & ->).
  assert (livez (tz R sz) s) as Ls by (eexists; eauto).
  destruct (wreal_parent_ok R sz s xs fuel HW Hs Hf) as (sp' & HWP & HRs & Hlsp).
  assert (sp' = sp) as ->.
  { eapply (lpar_fun pin labq pg); [exact HO|exact Ls| |exact Hps]. by eapply lpar_real. }
  set (R1 := set2 R s (wset_par xs sp)).
  pose proof (coreB_compress V lab C0 N xy pin pix _ _ _ _ _ _ _ _ _ _ _ _ _ _ _ HC Hs HRs) as HC1. fold R1 in HC1.
  pose proof (is_live_compress R sz s xs sp sp HW Hs HRs Hlsp) as Hlsp1. fold R1 in Hlsp1.
  assert (wframe R R1) as HF1. { apply (wframe_set R s xs); cbn; auto. }
  assert (get2 R1 s = Some (wset_par xs sp)) as Hs1 by (unfold R1; eapply get2_set2_eq; eauto).
  assert (w_gray xs <= 255) as Hgs by eauto.
  cbn [wconnect_loop e_regs e_pts e_mp].
  destruct ob as [b|].
  - destruct (j_b _ _ _ _ _ _ _ _ HJ b eq_refl) as (v & Hvb & Hlvb). destruct (get_tz _ _ _ _ Hvb) as (xb & Hb & ->).
    destruct (Hg b xs xb eq_refl Hs Hb) as [Hgsb Hsb]. rewrite Hs, Hb.
    destruct (Nat.ltb_spec (w_gray xb) (w_gray xs)); [lia|]. rewrite HWP. fold R1. cbn [negb]. rewrite andb_false_r.
    assert (w_gray xb <= 255) as Hgb by eauto.
    assert (get2 R1 b = Some xb) as Hb1 by (unfold R1; rewrite get2_set2_ne; auto).
    pose proof HC1 as (HJ1 & _). cbn [e_regs e_pts e_mp] in *.
    pose proof (j_wf _ _ _ _ _ _ _ _ HJ1) as HW1.
    destruct (wreal_parent_ok R1 sz b xb fuel HW1 Hb1) as (bp & HWPb & HRb & Hlbp). { by rewrite (wframe_num _ _ HF1). }
    rewrite HWPb. set (R2 := set2 R1 b (wset_par xb bp)).
    pose proof (coreB_compress V lab C0 N xy pin pix _ _ _ _ _ _ _ _ _ _ _ _ _ _ _ HC1 Hb1 HRb) as HC2. fold R2 in HC2.
    pose proof (is_live_compress R1 sz b xb bp sp HW1 Hb1 HRb Hlsp1) as Hlsp2. fold R2 in Hlsp2.
    pose proof (is_live_compress R1 sz b xb bp bp HW1 Hb1 HRb Hlbp) as Hlbp2. fold R2 in Hlbp2.
    assert (wframe R1 R2) as HF2. { apply (wframe_set R1 b xb); cbn; auto. }
    assert (wframe R R2) as HF by (by eapply wframe_trans).
    assert (get2 R2 s = Some (wset_par xs sp)) as Hs2 by (unfold R2; rewrite get2_set2_ne; auto).
    assert (get2 R2 b = Some (wset_par xb bp)) as Hb2 by (unfold R2; eapply get2_set2_eq; eauto).
    rewrite Hs2, Hb2. cbn [w_gray wset_par].
    pose proof HC2 as (HJ2 & _ & Hps2 & HszB2 & HL2 & HSt2 & (i2 & Hi2 & Hlb2s) & Hlb2). cbn [e_regs e_pts e_mp] in *.
    pose proof (j_wf _ _ _ _ _ _ _ _ HJ2) as HW2.
    assert (forall y d, sp = Some y -> get2 R2 y = Some d -> w_gray xs < w_gray d) as Hgsp.
    { intros y d -> Hd. eapply (lpar_gray (tz R2 sz) s (wv sz s (wset_par xs (Some y))) y (wv sz y d)); auto; by apply tz_get. }
    assert (forall y, sp = Some y -> exists d, get2 R2 y = Some d /\ w_gray d <= 255) as Hgspx.
    { intros y Hy. destruct (Hlsp2 y Hy) as (v & Hv2 & _). destruct (get_tz _ _ _ _ Hv2) as (d & Hd & ->).
      exists d. split; [done|]. by eapply (wframe_bounded R R2). }
    assert (forall st3 lb3, (forall y d, sp = Some y -> get2 R2 y = Some d -> w_gray xb < w_gray d) ->
      invB split st3 b sp (sz s) lb3 -> wframe R2 (e_regs st3) -> psame P (e_pts st3) ->
      exists st', wconnect_loop n fuel split st3 lb3 true (if decide (sp = Some b) then None else sp) (Some b) = Some st' /\
        done R P st') as Hnext.
    { intros st3 lb3 Hab HI3 HF3 HP3. assert (wframe R (e_regs st3)) as HFR by (by eapply wframe_trans).
      rewrite decide_False by (intros ->; specialize (Hab b _ eq_refl Hb2); cbn in Hab; lia).
      destruct (IH fuel split st3 lb3 b sp (sz s) HI3) as (st' & Q1 & Q2).
      - by eapply wframe_bounded.
      - by rewrite (wframe_num _ _ HFR).
      - by rewrite (psame_num _ _ HP3).
      - destruct (wf_reg _ _ HF3 b _ Hb2) as (b3 & Hb3 & Gb3 & _). rewrite (og_some _ _ _ Hb3), Gb3.
        rewrite (og_some _ _ _ Hs), (og_some _ _ _ Hb) in Hn. cbn [w_gray wset_par].
        destruct sp as [p|]; [|cbn [og]; lia]. destruct (Hgspx p eq_refl) as (d & Hd & Hd255).
        destruct (wf_reg _ _ HF3 p _ Hd) as (d3 & Hd3 & Gd3 & _). rewrite (og_some _ _ _ Hd3), Gd3.
        specialize (Hab p d eq_refl Hd). lia.
      - exists st'. split; [done|]. by eapply done_frame. }
    destruct (Nat.eqb_spec (w_gray xs) (w_gray xb)) as [Heq|Hneq].
    + (* equal levels: s becomes a merged region *)
      set (R2f := set2 R2 s (wset_flag (wset_par xs sp) 3)).
      unfold hang at 1. unfold break_off at 1. cbn [e_regs].
      assert (region_index split R2f s = Some i2) as Hi2f.
      { eapply region_index_frame; [|exact Hi2]. apply (wframe_set R2 s (wset_par xs sp)); cbn; auto. }
      rewrite Hi2f, decide_True by done.
      destruct (hang_core V lab C0 N xy pin pix Hpin fuel split R2 sz (JSt R2f P M) lb s b
        (wset_par xs sp) (wset_par xb bp) c St seg HJ2 Hs2 Hb2) as (st2 & lb2 & st3 & a3 & H1 & H2 & H3 & H4 & H5 & H6);
        cbn [e_regs e_pts e_mp w_par w_gray wset_par]; auto.
      { intros y d Hy Hd. rewrite <-Heq. eauto. }
      { unfold R2f. apply set2_shape. }
      { intros y a Ha. unfold R2f. rewrite get2_set2, Hs2. destruct (decide (y = s)) as [->|Hys].
        - assert (a = wset_par xs sp) as -> by congruence. eexists. split; [done|]. cbn. rewrite decide_True by auto. auto 7.
        - exists a. rewrite decide_False by (intros [? _]; done). auto 7. }
      { intros y a Ly. unfold R2f. rewrite get2_set2, Hs2. destruct (decide (y = s)) as [->|Hys]; [|by apply HszB2].
        intros [= <-]. cbn. exact (HszB2 s _ Ly Hs2). }
      { eapply V1Lists.lists_ext; [| | | | |exact HL2]; auto.
        intros y a Ha. unfold R2f. rewrite get2_set2, Hs2. destruct (decide (y = s)) as [->|Hys]; [|by exists a].
        assert (a = wset_par xs sp) as -> by congruence. eexists. split; [done|]. done. }
      { intros y Ly Sy. destruct (HSt2 y Ly Sy) as [?|(b' & [= <-] & ?)]; auto. }
      { by rewrite (wframe_num _ _ HF). }
      rewrite H1, H2, H3. apply Hnext; auto. intros y d Hy Hd. rewrite <-Heq. eauto.
    + destruct (above R2 sp (w_gray xb)) as [[|]|] eqn:Hab.
      * (* s is hung below b *)
        assert (forall y d, sp = Some y -> get2 R2 y = Some d -> w_gray xb < w_gray d) as Hab'.
        { intros y d -> Hd. cbn in Hab. rewrite Hd in Hab. injection Hab as Hab. by apply Nat.ltb_lt in Hab. }
        unfold hang at 1. unfold break_off at 1. cbn [e_regs]. rewrite Hi2, decide_True by done.
        destruct (hang_core V lab C0 N xy pin pix Hpin fuel split R2 sz (JSt R2 P M) lb s b
          (wset_par xs sp) (wset_par xb bp) c St seg HJ2 Hs2 Hb2) as (st2 & lb2 & st3 & a3 & H1 & H2 & H3 & H4 & H5 & H6);
          cbn [e_regs e_pts e_mp w_par w_gray wset_par]; auto.
        { intros y a Ha. exists a. rewrite decide_False by (intros [_ ?]; done). auto 7. }
        { intros y Ly Sy. destruct (HSt2 y Ly Sy) as [?|(b' & [= <-] & ?)]; auto. }
        { by rewrite (wframe_num _ _ HF). }
        rewrite H1, H2, H3. apply Hnext; auto.
      * (* the list of s moves to the real parent *)
        destruct sp as [p|]; [|done]. destruct (Hgspx p eq_refl) as (d & Hd & Hd255).
        cbn in Hab. rewrite Hd in Hab. injection Hab as Hab. apply Nat.ltb_ge in Hab.
        unfold climb at 1. cbn [e_regs]. rewrite Hi2, decide_True by done.
        destruct (climb_core V lab C0 N xy pin pix Hpin fuel split R2 P M s p (Some b) c lb sz St seg _ HC2 Hs2)
          as (st1 & st2 & j & H1 & H2 & H3 & H4 & H5 & H6); auto.
        { intros b' y d' [= <-] Hy Hd'. assert (d' = d) as -> by congruence. rewrite Hb2 in Hy. injection Hy as <-. done. }
        { by rewrite (wframe_num _ _ HF). }
        rewrite H1, H2, H3.
        destruct (IH fuel split st2 (lb_set lb j p) p (if decide (Some p = Some b) then None else Some b)
          (if decide (Some p = Some b) then 0 else c) H4) as (st' & Q1 & Q2).
        -- eapply wframe_bounded; [|exact HB]. by eapply wframe_trans.
        -- by rewrite (wframe_num _ _ H5), (wframe_num _ _ HF).
        -- by rewrite (psame_num _ _ H6).
        -- destruct (wf_reg _ _ H5 p _ Hd) as (d3 & Hd3 & Gd3 & _). rewrite (og_some _ _ _ Hd3), Gd3.
           rewrite (og_some _ _ _ Hs), (og_some _ _ _ Hb) in Hn. specialize (Hgsp p d eq_refl Hd).
           destruct (decide (Some p = Some b)); [cbn [og]; lia|].
           destruct (wf_reg _ _ H5 b _ Hb2) as (b3 & Hb3 & Gb3 & _). rewrite (og_some _ _ _ Hb3), Gb3. cbn [w_gray wset_par]. lia.
        -- exists st'. split; [exact Q1|]. eapply done_frame; [|exact H6|exact Q2]. by eapply wframe_trans.
      * exfalso. destruct sp as [p|]; [|done]. destruct (Hgspx p eq_refl) as (d & Hd & Hd255).
        cbn in Hab. by rewrite Hd in Hab.
  - rewrite HWP. fold R1. cbn [negb]. rewrite andb_false_r.
    pose proof HC1 as (HJ1 & _ & Hps1 & _ & _ & _ & (i1 & Hi1 & Hlb1s) & _). cbn [e_regs e_pts e_mp] in *.
    pose proof (j_wf _ _ _ _ _ _ _ _ HJ1) as HW1.
    destruct sp as [p|].
    + destruct (Hlsp1 p eq_refl) as (v & Hv1 & _). destruct (get_tz _ _ _ _ Hv1) as (d & Hd & ->).
      assert (w_gray xs < w_gray d) as Hgd.
      { eapply (lpar_gray (tz R1 sz) s (wv sz s (wset_par xs (Some p))) p (wv sz p d)); auto; by apply tz_get. }
      assert (w_gray d <= 255) as Hd255 by (by eapply (wframe_bounded R R1)).
      unfold climb at 1. cbn [e_regs]. rewrite Hi1, decide_True by done.
      destruct (climb_core V lab C0 N xy pin pix Hpin fuel split R1 P M s p None c lb sz St seg _ HC1 Hs1)
        as (st1 & st2 & j & H1 & H2 & H3 & H4 & H5 & H6); auto.
      { done. } { by rewrite (wframe_num _ _ HF1). }
      rewrite H1, H2, H3. rewrite decide_False in H4 by done.
      destruct (IH fuel split st2 (lb_set lb j p) p None _ H4) as (st' & Q1 & Q2).
      * eapply wframe_bounded; [|exact HB]. by eapply wframe_trans.
      * by rewrite (wframe_num _ _ H5), (wframe_num _ _ HF1).
      * by rewrite (psame_num _ _ H6).
      * destruct (wf_reg _ _ H5 p _ Hd) as (d3 & Hd3 & Gd3 & _). rewrite (og_some _ _ _ Hd3), Gd3.
        rewrite (og_some _ _ _ Hs) in Hn. cbn [og] in *. lia.
      * exists st'. split; [exact Q1|]. eapply done_frame; [|exact H6|exact Q2]. by eapply wframe_trans.
    + cbn [climb]. rewrite (og_some _ _ _ Hs) in Hn. cbn [og] in Hn. destruct n as [|n]; [lia|]. cbn [wconnect_loop].
      exists (JSt R1 P M). split; [done|]. eapply done_frame; [exact HF1|apply psame_refl|].
      by eapply end_B; eauto.
Qed.

(* ---------- before pixels are moved ---------- *)
Definition coreA (R : list (list wreg)) (P : pts) (s b : rref) (sz : rref -> nat) (seg : rref -> list rref) : Prop :=
  let T := tz R sz in
  J T (Some s) (Some b) 0 /\ s <> b /\ szA T R sz /\
  lists (livez T) (W T) (grayz T) R P [] [] (fun _ => False) seg.
Lemma coreA_compress R P s b sz seg r a oy : coreA R P s b sz seg -> get2 R r = Some a ->
  real_parent (tz R sz) (wv sz r a) oy -> coreA (set2 R r (wset_par a oy)) P s b sz seg.
Proof using.
  intros (HJ & Hsb & Hz & HL) Ha HR.
  pose proof (compress_facts R sz r a oy (j_wf _ _ _ _ _ _ _ _ HJ) Ha HR) as (HW' & F1 & F2 & F3 & F4).
  unfold coreA. cbn zeta. split_and!.
  - eapply j_compress; [exact HJ|by apply tz_get|exact HR|]. exact (tz_upd R sz r (wset_par a oy) a Ha).
  - done.
  - intros y e Ly. apply F1 in Ly. rewrite get2_set2, Ha. destruct (decide (y = r)) as [->|].
    + intros [= <-]. exact (Hz r a Ly Ha).
    + by apply Hz.
  - eapply V1Lists.lists_ext; [exact F1|exact F2|intros; apply F3|by apply rsame_par| |exact HL]; auto.
Qed.
(* nothing is missing, so the carrier may step up *)
Lemma coreA_up R P s b sz seg xs p : coreA R P s b sz seg -> get2 R s = Some xs -> w_par xs = Some p ->
  is_live (tz R sz) (Some p) ->
  (forall y d, get2 R p = Some d -> get2 R b = Some y -> w_gray xs <= w_gray y /\ w_gray d <= w_gray y) ->
  J (tz R sz) (Some p) (Some b) 0.
Proof using.
  intros (HJ & Hsb & _) Hs Hp Hl Hg.
  eapply (j_advance V lab C0 N (tz R sz) (tz R sz) s (wv sz s xs) (Some p) (Some b) 0 HJ (tz_get _ _ _ _ Hs)); auto.
  - intros b' a' [= <-] Ha'. destruct (get_tz _ _ _ _ Ha') as (y & Hy & ->). split; [|done].
    destruct (Hl p eq_refl) as (v & Hv & _). destruct (get_tz _ _ _ _ Hv) as (d & Hd & ->).
    by apply (Hg y d).
  - intros y d b' a' [= <-] Hd [= <-] Ha'. destruct (get_tz _ _ _ _ Ha') as (y & Hy & ->).
    destruct (get_tz _ _ _ _ Hd) as (d' & Hd' & ->). by apply (Hg y d').
  - done.
  - intros y. destruct (decide (y = s)) as [->|]; [|done]. rewrite (tz_get _ _ _ _ Hs). unfold wv. cbn.
    by rewrite Hp, Nat.add_0_r.
Qed.

Lemma loop_A n : forall fuel split R P s0 b0 sz seg, coreA R P s0 b0 sz seg -> wbounded R ->
  num2 R < fuel -> num2 P <= fuel -> 512 - og R (Some s0) - og R (Some b0) < n ->
  exists st', wconnect_loop n fuel split (JSt R P []) (None, None) false (Some b0) (Some s0) = Some st' /\ done R P st'.
Proof using Hpin.
  induction n as [|n IH]; intros fuel split R P s0 b0 sz seg HA HB Hf Hfp Hn; [lia|].
  cbn [wconnect_loop e_regs e_pts e_mp].
  pose proof HA as (HJ & Hsb0 & _).
  destruct (j_s _ _ _ _ _ _ _ _ HJ s0 eq_refl) as (v & Hv & Hlv0). destruct (get_tz _ _ _ _ Hv) as (x & Hx & ->).
  destruct (j_b _ _ _ _ _ _ _ _ HJ b0 eq_refl) as (v & Hvb & Hlvb0). destruct (get_tz _ _ _ _ Hvb) as (y & Hy & ->).
  rewrite Hx, Hy.
  set (s := if w_gray y <? w_gray x then b0 else s0).
  set (b := if w_gray y <? w_gray x then s0 else b0).
  assert ((if w_gray y <? w_gray x then Some (Some s0, b0) else Some (Some b0, s0)) = Some (Some b, s)) as ->.
  { subst s b. by destruct (w_gray y <? w_gray x). }
  assert (exists xs xb, coreA R P s b sz seg /\ get2 R s = Some xs /\ get2 R b = Some xb /\
    w_gray xs <= w_gray xb /\ 512 - w_gray xs - w_gray xb < S n) as (xs & xb & HA' & Hs & Hb & Hgsb & Hn').
  { rewrite (og_some _ _ _ Hx), (og_some _ _ _ Hy) in Hn. subst s b.
    destruct (Nat.ltb_spec (w_gray y) (w_gray x)) as [Hlt|Hge].
    - exists y, x. split_and!; auto; [|lia|lia]. destruct HA as (Q1 & Q2 & Q3 & Q4). split_and!; auto. by apply j_swap.
    - exists x, y. split_and!; auto. }
  clearbody s b. clear HA HJ Hsb0 Hn Hx Hy Hv Hvb Hlv0 Hlvb0 x y s0 b0. rename HA' into HA.
  pose proof HA as (HJ & Hsb & _). pose proof (j_wf _ _ _ _ _ _ _ _ HJ) as HW.
  destruct (wreal_parent_ok R sz s xs fuel HW Hs Hf) as (sp & HWP & HRs & Hlsp).
  set (R1 := set2 R s (wset_par xs sp)).
  pose proof (coreA_compress _ _ _ _ _ _ _ _ _ HA Hs HRs) as HA1. fold R1 in HA1.
  pose proof (is_live_compress R sz s xs sp sp HW Hs HRs Hlsp) as Hlsp1. fold R1 in Hlsp1.
  assert (wframe R R1) as HF1. { apply (wframe_set R s xs); cbn; auto. }
  assert (get2 R1 s = Some (wset_par xs sp)) as Hs1 by (unfold R1; eapply get2_set2_eq; eauto).
  assert (get2 R1 b = Some xb) as Hb1 by (unfold R1; rewrite get2_set2_ne; auto).
  assert (w_gray xs <= 255) as Hgs by eauto. assert (w_gray xb <= 255) as Hgb by eauto.
  rewrite HWP. fold R1. cbn [negb]. rewrite andb_true_r.
  pose proof HA1 as (HJ1 & _ & Hz1 & HL1). pose proof (j_wf _ _ _ _ _ _ _ _ HJ1) as HW1.
  destruct (bool_decide_reflect (sp = Some b)) as [->|Hspb].
  { (* b is already the real parent of s *)
    exists (JSt R1 P []). split; [done|]. exists sz, (Some b), 0, [], seg. cbn [e_regs e_pts e_mp]. cbn zeta. split_and!; auto.
    - eapply coreA_up; [exact HA1|exact Hs1|done|done|]. intros y d Hd Hy. assert (d = xb) as -> by congruence.
      assert (y = xb) as -> by congruence. cbn. auto.
    - intros k Hk. by apply elem_of_nil in Hk.
    - apply psame_refl. }
  destruct (wreal_parent_ok R1 sz b xb fuel HW1 Hb1) as (bp & HWPb & HRb & Hlbp). { by rewrite (wframe_num _ _ HF1). }
  rewrite HWPb. set (R2 := set2 R1 b (wset_par xb bp)).
  pose proof (coreA_compress _ _ _ _ _ _ _ _ _ HA1 Hb1 HRb) as HA2. fold R2 in HA2.
  pose proof (is_live_compress R1 sz b xb bp sp HW1 Hb1 HRb Hlsp1) as Hlsp2. fold R2 in Hlsp2.
  pose proof (is_live_compress R1 sz b xb bp bp HW1 Hb1 HRb Hlbp) as Hlbp2. fold R2 in Hlbp2.
  assert (wframe R1 R2) as HF2. { apply (wframe_set R1 b xb); cbn; auto. }
  assert (wframe R R2) as HF by (by eapply wframe_trans).
  assert (get2 R2 s = Some (wset_par xs sp)) as Hs2 by (unfold R2; rewrite get2_set2_ne; auto).
  assert (get2 R2 b = Some (wset_par xb bp)) as Hb2 by (unfold R2; eapply get2_set2_eq; eauto).
  rewrite Hs2, Hb2. cbn [w_gray wset_par].
  pose proof HA2 as (HJ2 & _ & Hz2 & HL2). pose proof (j_wf _ _ _ _ _ _ _ _ HJ2) as HW2.
  pose proof (order_j V lab C0 N pin pix Hpin _ _ _ _ HJ2) as HO2.
  destruct (j_s _ _ _ _ _ _ _ _ HJ2 s eq_refl) as (v & Hvs2 & Hlvs2).
  assert (livez (tz R2 sz) s) as Ls2 by (eexists; eauto).
  assert (v = wv sz s (wset_par xs sp)) as ->. { pose proof (tz_get _ sz _ _ Hs2). congruence. }
  destruct (lpar_direct (tz R2 sz) s _ HW2 Hvs2 Hlvs2 Hlsp2) as [_ Hps2]. cbn [v_par wv wset_par w_par] in Hps2.
  assert (forall y d, sp = Some y -> get2 R2 y = Some d -> w_gray xs < w_gray d) as Hgsp.
  { intros y d -> Hd. eapply (lpar_gray (tz R2 sz) s (wv sz s (wset_par xs (Some y))) y (wv sz y d)); auto; by apply tz_get. }
  assert (forall y, sp = Some y -> exists d, get2 R2 y = Some d /\ w_gray d <= 255) as Hgspx.
  { intros y Hy. destruct (Hlsp2 y Hy) as (v & Hv2 & _). destruct (get_tz _ _ _ _ Hv2) as (d & Hd & ->).
    exists d. split; [done|]. by eapply (wframe_bounded R R2). }
  assert (sp <> Some s) as Hsps. { intros ->. by destruct Hps2 as (_ & _ & ? & _). }
  (* hanging s below b, in both cases *)
  assert (forall R2f, length <$> R2f = length <$> R2 ->
    (forall y a, get2 R2 y = Some a -> exists a', get2 R2f y = Some a' /\
     w_gray a' = w_gray a /\ w_bnd a' = w_bnd a /\ w_patch a' = w_patch a /\ w_head a' = w_head a /\ w_par a' = w_par a /\
     w_size a' = w_size a /\ w_un a' = w_un a /\ w_tail a' = w_tail a /\ samebox a a' /\
     w_flag a' = (if decide (y = s /\ w_gray xs = w_gray xb) then 3 else w_flag a)) ->
    (forall y d, sp = Some y -> get2 R2 y = Some d -> w_gray xb < w_gray d) ->
    exists st3 lb3 st', hang fuel split (JSt R2f P []) (None, None) s b = Some (st3, lb3) /\
      wconnect_loop n fuel split st3 lb3 true (if decide (sp = Some b) then None else sp) (Some b) = Some st' /\
      done R P st') as Hhang.
  { intros R2f Hsh Hst Hab.
    destruct (Hst s _ Hs2) as (xf & Hxf & X1 & X2 & X3 & X4 & X5 & X6 & X7 & X8 & X9 & X10). cbn [w_par wset_par] in X5.
    assert (lists (livez (tz R2 sz)) (W (tz R2 sz)) (grayz (tz R2 sz)) R2f P [] [] (fun _ => False) seg) as HLf.
    { eapply V1Lists.lists_ext; [| | | | |exact HL2]; auto.
      intros y a Ha. destruct (Hst y a Ha) as (a' & Q1 & Q2 & Q3 & Q4 & Q5 & Q6 & Q7 & Q8 & Q9 & Q10 & Q11). exists a'. auto. }
    assert (num2 R2f = num2 R) as HnR2f. { rewrite <-(wframe_num _ _ HF). unfold num2. by rewrite Hsh. }
    destruct (disconnect_ok xy pin labq pg (livez (tz R2 sz)) (W (tz R2 sz)) (grayz (tz R2 sz)) R2f P [] []
      (fun _ => False) seg s sp fuel (set2 R2f s (wset_par xf sp)) xf HO2 HLf Ls2)
      as (st1 & z & Hdisc & HPS1 & HSh1 & HR1 & HL1').
    { intros k Hk. by apply elem_of_nil in Hk. } { done. } { done. }
    { rewrite <-X5. apply wreal_parent_direct; [done|lia|]. rewrite X5. intros p Hp.
      destruct (Hlsp2 p Hp) as (v & Hv2 & Hvl). destruct (get_tz _ _ _ _ Hv2) as (d & Hd & ->).
      destruct (Hst p d Hd) as (d' & Hd' & _ & _ & _ & _ & _ & _ & _ & _ & _ & Fd). exists d'. split; [done|].
      rewrite decide_False in Fd by (intros [-> _]; done). rewrite Fd. by eapply live_wflag. }
    { exact Hps2. } { done. }
    unfold hang, break_off at 1. cbn [e_regs].
    assert (region_index split R2f s = Some (split <? w_patch xf)) as His. { unfold region_index. by rewrite Hxf. }
    rewrite His. rewrite decide_False by (by destruct (split <? w_patch xf)). rewrite Hdisc.
    set (i := split <? w_patch xf). set (lb1 := lb_set (None, None) i s).
    destruct (hang_core V lab C0 N xy pin pix Hpin fuel split R2 sz st1 lb1 s b
      (wset_par xs sp) (wset_par xb bp) 0 (fun y => False \/ (W (tz R2 sz) s y /\ y <> s)) (cutseg seg s) HJ2 Hs2 Hb2)
      as (st2 & lb2 & st3 & a3 & H1 & H2 & H3 & H4 & H5 & H6); cbn [w_par w_gray wset_par]; auto.
    { congruence. }
    { intros y a Ha. destruct (Hst y a Ha) as (a' & Q1 & Q2 & Q3 & Q4 & Q5 & Q6 & Q7 & Q8 & Q9 & Q10 & Q11).
      destruct (HR1 y a' Q1) as (a'' & Ha'' & (K1 & K2 & K3 & K4 & K5 & K6 & K7 & K8 & K9) & K10).
      exists a''. split_and!; auto; try congruence. rewrite K8. destruct (decide (y = s)) as [->|]; [|done].
      rewrite Hs2 in Ha. by injection Ha as <-. }
    { intros y a1 Ly Ha1. assert (exists a', get2 R2f y = Some a') as [a' Ha'] by (by eapply (shape_dom (e_regs st1) R2f)).
      assert (exists a, get2 R2 y = Some a) as [a Ha] by (by eapply (shape_dom R2f R2)).
      destruct (Hst y a Ha) as (a'2 & Q1 & Q2 & Q3 & Q4 & Q5 & Q6 & Q7 & Q8 & Q9 & Q10 & Q11).
      assert (a'2 = a') as -> by congruence.
      destruct (HR1 y a' Ha') as (a'' & Ha'' & (K1 & K2 & K3 & K4 & K5 & K6 & K7 & K8 & K9) & K10).
      assert (a'' = a1) as -> by congruence. destruct (Hz2 y a Ly Ha) as [Z U].
      destruct (Hz2 s _ Ls2 Hs2) as [Zs Us]. rewrite K5, K9, Q7, Q8, Z, U, X7, Us. split.
      - intros ->. rewrite decide_False by done. lia.
      - intros Hys. destruct (decide (sp = Some y)), (decide (Some b = Some y)); lia. }
    { intros y Ly [[]|?]. by left. }
    { intros i' e. unfold lb1. rewrite lb_get_set. destruct (decide (i' = i)); [|by destruct i'].
      intros [= <-]. split; [|apply rtc_refl]. eexists. exact Hvs2. }
    { by rewrite (wframe_num _ _ HF). }
    { by rewrite (psame_num _ _ HPS1). }
    rewrite H1, H2, H3. set (st4 := JSt (set2 (e_regs st3) s (wset_par a3 (Some b))) (e_pts st3) (e_mp st3)) in *.
    assert (wframe R (e_regs st4)) as HFR by (eapply wframe_trans; [exact HF|exact H5]).
    assert (psame P (e_pts st4)) as HPR by (by eapply psame_trans).
    rewrite decide_False by done.
    destruct (loop_B n fuel split st4 lb2 b sp (sz s) H4) as (st' & Q1 & Q2).
    - by eapply wframe_bounded.
    - by rewrite (wframe_num _ _ HFR).
    - by rewrite (psame_num _ _ HPR).
    - change (e_regs st4) with (set2 (e_regs st3) s (wset_par a3 (Some b))). destruct (wf_reg _ _ H5 b _ Hb2) as (b3 & Hb3 & Gb3 & _). rewrite (og_some _ _ _ Hb3), Gb3.
      cbn [w_gray wset_par].
      destruct sp as [p|]; [|cbn [og]; lia]. destruct (Hgspx p eq_refl) as (d & Hd & Hd255).
      destruct (wf_reg _ _ H5 p _ Hd) as (d3 & Hd3 & Gd3 & _). rewrite (og_some _ _ _ Hd3), Gd3.
      specialize (Hab p d eq_refl Hd). lia.
    - exists st4, lb2, st'. split; [done|]. split; [exact Q1|]. by eapply done_frame. }
  destruct (Nat.eqb_spec (w_gray xs) (w_gray xb)) as [Heq|Hneq].
  - destruct (Hhang (set2 R2 s (wset_flag (wset_par xs sp) 3))) as (st3 & lb3 & st' & H1 & H2 & H3).
    + apply set2_shape.
    + intros y a Ha. rewrite get2_set2, Hs2. destruct (decide (y = s)) as [->|Hys].
      * assert (a = wset_par xs sp) as -> by congruence. eexists. split; [done|]. rewrite decide_True by auto. split_and!; done.
      * exists a. rewrite decide_False by (intros [? _]; done). split_and!; done.
    + intros y d Hy Hd. rewrite <-Heq. eauto.
    + rewrite H1. eauto.
  - destruct (above R2 sp (w_gray xb)) as [[|]|] eqn:Hab.
    + destruct (Hhang R2) as (st3 & lb3 & st' & H1 & H2 & H3).
      * done.
      * intros y a Ha. exists a. rewrite decide_False by (intros [_ ?]; done). split_and!; done.
      * intros y d -> Hd. cbn in Hab. rewrite Hd in Hab. injection Hab as Hab. by apply Nat.ltb_lt in Hab.
      * rewrite H1. eauto.
    + destruct sp as [p|]; [|done]. destruct (Hgspx p eq_refl) as (d & Hd & Hd255).
      cbn in Hab. rewrite Hd in Hab. injection Hab as Hab. apply Nat.ltb_ge in Hab.
      unfold climb at 1. cbn [e_regs]. unfold region_index at 1. rewrite Hs2.
      rewrite decide_False by (by destruct (split <? w_patch (wset_par xs (Some p)))).
      rewrite decide_False by done.
      destruct (IH fuel split R2 P p b sz seg) as (st' & Q1 & Q2).
      * split; [|split; [congruence|by split]]. eapply coreA_up; [exact HA2|exact Hs2|done|done|].
        intros y d' Hd' Hy. assert (d' = d) as -> by congruence. rewrite Hb2 in Hy. injection Hy as <-. cbn. lia.
      * by eapply wframe_bounded.
      * by rewrite (wframe_num _ _ HF).
      * done.
      * rewrite (og_some _ _ _ Hd), (og_some _ _ _ Hb2). cbn [w_gray wset_par]. specialize (Hgsp p d eq_refl Hd). lia.
      * exists st'. split; [exact Q1|]. eapply done_frame; [exact HF|apply psame_refl|exact Q2].
    + exfalso. destruct sp as [p|]; [|done]. destruct (Hgspx p eq_refl) as (d & Hd & Hd255).
      cbn in Hab. by rewrite Hd in Hab.
Qed.
End loop.

(* m_ref of the recorded points is cleared *)
Lemma clear_refs_eff M : forall P, (forall q, q ∈ M -> pdom P q) -> exists P', clear_refs P M = Some P' /\ psame P P' /\
  (forall q, nx P' q = nx P q) /\ (forall q, pv P' q = pv P q) /\ (forall q, rf P' q = if decide (q ∈ M) then None else rf P q).
Proof.
  induction M as [|m M IH]; intros P HM; cbn [clear_refs].
  - exists P. split; [done|]. split; [apply psame_refl|]. split; [done|]. split; [done|]. intros q.
    rewrite decide_False; [done|]. apply not_elem_of_nil.
  - destruct (set_ref_eff P m None) as (P1 & -> & HP1 & F3 & F1 & F2). { apply HM, elem_of_cons. auto. }
    destruct (IH P1) as (P2 & -> & HP2 & G1 & G2 & G3).
    { intros q Hq. apply (psame_dom _ _ _ HP1). apply HM, elem_of_cons. auto. }
    exists P2. split; [done|]. split; [by eapply psame_trans|]. split; [intros; by rewrite G1, F1|].
    split; [intros; by rewrite G2, F2|]. intros q. rewrite G3. destruct (decide (q ∈ M)) as [H|H].
    + rewrite decide_True; [done|]. apply elem_of_cons. auto.
    + rewrite F3. destruct (decide (q = m)) as [->|Hq].
      * rewrite decide_True; [done|]. apply elem_of_cons. auto.
      * rewrite decide_False; [done|]. rewrite elem_of_cons. tauto.
Qed.

(* the state between two connect calls: component tree of the view, sizes, pixel lists and boxes *)
Definition good (V : view) (lab : nat -> rref) (xy : rref -> nat * nat) (pin : rref -> Prop) (pix : rref -> nat)
  (st : jst) : Prop :=
  e_mp st = [] /\ exists sz seg, let T := tz (e_regs st) sz in
    ctree V lab T /\ szA T (e_regs st) sz /\
    lists xy pin (fun q => lab (pix q)) (fun q => vw_gray V (pix q)) (livez T) (vunder T) (grayz T)
      (e_regs st) (e_pts st) [] [] (fun _ => False) seg.

Lemma lists_clear xy pin labq pg L W g R P M K seg P' :
  lists xy pin labq pg L W g R P M K (fun _ => False) seg -> (forall k, k ∈ K -> lpar L W k None) ->
  psame P P' -> (forall q, nx P' q = nx P q) -> (forall q, pv P' q = pv P q) ->
  (forall q, rf P' q = if decide (q ∈ M) then None else rf P q) ->
  lists xy pin labq pg L W g R P' [] [] (fun _ => False) seg.
Proof.
  intros [H1 H2 H3 H4 H5 H6 H7 H8] HK HP HN HV HR.
  assert (forall x r, L r -> reach W K x r <-> reach W [] x r) as Hre.
  { intros x r Lr. unfold reach. split; intros [Q1 Q2]; (split; [done|]).
    - intros k Hk. by apply elem_of_nil in Hk.
    - intros k Hk _ Hkr. symmetry. by apply (HK k Hk). }
  constructor.
  - intros k Hk. by apply elem_of_nil in Hk.
  - done.
  - intros r q Lr. rewrite <-Hre by done. auto.
  - intros r Lr. destruct (H4 r Lr) as (a & h & z & t & A1 & A2 & A3 & A4 & A5 & A6 & A7 & A8 & D & D1 & D2 & D3).
    exists a, h, z, t. split_and!; auto.
    + destruct A8 as [?|([] & _)]. auto.
    + destruct D2 as [->|[]]. exists []. split_and!; auto. intros q Hq. by apply elem_of_nil in Hq.
  - intros r y Lr Ly Hr. apply H5; auto. by apply Hre.
  - intros r Lr [Hr|Hr]; [by apply elem_of_nil in Hr|]. eapply dseg_frame; [exact HP| |apply H6; auto]. auto.
  - intros q Hpq Hq. rewrite HR in Hq. destruct (decide (q ∈ M)); [done|]. by destruct (H7 q Hpq Hq).
  - intros q Hq. by apply elem_of_nil in Hq.
Qed.

Lemma wconnect_ok V lab xy (pin : rref -> Prop) (pix : rref -> nat) N p0 q0 a b fuel split st :
  (forall q, pin q -> vw_in V (pix q)) ->
  vsym V -> good V lab xy pin pix st -> card_is (vw_in V) N -> wbounded (e_regs st) ->
  vw_in V p0 -> vw_in V q0 -> num2 (e_regs st) + 514 < fuel -> num2 (e_pts st) <= fuel ->
  (forall sz, real_of (tz (e_regs st) sz) (lab q0) a /\ real_of (tz (e_regs st) sz) (lab p0) b) ->
  exists st', wconnect fuel split st (Some a) (Some b) = Some st' /\
    wframe (e_regs st) (e_regs st') /\ psame (e_pts st) (e_pts st') /\ good (add_edge V p0 q0) lab xy pin pix st'.
Proof.
  intros Hpin HS (HM & sz & seg & HT & Hz & HL) HN HB Hp Hq Hf Hfp Hab. destruct (Hab sz) as [Ha Hb].
  pose proof (j_start V lab (tz (e_regs st) sz) N p0 q0 b a HS HT HN Hp Hq Hb Ha) as HJ.
  destruct st as [R P M]. cbn [e_regs e_pts e_mp] in *. subst M. unfold wconnect.
  destruct (decide (Some a = Some b)) as [[= ->]|Hne].
  - exists (JSt R P []). split; [done|]. split; [apply wframe_refl|]. split; [apply psame_refl|].
    split; [done|]. exists sz, seg. cbn [e_regs e_pts e_mp]. cbn zeta. split_and!; auto.
    eapply (j_end V lab (tz R sz) (tz R sz)); eauto.
  - destruct (loop_A V lab (C0_of lab (tz R sz) p0 q0) N xy pin pix Hpin fuel fuel split R P b a sz seg) as (st' & H1 & H2); auto.
    + split; [exact HJ|]. split; [congruence|]. by split.
    + lia.
    + cbn. lia.
    + rewrite H1. destruct H2 as (sz' & os & c & cut & seg' & J1 & J2 & J3 & J4 & J5 & J6).
      destruct (clear_refs_eff (e_mp st') (e_pts st')) as (P' & -> & C1 & C2 & C3 & C4).
      { intros q Hq'. by eapply (l_marks _ _ _ _ _ _ _ _ _ _ _ _ _ J3). }
      eexists. split; [done|]. cbn [e_regs e_pts e_mp]. split; [done|]. split; [by eapply psame_trans|].
      split; [done|]. exists sz', seg'. cbn [e_regs e_pts e_mp]. cbn zeta. split_and!; auto.
      * eapply (j_end V lab (tz R sz) (tz (e_regs st') sz')); eauto.
      * by eapply lists_clear.
Qed.
