(* The loop of connect of Fast MSER V1. *)
From stdpp Require Import sorting relations functions list.
From Coq Require Import ZArith.
From Verif Require Import Spec TreeSpec TreeFacts JoinMath FloodModel V1JoinModel V1Heap V1Lists V1Cut V1Connect.
Local Open Scope nat_scope.

(* what connect leaves alone *)
Record wframe (R R' : list (list wreg)) : Prop := {
  wf_shape : length <$> R' = length <$> R;
  wf_reg : forall r a, get2 R r = Some a -> exists a', get2 R' r = Some a' /\
    w_gray a' = w_gray a /\ w_bnd a' = w_bnd a /\ w_patch a' = w_patch a /\ w_head a' = w_head a /\
    (w_flag a' = w_flag a \/ w_flag a' = 3)
}.
Lemma wframe_refl R : wframe R R.
Proof. constructor; auto. intros r a Ha. exists a. auto 7. Qed.
Lemma wframe_trans R R' R'' : wframe R R' -> wframe R' R'' -> wframe R R''.
Proof.
  intros [S1 R1] [S2 R2]. constructor; [congruence|]. intros r a Ha.
  destruct (R1 r a Ha) as (a' & Ha' & A1 & A2 & A3 & A4 & A5).
  destruct (R2 r a' Ha') as (a'' & Ha'' & B1 & B2 & B3 & B4 & B5).
  exists a''. split; auto. split; [congruence|]. split; [congruence|]. split; [congruence|]. split; [congruence|].
  destruct B5 as [->|?]; auto.
Qed.
Lemma wframe_set R r a b : get2 R r = Some a -> w_gray b = w_gray a -> w_bnd b = w_bnd a ->
  w_patch b = w_patch a -> w_head b = w_head a -> (w_flag b = w_flag a \/ w_flag b = 3) -> wframe R (set2 R r b).
Proof.
  intros Ha H1 H2 H3 H4 H5. constructor; [apply set2_shape|]. intros r' a' Ha'. rewrite get2_set2.
  case_decide as Hd.
  - subst. rewrite Ha. exists b. assert (a' = a) as -> by congruence. auto 7.
  - exists a'. auto 7.
Qed.
Lemma wframe_num R R' : wframe R R' -> num2 R' = num2 R.
Proof. intros [H _]. unfold num2. by rewrite H. Qed.
Lemma wframe_inv R R' r a' : wframe R R' -> get2 R' r = Some a' -> exists a, get2 R r = Some a.
Proof. intros [H _] Ha. by eapply (shape_dom R' R). Qed.
Definition wbounded (R : list (list wreg)) : Prop := forall r a, get2 R r = Some a -> w_gray a <= 255.
Lemma wframe_bounded R R' : wframe R R' -> wbounded R -> wbounded R'.
Proof.
  intros HF HB r a' Ha'. destruct (wframe_inv _ _ _ _ HF Ha') as [a Ha].
  destruct (wf_reg _ _ HF r a Ha) as (a2 & Ha2 & Hg & _). assert (a2 = a') as -> by congruence.
  rewrite Hg. eauto.
Qed.
Lemma wframe_dchange R R' r par u : length <$> R' = length <$> R ->
  (forall y a, get2 R y = Some a -> exists a', get2 R' y = Some a' /\ dchange r par u y a a') -> wframe R R'.
Proof.
  intros HS H. constructor; [done|]. intros y a Ha. destruct (H y a Ha) as (a' & Ha' & D1 & D2 & D3 & D4 & D5 & D6 & _).
  exists a'. auto 7.
Qed.
Lemma region_index_frame split R R' r i : wframe R R' -> region_index split R r = Some i -> region_index split R' r = Some i.
Proof.
  intros HF. unfold region_index. destruct (get2 R r) as [a|] eqn:Ha; [|done].
  destruct (wf_reg _ _ HF r a Ha) as (a' & -> & _ & _ & -> & _). done.
Qed.
Lemma lb_get_set lb i j r : lb_get (lb_set lb i r) j = if decide (j = i) then Some r else lb_get lb j.
Proof. destruct i, j; done. Qed.

Lemma vu_trans (T : rref -> option (vreg rref)) x y z : vunder T x y -> vunder T y z -> vunder T x z.
Proof. apply rtc_transitive. Qed.

Section loop.
Context (V : view) (lab : nat -> rref) (C0 : nat -> rref -> rref -> Prop) (N : nat).
Context (xy : rref -> nat * nat) (pin : rref -> Prop) (pix : rref -> nat)
  (Hpin : forall q, pin q -> vw_in V (pix q)).
Notation J T os ob c := (jinv V lab C0 N T os ob c).
Notation labq := (fun q => lab (pix q)).
Notation pg := (fun q => vw_gray V (pix q)).
Notation order := (order pin labq pg).
Notation lists := (lists xy pin labq pg).
Notation W T := (vunder T).

Lemma order_j T os ob c : J T os ob c -> order (livez T) (vunder T) (grayz T).
Proof using Hpin. intros HJ. apply order_wf; [apply HJ|]. intros q Hq. by apply (j_lab _ _ _ _ _ _ _ _ HJ), Hpin. Qed.

(* sizes while the pixels of s are cut out and c pixels are still missing in ob *)
Definition szB (T : rref -> option (vreg rref)) (R : list (list wreg)) (sz : rref -> nat) (s : rref)
  (sp ob : option rref) (c : nat) : Prop := forall y a, livez T y -> get2 R y = Some a ->
  (y = s -> w_size a = Z.of_nat (sz s + c) /\ w_un a = Z.of_nat (sz s + c)) /\
  (y <> s -> w_un a = Z.of_nat (sz y) /\
    w_size a = (Z.of_nat (sz y) - (if decide (sp = Some y) then Z.of_nat (sz s) else 0) -
                (if decide (ob = Some y) then Z.of_nat c else 0))%Z).
(* sizes outside connect *)
Definition szA (T : rref -> option (vreg rref)) (R : list (list wreg)) (sz : rref -> nat) : Prop :=
  forall y a, livez T y -> get2 R y = Some a -> w_size a = Z.of_nat (sz y) /\ w_un a = Z.of_nat (sz y).

Definition invB (split : nat) (st : jst) (s : rref) (ob : option rref) (c : nat) (lb : last_break) : Prop :=
  exists sz sp St seg, let R := e_regs st in let T := tz R sz in
  J T (Some s) ob c /\
  (forall b x y, ob = Some b -> get2 R s = Some x -> get2 R b = Some y -> w_gray x <= w_gray y /\ s <> b) /\
  lpar (livez T) (W T) s sp /\ szB T R sz s sp ob c /\
  lists (livez T) (W T) (grayz T) R (e_pts st) (e_mp st) [s] St seg /\
  (forall y, livez T y -> St y -> (W T s y /\ y <> s) \/ exists b, ob = Some b /\ W T b y) /\
  (exists i, region_index split R s = Some i /\ lb_get lb i = Some s) /\
  (forall i e, lb_get lb i = Some e -> domz T e /\ W T e s).

Lemma lpar_direct T s a : wf T -> T s = Some a -> v_live a = true -> is_live T (v_par a) ->
  real_parent T a (v_par a) /\ lpar (livez T) (W T) s (v_par a).
Proof using.
  intros HW Hs Hl Hp. assert (real_parent T a (v_par a)) as HR.
  { unfold real_parent. destruct (v_par a) as [t|]; [|done]. destruct (Hp t eq_refl) as (d & Hd & Hdl).
    exists t, d. split; [done|]. split; [apply rtc_refl|]. split; [done|]. split; [done|].
    split; [intros bt Hbt; congruence|]. auto. }
  split; [done|]. by eapply lpar_real.
Qed.
Lemma lpar_gray T s a p d : wf T -> T s = Some a -> v_live a = true -> lpar (livez T) (W T) s (Some p) -> T p = Some d ->
  v_gray a < v_gray d.
Proof using.
  intros HW Hs Hl (_ & H1 & H2 & _) Hd. destruct (vunder_live _ _ _ _ _ HW Hs Hd Hl H1); [congruence|done].
Qed.
Lemma live_get R sz y : livez (tz R sz) y <-> exists a, get2 R y = Some a /\ w_flag a <> 3.
Proof using.
  split.
  - intros (v & Hv & Hl). destruct (get_tz _ _ _ _ Hv) as (a & Ha & ->). exists a. split; [done|]. by eapply live_wflag.
  - intros (a & Ha & Hf). exists (wv sz y a). split; [by apply tz_get|]. by apply live_wflag.
Qed.
Lemma grayz_get R sz y a : get2 R y = Some a -> grayz (tz R sz) y = w_gray a.
Proof using. intros H. unfold grayz, tz. by rewrite H. Qed.

(* ---------- b is broken off, the list of s goes behind it, s is hung below b ---------- *)
Lemma hang_core fuel split R2 sz st lb s b xs xb c St seg :
  J (tz R2 sz) (Some s) (Some b) c -> get2 R2 s = Some xs -> get2 R2 b = Some xb ->
  is_live (tz R2 sz) (w_par xs) -> is_live (tz R2 sz) (w_par xb) -> w_gray xs <= w_gray xb -> s <> b ->
  (forall y d, w_par xs = Some y -> get2 R2 y = Some d -> w_gray xb < w_gray d) ->
  length <$> e_regs st = length <$> R2 ->
  (forall y a, get2 R2 y = Some a -> exists a', get2 (e_regs st) y = Some a' /\
     w_gray a' = w_gray a /\ w_bnd a' = w_bnd a /\ w_patch a' = w_patch a /\ w_head a' = w_head a /\ w_par a' = w_par a /\
     w_flag a' = (if decide (y = s /\ w_gray xs = w_gray xb) then 3 else w_flag a)) ->
  szB (tz R2 sz) (e_regs st) sz s (w_par xs) (Some b) c ->
  lists (livez (tz R2 sz)) (W (tz R2 sz)) (grayz (tz R2 sz)) (e_regs st) (e_pts st) (e_mp st) [s] St seg ->
  (forall y, livez (tz R2 sz) y -> St y -> (W (tz R2 sz) s y /\ y <> s) \/ W (tz R2 sz) b y) ->
  (forall i e, lb_get lb i = Some e -> domz (tz R2 sz) e /\ W (tz R2 sz) e s) ->
  num2 R2 < fuel -> num2 (e_pts st) <= fuel ->
  exists st2 lb2 st3 a3, break_off fuel split st lb b = Some (st2, lb2) /\ append st2 b s = Some st3 /\
    get2 (e_regs st3) s = Some a3 /\
    invB split (JSt (set2 (e_regs st3) s (wset_par a3 (Some b))) (e_pts st3) (e_mp st3)) b (w_par xs) (sz s) lb2 /\
    wframe R2 (set2 (e_regs st3) s (wset_par a3 (Some b))) /\ psame (e_pts st) (e_pts st3).
Proof using Hpin.
  set (T := tz R2 sz). intros HJ Hs Hb Hlsp Hlbp Hg Hsb Habove Hshape Hst HszB HL HSt Hlb Hf Hfp.
  pose proof (j_wf _ _ _ _ _ _ _ _ HJ) as HW.
  pose proof (order_j _ _ _ _ HJ) as HO.
  destruct st as [R P M]. cbn [e_regs e_pts e_mp] in *.
  assert (T s = Some (wv sz s xs)) as HTs by (by apply tz_get).
  assert (T b = Some (wv sz b xb)) as HTb by (by apply tz_get).
  destruct (j_s _ _ _ _ _ _ _ _ HJ s eq_refl) as (v & Hv & Hlvs). assert (v = wv sz s xs) as -> by congruence. clear Hv.
  destruct (j_b _ _ _ _ _ _ _ _ HJ b eq_refl) as (v & Hv & Hlvb). assert (v = wv sz b xb) as -> by congruence. clear Hv.
  assert (livez T s) as Ls by (eexists; eauto). assert (livez T b) as Lb by (eexists; eauto).
  destruct (lpar_direct T s _ HW HTs Hlvs Hlsp) as [HRs Hps].
  destruct (lpar_direct T b _ HW HTb Hlvb Hlbp) as [HRb Hpb]. cbn [wv v_par] in HRs, Hps, HRb, Hpb.
  assert (~ W T b s) as Hnbs. { apply (not_under T s b (wv sz s xs) (wv sz b xb)); auto. }
  assert (~ W T s b) as Hnsb.
  { intros H. destruct (w_par xs) as [p|] eqn:Hp.
    - destruct Hps as ((d & Hd & _) & Q2 & Q3 & Q4). destruct (Q4 b Lb H) as [?|Hpb']; [done|].
      pose proof (vunder_gray _ _ _ _ _ HW Hd HTb Hpb') as Hgg. destruct (get_tz _ _ _ _ Hd) as (d' & Hd' & ->).
      specialize (Habove p d' eq_refl Hd'). cbn in Hgg. lia.
    - cbn [lpar] in Hps. apply Hsb. symmetry. by apply Hps. }
  (* records in the current table *)
  destruct (Hst s xs Hs) as (xs1 & Hs1 & Gs1 & Bs1 & Ps1 & Ds1 & Qs1 & Fs1).
  destruct (Hst b xb Hb) as (xb1 & Hb1 & Gb1 & Bb1 & Pb1 & Db1 & Qb1 & Fb1).
  rewrite decide_False in Fb1 by (intros [? _]; done).
  assert (w_par xb <> Some s) as Hbps.
  { intros E. rewrite E in Hpb. pose proof (lpar_gray T b _ s _ HW HTb Hlvb Hpb HTs) as H. cbn in H. lia. }
  assert (w_par xs <> Some b) as Hspb.
  { intros E. rewrite E in Hps. destruct Hps as (_ & H & _). done. }
  assert (w_par xb <> Some b) as Hbpb.
  { intros E. rewrite E in Hpb. by destruct Hpb as (_ & _ & H & _). }
  assert (w_par xs <> Some s) as Hsps.
  { intros E. rewrite E in Hps. by destruct Hps as (_ & _ & H & _). }
  (* the region b is not the last one broken off *)
  unfold break_off. cbn [e_regs].
  assert (exists ib, region_index split R b = Some ib) as [ib Hib]. { unfold region_index. rewrite Hb1. eauto. }
  rewrite Hib. rewrite decide_False by (intros E; apply Hnbs; by apply (Hlb ib b)).
  (* it is broken off *)
  assert (wreal_parent fuel R b = Some (set2 R b (wset_par xb1 (w_par xb1)), w_par xb1)) as HWP.
  { apply wreal_parent_direct; [done|lia|]. intros p. rewrite Qb1. intros Hp.
    destruct (Hlbp p Hp) as (d & Hd & Hdl). destruct (get_tz _ _ _ _ Hd) as (d' & Hd' & ->).
    destruct (Hst p d' Hd') as (d2 & Hd2 & _ & _ & _ & _ & _ & Fd). exists d2. split; [done|].
    rewrite decide_False in Fd by (intros [-> _]; congruence). rewrite Fd. by eapply live_wflag. }
  destruct (disconnect_ok xy pin labq pg (livez T) (W T) (grayz T) R P M [s] St seg b (w_par xb1) fuel (set2 R b (wset_par xb1 (w_par xb1))) xb1 HO HL Lb)
    as (st2 & z & Hdisc & HPS2 & HSh2 & HR2 & HL2).
  { intros k ->%elem_of_list_singleton. done. }
  { intros y Ly Sy Hyb. destruct (HSt y Ly Sy) as [[Q1 Q2]|Q1].
    - exfalso. apply Hnsb. eauto using vu_trans.
    - by apply (o_anti pin labq pg _ _ _ HO). }
  { done. } { exact HWP. } { rewrite Qb1. exact Hpb. } { done. }
  rewrite Hdisc.
  destruct (HR2 b xb1 Hb1) as (xb2 & Hb2 & (E1 & E2 & E3 & E4 & E5 & E6 & E7 & E8 & E9) & E10).
  destruct (HR2 s xs1 Hs1) as (xs2 & Hs2 & (G1 & G2 & G3 & G4 & G5 & G6 & G7 & G8 & G9) & G10).
  rewrite decide_True in E8 by done. rewrite decide_False in E9 by congruence.
  rewrite decide_False in G8 by done. rewrite decide_False in G9 by congruence.
  (* the tables after the call *)
  set (n := (w_size xb2 + w_size xs2)%Z).
  set (R3 := set2 (e_regs st2) b (wadjust (wset_size (wset_tail xb2 (w_tail xs2)) n n) xs2)).
  set (R5 := set2 R3 s (wset_par xs2 (Some b))).
  set (sz5 := fun y => if decide (y = s) then sz s + c else sz y).
  set (T' := tz R5 sz5).
  assert (get2 R3 s = Some xs2) as Hs3 by (unfold R3; rewrite get2_set2_ne; auto).
  assert (get2 R5 s = Some (wset_par xs2 (Some b))) as Hs5 by (unfold R5; eapply get2_set2_eq; eauto).
  assert (get2 R5 b = Some (wadjust (wset_size (wset_tail xb2 (w_tail xs2)) n n) xs2)) as Hb5.
  { unfold R5. rewrite get2_set2_ne by done. unfold R3. eapply get2_set2_eq; eauto. }
  assert (forall y, y <> s -> y <> b -> get2 R5 y = get2 (e_regs st2) y) as Hother.
  { intros y H1 H2. unfold R5, R3. rewrite !get2_set2_ne; auto. }
  assert (wframe R2 R) as HFr.
  { constructor; [done|]. intros y a Ha. destruct (Hst y a Ha) as (a' & Ha' & Q1 & Q2 & Q3 & Q4 & Q5 & Q6).
    exists a'. split_and!; auto. rewrite Q6. case_decide; auto. }
  assert (wframe R2 R5) as HFr5.
  { eapply wframe_trans; [exact HFr|]. eapply wframe_trans.
    { eapply (wframe_dchange R (e_regs st2)); [done|]. intros y a Ha. destruct (HR2 y a Ha) as (a' & Q1 & Q2 & _). eauto. }
    apply (wframe_trans _ R3); [apply (wframe_set (e_regs st2) b xb2 _ Hb2); cbn; auto|].
    apply (wframe_set R3 s xs2 _ Hs3); cbn; auto. }
  assert (upd T T' s (VReg (w_gray xs) (negb (w_gray xb =? w_gray xs)) (sz s + c) (Some b))) as HU.
  { intros y. unfold T', tz. destruct (decide (y = s)) as [->|Hys].
    - rewrite Hs5. cbn. unfold wv. cbn. unfold sz5. rewrite decide_True by done.
      rewrite G1, Gs1, G2, Fs1. f_equal. f_equal.
      destruct (decide (s = s /\ w_gray xs = w_gray xb)) as [[_ He]|Hn].
      + rewrite He. cbn. by rewrite Nat.eqb_refl.
      + assert (w_gray xb =? w_gray xs = false) as ->. { apply Nat.eqb_neq. intros ?. apply Hn. auto. }
        cbn in Hlvs. destruct (w_flag xs =? 3); done.
    - destruct (get2 R2 y) as [a|] eqn:Ha.
      + assert (T y = Some (wv sz y a)) as -> by (by apply tz_get). destruct (Hst y a Ha) as (a1 & Ha1 & Q1 & Q2 & Q3 & Q4 & Q5 & Q6).
        rewrite decide_False in Q6 by (intros [? _]; done).
        destruct (HR2 y a1 Ha1) as (a2 & Ha2 & (K1 & K2 & K3 & K4 & K5 & K6 & K7 & K8 & K9) & K10).
        destruct (decide (y = b)) as [->|Hyb].
        * rewrite Hb5. cbn. unfold wv. cbn. unfold sz5. rewrite decide_False by done.
          assert (a = xb) as -> by congruence. assert (a1 = xb1) as -> by congruence. rewrite E1, E2, E8. congruence.
        * rewrite Hother by done. rewrite Ha2. cbn. unfold wv, sz5. rewrite decide_False by done.
          rewrite K1, K2, K8, Q1, Q5, Q6. done.
      + assert (T y = None) as -> by (unfold T, tz; by rewrite Ha). destruct (get2 R5 y) as [a5|] eqn:E; [|done].
        destruct (wframe_inv _ _ _ _ HFr5 E). congruence. }
  assert (J T' (Some b) (w_par xs) (sz s)) as HJ'.
  { eapply (j_rehang V lab C0 N T T' s (wv sz s xs) b (wv sz b xb) (w_par xs) c HJ HTs HTb); auto.
    intros y d Hy Hd. destruct (get_tz _ _ _ _ Hd) as (d' & Hd' & ->). specialize (Habove y d' Hy Hd'). cbn. lia. }
  pose proof (j_wf _ _ _ _ _ _ _ _ HJ') as HW'.
  pose proof (fun x r => rehang_out T T' s _ HU x r) as Hout.
  pose proof (rehang_in T T' s _ b HW HU eq_refl Hnbs) as Hin.
  assert (forall y, livez T' y -> livez T y) as HL'1.
  { intros y (d & Hd & Hdl). destruct (decide (y = s)) as [->|Hys]; [done|]. exists d. split; [|done].
    by rewrite (HU y), decide_False in Hd. }
  assert (forall y, livez T y -> y <> s -> livez T' y) as HL'2.
  { intros y (d & Hd & Hdl) Hys. exists d. split; [|done]. by rewrite (HU y), decide_False. }
  assert (forall y, grayz T' y = grayz T y) as Hgz.
  { intros y. unfold grayz. rewrite (HU y). destruct (decide (y = s)) as [->|]; [by rewrite HTs|done]. }
  destruct (append_ok xy pin labq pg (livez T) (W T) (grayz T) (livez T') (W T') (grayz T') (domz T)
    (e_regs st2) (e_pts st2) (e_mp st2) (fun y => St y \/ (W T b y /\ y <> b)) (cutseg seg b) b s xb2 xs2)
    as (st3 & Happ & HPS3 & HR3 & HM3 & HL3).
  { exact HO. } { exact HL2. } { done. } { done. }
  { intros q Hq. destruct (j_lab _ _ _ _ _ _ _ _ HJ _ (Hpin q Hq)) as (d & Hd & _). exists d. done. }
  { intros y (d & Hd & _). exists d. done. }
  { intros x _. by apply vunder_dec. }
  { exact HL'1. } { exact HL'2. }
  { intros x y _ _ H. by apply Hout. }
  { intros x y [d Hd] _ H. apply Hin; eauto. }
  { intros y _. apply Hgz. } { exact Hb2. } { exact Hs2. }
  fold n in HR3. fold R3 in HR3.
  exists st2, (lb_set lb ib b), st3, xs2. split; [done|]. split.
  { destruct st2. exact Happ. }
  rewrite HR3. fold R5. split; [done|]. split; [|split; [done|by eapply psame_trans]].
  (* the new invariant *)
  assert (lpar (livez T') (W T') b (w_par xb)) as Hpb'.
  { destruct (w_par xb) as [p|] eqn:Ep; cbn [lpar] in Hpb |- *.
    - destruct Hpb as (Q1 & Q2 & Q3 & Q4). split; [apply HL'2; [done|congruence]|]. split; [by apply Hout|]. split; [done|].
      intros y Ly Hy. rewrite Hout in Hy by done. destruct (Q4 y (HL'1 y Ly) Hy) as [?|H]; [by left|]. right.
      apply Hout; [|done]. intros Hps'. apply Hnbs. eauto using vu_trans.
    - intros y Ly Hy. apply Hpb; auto. by apply Hout. }
  exists sz5, (w_par xb), (fun y => (St y \/ (W T b y /\ y <> b)) /\ y <> b), (joinseg (cutseg seg b) b s).
  cbn [e_regs e_pts e_mp]. fold T'. split_and!.
  - exact HJ'.
  - intros p x y Hp Hx Hy. assert (x = wadjust (wset_size (wset_tail xb2 (w_tail xs2)) n n) xs2) as -> by congruence.
    destruct (Hlsp p Hp) as (v & Hv & _). destruct (get_tz _ _ _ _ Hv) as (d & Hd & ->).
    destruct (wf_reg _ _ HFr5 p d Hd) as (d' & Hd' & Gd & _). assert (d' = y) as -> by congruence.
    cbn. rewrite Gd, E1, Gb1. specialize (Habove p d Hp Hd). split; [lia|]. congruence.
  - exact Hpb'.
  - (* sizes *)
    destruct (HszB b xb1 Lb Hb1) as [_ SB]. destruct (SB (not_eq_sym Hsb)) as [UB ZB]. clear SB.
    rewrite (decide_False (P := w_par xs = Some b)), (decide_True (P := Some b = Some b)) in ZB by done.
    destruct (HszB s xs1 Ls Hs1) as [SS _]. destruct (SS eq_refl) as [ZS US]. clear SS.
    intros y a Ly Ha. pose proof (HL'1 y Ly) as Ly0. unfold sz5.
    rewrite (decide_False (P := b = s)) by done. split.
    + intros ->. rewrite Hb5 in Ha. injection Ha as <-. cbn. unfold n. rewrite E9, G9, ZB, ZS. lia.
    + intros Hyb. destruct (decide (y = s)) as [->|Hys].
      * rewrite Hs5 in Ha. injection Ha as <-. cbn. rewrite G5, US, G9, ZS.
        rewrite !decide_False by congruence. lia.
      * rewrite Hother in Ha by done.
        assert (exists a1, get2 R y = Some a1) as [a1 Ha1]. { by eapply (shape_dom (e_regs st2) R). }
        destruct (HR2 y a1 Ha1) as (a2 & Ha2 & (K1 & K2 & K3 & K4 & K5 & K6 & K7 & K8 & K9) & K10).
        assert (a2 = a) as -> by congruence.
        destruct (HszB y a1 Ly0 Ha1) as [_ SY]. destruct (SY Hys) as [UY ZY].
        rewrite (decide_False (P := Some b = Some y)) in ZY by congruence.
        rewrite K5, K9, UY, ZY, UB, Qb1. split; [done|].
        destruct (decide (w_par xb = Some y)), (decide (w_par xs = Some y)); lia.
  - rewrite HM3. eapply (V1Lists.lists_ext xy pin labq pg (livez T') (W T') (grayz T')); [| | | | |rewrite HR3 in HL3; exact HL3]; auto.
    + intros y a Ha. unfold R5. rewrite get2_set2, Hs3. destruct (decide (y = s)) as [->|].
      * assert (a = xs2) as -> by congruence. eexists. split; [done|]. done.
      * exists a. done.
  - intros y Ly [[Sy|[Q1 Q2]] Hyb].
    + pose proof (HL'1 y Ly) as Ly0. destruct (HSt y Ly0 Sy) as [[Q1 Q2]|Q1].
      * right. destruct (w_par xs) as [p|] eqn:Ep; cbn [lpar] in Hps.
        -- exists p. split; [done|]. destruct Hps as (R1' & R2' & R3' & R4'). destruct (R4' y Ly0 Q1) as [?|H]; [done|].
           apply Hout; [|done]. intros Hps'. apply R3'. by apply (o_anti pin labq pg _ _ _ HO).
        -- exfalso. apply Q2. by apply Hps.
      * left. split; [by apply Hout|done].
    + left. split; [by apply Hout|done].
  - exists ib. split; [|by rewrite lb_get_set, decide_True].
    unfold region_index in *. rewrite Hb1 in Hib. rewrite Hb5. cbn. by rewrite E4.
  - assert (vunder T' s b) as Hsb'. { apply rtc_once. exists (VReg (w_gray xs) (negb (w_gray xb =? w_gray xs)) (sz s + c) (Some b)).
      split; [by rewrite (HU s), decide_True|done]. }
    intros i e. rewrite lb_get_set. destruct (decide (i = ib)) as [Hi|Hi].
    + intros [= <-]. split; [|apply rtc_refl]. unfold domz, T'. rewrite (tz_get _ _ _ _ Hb5). eauto.
    + intros He. destruct (Hlb i e He) as [[d Hd] Hes]. split.
      * unfold domz. rewrite (HU e). destruct (decide (e = s)); eauto.
      * apply (Hin e b); eauto. right. apply rtc_refl.
Qed.


(* ---------- the state while pixels are moved ---------- *)
Definition coreB (split : nat) (st : jst) (s : rref) (ob : option rref) (c : nat) (lb : last_break)
  (sz : rref -> nat) (sp : option rref) (St : rref -> Prop) (seg : rref -> list rref) : Prop :=
  let R := e_regs st in let T := tz R sz in
  J T (Some s) ob c /\
  (forall b x y, ob = Some b -> get2 R s = Some x -> get2 R b = Some y -> w_gray x <= w_gray y /\ s <> b) /\
  lpar (livez T) (W T) s sp /\ szB T R sz s sp ob c /\
  lists (livez T) (W T) (grayz T) R (e_pts st) (e_mp st) [s] St seg /\
  (forall y, livez T y -> St y -> (W T s y /\ y <> s) \/ exists b, ob = Some b /\ W T b y) /\
  (exists i, region_index split R s = Some i /\ lb_get lb i = Some s) /\
  (forall i e, lb_get lb i = Some e -> domz T e /\ W T e s).

Lemma compress_facts R sz r a oy : wf (tz R sz) -> get2 R r = Some a -> real_parent (tz R sz) (wv sz r a) oy ->
  let T := tz R sz in let T' := tz (set2 R r (wset_par a oy)) sz in
  wf T' /\ (forall y, livez T y <-> livez T' y) /\ (forall x y, livez T y -> W T x y <-> W T' x y) /\
  (forall y, grayz T y = grayz T' y) /\ (forall y, domz T y <-> domz T' y).
Proof using.
  intros HW Ha HR T T'. eapply compress_same; [exact HW|by apply tz_get|exact HR|].
  exact (tz_upd R sz r (wset_par a oy) a Ha).
Qed.
Lemma rsame_par R r a oy : get2 R r = Some a -> rsame R (set2 R r (wset_par a oy)).
Proof using.
  intros Ha y b Hb. rewrite get2_set2, Ha. destruct (decide (y = r)) as [->|].
  - assert (b = a) as -> by congruence. eexists. split; [done|]. done.
  - exists b. done.
Qed.
Lemma is_live_compress R sz r a oy op : wf (tz R sz) -> get2 R r = Some a -> real_parent (tz R sz) (wv sz r a) oy ->
  is_live (tz R sz) op -> is_live (tz (set2 R r (wset_par a oy)) sz) op.
Proof using.
  intros HW Ha HR Hl y Hy. destruct (compress_facts R sz r a oy HW Ha HR) as (_ & HL & _).
  by apply (HL y), Hl.
Qed.
Lemma coreB_compress split R P M s ob c lb sz sp St seg r a oy :
  coreB split (JSt R P M) s ob c lb sz sp St seg -> get2 R r = Some a -> real_parent (tz R sz) (wv sz r a) oy ->
  coreB split (JSt (set2 R r (wset_par a oy)) P M) s ob c lb sz sp St seg.
Proof using.
  intros (HJ & Hg & Hp & Hz & HL & HS & Hi & He) Ha HR. cbn [e_regs e_pts e_mp] in *.
  pose proof (compress_facts R sz r a oy (j_wf _ _ _ _ _ _ _ _ HJ) Ha HR) as (HW' & F1 & F2 & F3 & F4).
  assert (forall y b, get2 (set2 R r (wset_par a oy)) y = Some b -> exists b0, get2 R y = Some b0 /\
    w_gray b = w_gray b0 /\ w_size b = w_size b0 /\ w_un b = w_un b0 /\ w_patch b = w_patch b0) as Hback.
  { intros y b. rewrite get2_set2, Ha. destruct (decide (y = r)) as [->|]; [intros [= <-]; eauto 6|eauto 6]. }
  assert (livez (tz R sz) s) as Ls by (by apply HJ).
  unfold coreB. cbn [e_regs e_pts e_mp]. split_and!.
  - eapply j_compress; [exact HJ|by apply tz_get|exact HR|]. exact (tz_upd R sz r (wset_par a oy) a Ha).
  - intros b x y Hb Hx Hy. destruct (Hback _ _ Hx) as (x0 & Hx0 & -> & _). destruct (Hback _ _ Hy) as (y0 & Hy0 & -> & _). eauto.
  - eapply lpar_ext; [exact Ls|exact F1|exact F2|exact Hp].
  - intros y b Ly Hb. apply F1 in Ly. destruct (Hback _ _ Hb) as (b0 & Hb0 & _ & -> & -> & _). by apply Hz.
  - eapply V1Lists.lists_ext; [exact F1|exact F2|intros; apply F3|by apply rsame_par| |exact HL]; auto.
  - intros y Ly Sy. apply F1 in Ly. destruct (HS y Ly Sy) as [[Q1 Q2]|(b & Q1 & Q2)].
    + left. split; [by apply F2|done].
    + right. exists b. split; [done|]. by apply F2.
  - destruct Hi as (i & Hi & Hl). exists i. split; [|done]. eapply region_index_frame; [|exact Hi].
    eapply wframe_set; eauto.
  - intros i e Hie. destruct (He i e Hie) as [Q1 Q2]. split; [by apply F4|]. by apply F2.
Qed.

(* ---------- the list of s moves behind its real parent ---------- *)
Lemma climb_core fuel split R P M s p ob c lb sz St seg xs :
  coreB split (JSt R P M) s ob c lb sz (Some p) St seg -> get2 R s = Some xs -> w_par xs = Some p ->
  (forall b y d, ob = Some b -> get2 R b = Some y -> get2 R p = Some d -> w_gray d <= w_gray y) ->
  num2 R < fuel -> num2 P <= fuel ->
  exists st1 st2 j, disconnect fuel (JSt R P M) p = Some st1 /\ region_index split (e_regs st1) p = Some j /\
    append st1 p s = Some st2 /\
    invB split st2 p (if decide (Some p = ob) then None else ob) (if decide (Some p = ob) then 0 else c) (lb_set lb j p) /\
    wframe R (e_regs st2) /\ psame P (e_pts st2).
Proof using Hpin.
  set (T := tz R sz). intros (HJ & Hg & Hps & HszB & HL & HSt & _ & Hlb) Hs Hxp Hpb Hf Hfp. cbn [e_regs e_pts e_mp] in *.
  fold T in HJ, Hps, HszB, HL, HSt, Hlb.
  pose proof (j_wf _ _ _ _ _ _ _ _ HJ) as HW.
  pose proof (order_j _ _ _ _ HJ) as HO.
  assert (T s = Some (wv sz s xs)) as HTs by (by apply tz_get).
  destruct (j_s _ _ _ _ _ _ _ _ HJ s eq_refl) as (v & Hv & Hlvs). assert (v = wv sz s xs) as -> by congruence. clear Hv.
  assert (livez T s) as Ls by (eexists; eauto).
  pose proof Hps as ((v & Hv & Hlvp) & Hsp & Hpns & Hpabove).
  destruct (get_tz _ _ _ _ Hv) as (d & Hd & ->). rename Hv into HTp.
  assert (livez T p) as Lp by (eexists; eauto).
  assert (w_gray xs < w_gray d) as Hgsd. { exact (lpar_gray T s _ p _ HW HTs Hlvs Hps HTp). }
  assert (~ W T p s) as Hnps.
  { intros H. apply Hpns. by apply (o_anti pin labq pg _ _ _ HO). }
  destruct (wreal_parent_ok R sz p d fuel HW Hd Hf) as (pp & HWP & HRp & Hlpp). fold T in HRp, Hlpp.
  pose proof (lpar_real T p _ pp HW HTp Hlvp HRp) as Hppar.
  assert (forall b, ob = Some b -> livez T b /\ (W T b p -> b = p)) as Hbp.
  { intros b Hb. pose proof (j_b _ _ _ _ _ _ _ _ HJ b Hb) as Lb. split; [done|]. intros H.
    pose proof Lb as (v & Hv & Hvl). destruct (get_tz _ _ _ _ Hv) as (y & Hy & ->).
    destruct (vunder_live _ _ _ _ _ HW Hv HTp Hvl H) as [?|Hlt]; [done|]. specialize (Hpb b y d Hb Hy Hd).
    cbn in Hlt. lia. }
  destruct (disconnect_ok xy pin labq pg (livez T) (W T) (grayz T) R P M [s] St seg p pp fuel
      (set2 R p (wset_par d pp)) d HO HL Lp)
    as (st1 & z & Hdisc & HPS1 & HSh1 & HR1 & HL1).
  { intros k ->%elem_of_list_singleton. done. }
  { intros y Ly Sy Hyp. destruct (HSt y Ly Sy) as [[Q1 Q2]|(b & Hb & Q1)].
    - destruct (Hpabove y Ly Q1) as [?|H]; [done|]. by apply (o_anti pin labq pg _ _ _ HO).
    - destruct (Hbp b Hb) as [Lb E]. assert (b = p) as -> by eauto using vu_trans.
      by apply (o_anti pin labq pg _ _ _ HO). }
  { done. } { exact HWP. } { exact Hppar. } { done. }
  destruct (HR1 p d Hd) as (d1 & Hd1 & (E1 & E2 & E3 & E4 & E5 & E6 & E7 & E8 & E9) & E10).
  destruct (HR1 s xs Hs) as (xs1 & Hs1 & (G1 & G2 & G3 & G4 & G5 & G6 & G7 & G8 & G9) & G10).
  assert (pp <> Some p) as Hpp1. { intros ->. by destruct Hppar as (_ & _ & H & _). }
  assert (pp <> Some s) as Hpp2. { intros ->. destruct Hppar as (_ & H & _). done. }
  rewrite decide_True in E8 by done. rewrite decide_False in E9 by done.
  rewrite decide_False in G8 by congruence. rewrite decide_False in G9 by done.
  set (T1 := tz (e_regs st1) sz).
  assert (upd T T1 p (VReg (v_gray (wv sz p d)) (v_live (wv sz p d)) (v_size (wv sz p d)) pp)) as HU1.
  { intros y. unfold T1, tz. destruct (decide (y = p)) as [->|Hyp].
    - rewrite Hd1. cbn. unfold wv. rewrite E1, E2, E8. done.
    - destruct (get2 R y) as [a|] eqn:Ha.
      + assert (T y = Some (wv sz y a)) as -> by (by apply tz_get).
        destruct (HR1 y a Ha) as (a1 & -> & (K1 & K2 & K3 & K4 & K5 & K6 & K7 & K8 & K9) & _).
        rewrite decide_False in K8 by done. cbn. unfold wv. by rewrite K1, K2, K8.
      + assert (T y = None) as -> by (unfold T, tz; by rewrite Ha). destruct (get2 (e_regs st1) y) as [a5|] eqn:E; [|done].
        destruct (shape_dom (e_regs st1) R y a5) as [? ?]; auto. congruence. }
  pose proof (compress_same T T1 p _ pp HW HTp HRp HU1) as (HW1 & F1 & F2 & F3 & F4).
  assert (J T1 (Some s) ob c) as HJ1 by (eapply j_compress; eauto).
  set (n := (w_size d1 + w_size xs1)%Z).
  set (R3 := set2 (e_regs st1) p (wadjust (wset_size (wset_tail d1 (w_tail xs1)) n n) xs1)).
  set (sz' := fun y => if decide (y = s) then sz s + c else sz y).
  set (T' := tz R3 sz').
  assert (T1 s = Some (wv sz s xs1)) as HT1s by (by apply tz_get).
  assert (T1 p = Some (wv sz p d1)) as HT1p by (by apply tz_get).
  assert (get2 R3 s = Some xs1) as Hs3 by (unfold R3; rewrite get2_set2_ne; auto).
  assert (get2 R3 p = Some (wadjust (wset_size (wset_tail d1 (w_tail xs1)) n n) xs1)) as Hp3.
  { unfold R3. eapply get2_set2_eq; eauto. }
  assert (upd T1 T' s (VReg (v_gray (wv sz s xs1)) (v_live (wv sz s xs1)) (v_size (wv sz s xs1) + c) (Some p))) as HU2.
  { intros y. unfold T', tz. destruct (decide (y = s)) as [->|Hys].
    - rewrite Hs3. cbn. unfold wv, sz'. rewrite decide_True by done. cbn. rewrite G8. by rewrite Hxp.
    - unfold T1, tz, R3. rewrite get2_set2, Hd1. destruct (decide (y = p)) as [->|Hyp].
      + rewrite Hd1. cbn. unfold wv, sz'. rewrite decide_False by done. done.
      + destruct (get2 (e_regs st1) y); [|done]. cbn. unfold wv, sz'. rewrite decide_False by done. done. }
  assert (wframe R R3) as HF3.
  { eapply wframe_trans.
    { eapply (wframe_dchange R (e_regs st1)); [done|]. intros y a Ha. destruct (HR1 y a Ha) as (a' & Q1 & Q2 & _). eauto. }
    apply (wframe_set (e_regs st1) p d1 _ Hd1); cbn; auto. }
  assert (forall b a', ob = Some b -> T1 b = Some a' -> v_gray (wv sz s xs1) <= v_gray a' /\ s <> b) as Hsb1.
  { intros b a' Hb Ha'. destruct (get_tz _ _ _ _ Ha') as (y1 & Hy1 & ->). cbn.
    assert (exists y, get2 R b = Some y) as [y Hy] by (by eapply (shape_dom (e_regs st1) R)).
    destruct (HR1 b y Hy) as (y2 & Hy2 & (K1 & _) & _). assert (y2 = y1) as -> by congruence.
    rewrite K1, G1. by apply (Hg b xs y). }
  assert (J T' (Some p) ob c) as HJ'.
  { eapply (j_advance V lab C0 N T1 T' s (wv sz s xs1) (Some p) ob c HJ1 HT1s); auto.
    - cbn. congruence.
    - intros y [= <-]. exists (wv sz p d1). split; [done|]. by apply live_wflag; rewrite E2; apply live_wflag in Hlvp.
    - intros y e b a' [= <-] He Hb Ha'. assert (e = wv sz p d1) as -> by congruence.
      destruct (get_tz _ _ _ _ Ha') as (y1 & Hy1 & ->). cbn.
      assert (exists y, get2 R b = Some y) as [y Hy] by (by eapply (shape_dom (e_regs st1) R)).
      destruct (HR1 b y Hy) as (y2 & Hy2 & (K1 & _) & _). assert (y2 = y1) as -> by congruence.
      rewrite K1, E1. by apply (Hpb b y d).
    - done. }
  assert (forall u v, vup T' u v <-> vup T1 u v) as Hvup.
  { intros u v. eapply same_vup; [exact HU2|exact HT1s|]. cbn. congruence. }
  assert (forall u v, vunder T' u v <-> vunder T1 u v) as Hvun by (intros; by apply vunder_iff).
  assert (forall y, livez T' y <-> livez T1 y) as HL1'.
  { intros y. unfold livez. rewrite (HU2 y). destruct (decide (y = s)) as [->|]; [|done].
    rewrite HT1s. split; intros (v & Q1 & Q2); injection Q1 as <-; eexists; (split; [done|exact Q2]). }
  assert (forall y, livez T y <-> livez T' y) as HLL by (intros; rewrite HL1'; apply F1).
  assert (forall x y, livez T y -> W T x y <-> W T' x y) as HWW by (intros; rewrite Hvun; by apply F2).
  assert (forall y, grayz T' y = grayz T y) as Hgz.
  { intros y. rewrite F3. unfold grayz. rewrite (HU2 y). destruct (decide (y = s)) as [->|]; [by rewrite HT1s|done]. }
  destruct (append_ok xy pin labq pg (livez T) (W T) (grayz T) (livez T') (W T') (grayz T') (domz T)
    (e_regs st1) (e_pts st1) (e_mp st1) (fun y => St y \/ (W T p y /\ y <> p)) (cutseg seg p) p s d1 xs1)
    as (st2 & Happ & HPS2 & HR2 & HM2 & HL2).
  { exact HO. } { exact HL1. } { done. } { done. }
  { intros q Hq. destruct (j_lab _ _ _ _ _ _ _ _ HJ _ (Hpin q Hq)) as (e & He & _). exists e. done. }
  { intros y (e & He & _). exists e. done. }
  { intros x _. by apply vunder_dec. }
  { intros y. apply HLL. } { intros y Ly _. by apply HLL. }
  { intros x y _ Ly _. apply HLL in Ly. by rewrite <-HWW. }
  { intros x y _ Ly Hxs. apply HLL in Ly. rewrite <-HWW by done. split.
    - intros Hxy. destruct (o_lin pin labq pg _ _ _ HO x y s Ly Ls Hxy Hxs) as [?|H]; [by left|].
      destruct (Hpabove y Ly H) as [->|?]; [|by right]. left. split; [done|apply rtc_refl].
    - intros [[? _]|H]; [done|]. eapply vu_trans; [exact Hxs|]. by eapply vu_trans. }
  { intros y _. apply Hgz. } { exact Hd1. } { exact Hs1. }
  fold n in HR2. fold R3 in HR2.
  assert (exists j, region_index split (e_regs st1) p = Some j) as [j Hj]. { unfold region_index. rewrite Hd1. eauto. }
  exists st1, st2, j. split; [done|]. split; [done|]. split; [by destruct st1|].
  split; [|rewrite HR2; split; [done|by eapply psame_trans]].
  exists sz', pp, (fun y => (St y \/ (W T p y /\ y <> p)) /\ y <> p), (joinseg (cutseg seg p) p s).
  rewrite HR2. fold T'. cbn zeta. split_and!.
  - destruct (decide (Some p = ob)) as [<-|]; [by eapply j_meet|done].
  - intros b x y Hb Hx Hy. destruct (decide (Some p = ob)); [done|]. rewrite Hp3 in Hx. injection Hx as <-.
    cbn. rewrite E1. assert (exists y0, get2 R b = Some y0) as [y0 Hy0] by (by eapply wframe_inv).
    destruct (wf_reg _ _ HF3 b y0 Hy0) as (y2 & Hy2 & K & _). assert (y2 = y) as -> by congruence. rewrite K.
    split; [eauto|congruence].
  - eapply lpar_ext; [exact Lp|exact HLL|exact HWW|exact Hppar].
  - destruct (HszB p d Lp Hd) as [_ SP]. destruct (SP Hpns) as [UP ZP]. clear SP.
    rewrite (decide_True (P := Some p = Some p)) in ZP by done.
    destruct (HszB s xs Ls Hs) as [SS _]. destruct (SS eq_refl) as [ZS US]. clear SS.
    intros y a Ly Ha. pose proof (proj2 (HLL y) Ly) as Ly0. unfold sz'.
    rewrite (decide_False (P := p = s)) by done. split.
    + intros ->. rewrite Hp3 in Ha. injection Ha as <-. cbn. unfold n. rewrite E9, G9, ZP, ZS.
      destruct (decide (Some p = ob)) as [<-|]; [rewrite decide_True by done; lia|rewrite decide_False by congruence; lia].
    + intros Hyp. destruct (decide (y = s)) as [->|Hys].
      * rewrite Hs3 in Ha. injection Ha as <-. rewrite G5, US, G9, ZS.
        rewrite (decide_False (P := pp = Some s)) by done.
        rewrite decide_False; [lia|]. destruct (decide (Some p = ob)); [done|]. intros ->.
        by destruct (Hg s xs xs eq_refl Hs Hs).
      * unfold R3 in Ha. rewrite get2_set2_ne in Ha by done.
        assert (exists a1, get2 R y = Some a1) as [a1 Ha1] by (by eapply (shape_dom (e_regs st1) R)).
        destruct (HR1 y a1 Ha1) as (a2 & Ha2 & (K1 & K2 & K3 & K4 & K5 & K6 & K7 & K8 & K9) & K10).
        assert (a2 = a) as -> by congruence.
        destruct (HszB y a1 Ly0 Ha1) as [_ SY]. destruct (SY Hys) as [UY ZY].
        rewrite (decide_False (P := Some p = Some y)) in ZY by congruence.
        rewrite K5, K9, UY, ZY, UP. split; [done|].
        destruct (decide (Some p = ob)) as [<-|].
        -- rewrite (decide_False (P := Some p = Some y)) by congruence.
           rewrite (decide_False (P := None = Some y)) by congruence. destruct (decide (pp = Some y)); lia.
        -- destruct (decide (pp = Some y)), (decide (ob = Some y)); lia.
  - rewrite HM2. rewrite HR2 in HL2. exact HL2.
  - intros y Ly [[Sy|[Q1 Q2]] Hyp].
    + pose proof (proj2 (HLL y) Ly) as Ly0. destruct (HSt y Ly0 Sy) as [[Q1 Q2]|(b & Hb & Q1)].
      * left. split; [|done]. apply HWW; [done|]. by destruct (Hpabove y Ly0 Q1).
      * destruct (decide (Some p = ob)) as [E|].
        -- left. split; [|done]. assert (b = p) as -> by congruence. by apply HWW.
        -- right. exists b. split; [done|]. by apply HWW.
    + left. split; [|done]. apply HWW; [by apply HLL|done].
  - exists j. split; [|by rewrite lb_get_set, decide_True].
    unfold region_index in *. rewrite Hd1 in Hj. rewrite Hp3. done.
  - intros i e. rewrite lb_get_set. destruct (decide (i = j)).
    + intros [= <-]. split; [|apply rtc_refl]. unfold domz, T'. rewrite (tz_get _ _ _ _ Hp3). eauto.
    + intros He. destruct (Hlb i e He) as [Q1 Hes]. split.
      * apply F4 in Q1 as [e1 He1]. change (domz T' e). unfold domz. rewrite (HU2 e). destruct (decide (e = s)); eauto.
      * apply HWW; [done|]. by eapply vu_trans.
Qed.
End loop.
