(* Extraction in MS-MSER: the loops that link the reported regions. *)
From stdpp Require Import sorting relations functions list_numbers list.
From Coq Require Import NArith ZArith SpecFloat.
From Verif Require Import FloodModel ConnectModel ConnectProof PartModel RecogModel RectModel ExtractModel ExtractAbs ExtractLink MsModel.
Local Open Scope nat_scope.

Section link.
Context (F0 : forest) (l : list rref) (dd : rref -> nat) (fuel : nat).
Context (Hid : forall x a, fget F0 x = Some a -> (g_patch a, g_idx a) = x).
Context (Hpar : forall x a y, fget F0 x = Some a -> g_par a = Some y -> is_Some (fget F0 y) /\ dd y < dd x).
Context (Hfuel : forall x, is_Some (fget F0 x) -> dd x + 1 < fuel).
Context (Hl : NoDup l) (Hlv : forall z, z ∈ l <-> exists a, fget F0 z = Some a /\ g_flag a = 2).
Notation NR := (NR F0 fuel). Notation NP := (NP F0 fuel). Notation vp := (vp F0 l fuel). Notation n := (length l).
Context (Hord : forall i j, vp i = Some j -> i < j).
Notation sz := (sz F0 l). Notation gr := (gr F0 l). Notation ksum := (ksum F0 l). Notation shr := (shr F0 l fuel).
Notation stored0 := (stored0 F0). Notation odd := (odd dd). Notation rel := (rel F0 dd fuel).
Notation mid3 := (mid3 F0 l fuel). Notation enc := (enc l).
Let l_stored := l_stored F0 l Hlv.
Let NP_eq := NP_eq F0 fuel.
Let NP_in := NP_in F0 l dd fuel Hpar Hfuel Hlv.
Let vp_some := vp_some F0 l fuel Hl.
Let h_put_ok := h_put_ok F0.
Let NR_none := NR_none F0 dd fuel Hfuel.
Let NR_some := NR_some F0 dd fuel Hpar Hfuel.

(* entries of the buffer for record i *)
Definition mcost (thr : Z) (i : nat) : nat :=
  if shr thr i then sz i else 1 + sz i - ksum (chl vp i) + (1 + length (chl vp i)) / 2.

Definition rectm : rect := Rect (-1) 0 0 0.
Record mafter1 (gm : N) (i : nat) (t : est * list mrec) : Prop := {
  b1_F : e_F (fst t) = F0;
  b1_kids : forall j x, l !! j = Some x -> e_kids (fst t) x = 0 /\ e_kpix (fst t) x = 0;
  b1_asg : forall x, e_asg (fst t) x = false;
  b1_len : length (snd t) = i;
  b1_ms : forall j, j < i -> snd t !! j = Some (MRec (N.lxor (N.of_nat (gr j)) gm) false (sz j) 0 rectm)
}.
Lemma ms_first_ok gm heap0 : exists t, loop (ms_start gm) 0 l (ESt F0 heap0 (fun _ => 0) (fun _ => 0) (fun _ => false), []) = Some t /\
  mafter1 gm n t.
Proof.
  apply (loop_ind (ms_start gm) (mafter1 gm)).
  { constructor; cbn; auto; try lia. }
  intros i x [s ms] Hx [A1 A3 A4 A5 A6]. cbn [fst snd] in *. unfold ms_start. rewrite A1.
  destruct (l_stored i x Hx) as (a & Ha & Hf). rewrite Ha.
  eexists. split; [done|]. constructor; cbn [fst snd e_F e_heap e_kids e_kpix e_asg]; auto.
  - intros j y Hy. destruct (decide (y = x)) as [->|Hne]; [by rewrite !fn_lookup_insert|].
    rewrite !fn_lookup_insert_ne by done. eauto.
  - rewrite app_length. cbn. lia.
  - intros j Hj. destruct (decide (j = i)) as [->|Hne].
    + rewrite lookup_app_r by lia. rewrite A5, Nat.sub_diag. cbn. unfold ExtractLink.gr, ExtractLink.sz. by rewrite Hx, Ha.
    + rewrite lookup_app_l by lia. apply A6. lia.
Qed.

Record mafter2 (thr : Z) (gm : N) (i : nat) (t : est * list mrec * Z) : Prop := {
  b2_rel : rel (e_F (fst (fst t)));
  b2_par : forall j x, l !! j = Some x -> j < i -> exists a, fget (e_F (fst (fst t))) x = Some a /\ g_par a = NP x;
  b2_heap : forall j x, l !! j = Some x -> j < i -> e_heap (fst (fst t)) x = Some (Z.of_nat j);
  b2_kids : forall j x, l !! j = Some x -> e_kids (fst (fst t)) x = length (procs vp i j) /\ e_kpix (fst (fst t)) x = ksum (procs vp i j);
  b2_asg : forall x, e_asg (fst (fst t)) x = false;
  b2_len : length (snd (fst t)) = n;
  b2_ms : forall j, j < n -> snd (fst t) !! j = Some (MRec (N.lxor (N.of_nat (gr j)) gm) ((j <? i) && shr thr j) (sz j) 0 rectm);
  b2_sum : snd t = Z.of_nat (sumto (mcost thr) i)
}.
Context (Hk : forall j, j < n -> ksum (chl vp j) <= sz j).
Lemma ms_second_ok thr gm t1 : mafter1 gm n t1 -> (Z.of_nat (sumto (mcost thr) n) < 2 ^ 31)%Z ->
  exists t, loop (ms_classify fuel thr) 0 l (fst t1, snd t1, 0%Z) = Some t /\ mafter2 thr gm n t.
Proof.
  intros [A1 A3 A4 A5 A6] Hsum. apply (loop_ind (ms_classify fuel thr) (mafter2 thr gm)).
  { constructor; cbn [fst snd]; auto.
    - rewrite A1. by apply rel_refl.
    - intros; lia.
    - intros; lia. }
  intros i x [[s ms] tot] Hx [B1 B2 B3 B4 B5 B6 B7 B8]. cbn [fst snd] in *. unfold ms_classify.
  assert (i < n) as Hi by (by eapply lookup_lt_Some).
  destruct (l_stored i x Hx) as (a0 & Ha0 & Hf0). destruct (rl_reg _ _ _ _ B1 x a0 Ha0) as (a & Ha & Ea & S1 & S2 & S3).
  rewrite h_put_ok by (eauto; apply B1). cbn [e_F e_heap e_kids e_kpix e_asg].
  rewrite Ha, (B7 i Hi). cbn [ms_size]. destruct (B4 i x Hx) as [-> ->].
  fold (chl vp i). assert (((length (chl vp i) =? 0) || (Z.of_nat (sz i) <=? thr)%Z) = shr thr i) as -> by done.
  assert (add_z tot (if shr thr i then Z.of_nat (sz i)
     else 1 + Z.of_nat (sz i) - Z.of_nat (ksum (chl vp i)) + Z.of_nat ((1 + length (chl vp i)) / 2)) =
     Some (Z.of_nat (sumto (mcost thr) (S i)))) as ->.
  { pose proof (Hk i Hi). assert (sumto (mcost thr) (S i) <= sumto (mcost thr) n) by (apply sumto_le; lia).
    cbn [sumto] in *. unfold add_z. cbn zeta. rewrite B8.
    set (c := (if shr thr i then _ else _)%Z). assert (c = Z.of_nat (mcost thr i)) as ->.
    { unfold c, mcost. set (q := (1 + length (chl vp i)) / 2). destruct (shr thr i); lia. }
    destruct (Z.leb_spec (- 2 ^ 31) (Z.of_nat (sumto (mcost thr) i) + Z.of_nat (mcost thr i))); [|lia].
    destruct (Z.ltb_spec (Z.of_nat (sumto (mcost thr) i) + Z.of_nat (mcost thr i)) (2 ^ 31)); [|lia]. cbn [andb]. f_equal. lia. }
  pose proof (Hfuel x ltac:(eauto)) as Hfx.
  rewrite (find_rel F0 dd fuel Hpar Hfuel fuel (e_F s) (g_par a) B1 S1) by lia. rewrite S3, <-(NP_eq x a0 Ha0).
  set (F1 := fset (e_F s) x (set_par a (NP x))).
  assert (rel F1) as HR1.
  { eapply rel_set; eauto.
    - intros y Hy. destruct (NP_in x y) as [Hyl _]; eauto. apply Hlv in Hyl as (c & -> & _). eauto.
    - destruct (NP x) as [y|] eqn:E; cbn; [|lia]. destruct (NP_in x y); eauto. 
    - destruct (NP x) as [y|] eqn:E; [|by rewrite NR_none, <-(NP_eq x a0 Ha0)]. destruct (NP_in x y) as [Hyl _]; eauto.
      rewrite <-(NP_eq x a0 Ha0), E. apply Hlv in Hyl as (c & Hc & Hcf). by rewrite (NR_some y c Hc), (proj2 (Nat.eqb_eq _ _) Hcf). }
  destruct (relink_ok F0 l dd fuel Hpar Hfuel Hlv fuel F1 (NP x) (g_par a) HR1 S1) as (F2 & HF2 & HR2 & Hz2); [lia|by rewrite S3, <-(NP_eq x a0 Ha0)|].
  assert (exists kids kpix, (match NP x with
     | Some y => (<[y := e_kids s y + 1]> (e_kids s), <[y := e_kpix s y + sz i]> (e_kpix s))
     | None => (e_kids s, e_kpix s) end) = (kids, kpix) /\
     forall j z, l !! j = Some z -> kids z = length (procs vp (S i) j) /\ kpix z = ksum (procs vp (S i) j)) as (kids & kpix & -> & HK).
  { assert (forall j, ksum (procs vp (S i) j) = ksum (procs vp i j) + (if decide (vp i = Some j) then sz i else 0)) as HKS.
    { intros j. rewrite procs_S. unfold ExtractLink.ksum. rewrite map_app, sum_app. destruct (decide (vp i = Some j)); cbn; unfold id; lia. }
    destruct (NP x) as [y|] eqn:E.
    - eexists _, _. split; [done|]. intros j z Hj. destruct (B4 j z Hj) as [H1 H2].
      rewrite HKS, procs_S, app_length. destruct (decide (z = y)) as [->|Hne].
      + rewrite !fn_lookup_insert. assert (vp i = Some j) as Hv by (apply (vp_some i x Hx); eauto).
        rewrite !decide_True by done. cbn. rewrite H1, H2. done.
      + rewrite !fn_lookup_insert_ne by done. assert (vp i <> Some j) as Hv.
        { intros Hv. apply (vp_some i x Hx) in Hv as (y' & ? & ?). congruence. }
        rewrite !decide_False by done. cbn. rewrite H1, H2. lia.
    - eexists _, _. split; [done|]. intros j z Hj. destruct (B4 j z Hj) as [H1 H2].
      rewrite HKS, procs_S, app_length. assert (vp i <> Some j) as Hv.
      { intros Hv. apply (vp_some i x Hx) in Hv as (y' & ? & ?). congruence. }
      rewrite !decide_False by done. cbn. rewrite H1, H2. lia. }
  rewrite HF2. eexists. split; [done|]. constructor; cbn [fst snd e_F e_heap e_kids e_kpix e_asg]; auto.
  - intros j y Hy Hj. rewrite Hz2 by (by eapply elem_of_list_lookup_2). unfold F1. rewrite fget_fset.
    destruct (decide (y = x)) as [->|Hne]; [rewrite Ha; eauto|]. apply (B2 j); auto. assert (j <> i) by (intros ->; congruence). lia.
  - intros j y Hy Hj. destruct (decide (y = x)) as [->|Hne].
    + rewrite fn_lookup_insert. assert (j = i) as -> by (eapply NoDup_lookup; eauto). done.
    + rewrite fn_lookup_insert_ne by done. apply B3; auto. assert (j <> i) by (intros ->; congruence). lia.
  - by rewrite insert_length.
  - intros j Hj. destruct (decide (j = i)) as [->|Hne].
    + rewrite list_lookup_insert by (by rewrite B6). cbn [ms_gray ms_pts ms_rect]. rewrite (proj2 (Nat.ltb_lt i (S i))) by lia. done.
    + rewrite list_lookup_insert_ne by done. rewrite (B7 j Hj). do 2 f_equal.
      destruct (Nat.ltb_spec j i), (Nat.ltb_spec j (S i)); try lia; done.
Qed.

Lemma ms_third_ok thr gm t2 : mafter2 thr gm n t2 -> exists s3,
  each (resolve fuel) (all_refs (e_F (fst (fst t2)))) (fst (fst t2)) = Some s3 /\ e_F s3 = e_F (fst (fst t2)) /\
  (forall x, is_Some (fget F0 x) -> h_get s3 x = Some (enc (NR (Some x)))) /\
  e_kids s3 = e_kids (fst (fst t2)) /\ e_kpix s3 = e_kpix (fst (fst t2)).
Proof.
  intros [B1 _ B3 _ B5 _ _ _]. set (s := fst (fst t2)) in *. set (F := e_F s) in *.
  assert (forall q s1, mid3 F s1 -> (forall x, x ∈ q -> is_Some (fget F0 x)) -> exists s3, each (resolve fuel) q s1 = Some s3 /\ mid3 F s3 /\
    e_kids s3 = e_kids s1 /\ e_kpix s3 = e_kpix s1 /\ (forall y, e_asg s1 y = true -> e_asg s3 y = true) /\
    forall x, x ∈ q -> x ∈ l \/ e_asg s3 x = true) as HG.
  { induction q as [|x q IH]; intros s1 H1 Hq.
    - exists s1. repeat (split; [done || auto|]). intros x Hx. by apply elem_of_nil in Hx.
    - destruct (resolve_ok F0 l dd fuel Hid Hpar Hfuel Hl Hlv F s1 x B1 H1) as (s2 & E & M2 & K1 & K2 & K3 & K4); [apply Hq; left|].
      destruct (IH s2 M2) as (s3 & E3 & M3 & L1 & L2 & L3 & L4); [intros y Hy; apply Hq; by right|].
      exists s3. cbn. rewrite E. split; auto. split; auto. split; [congruence|]. split; [congruence|]. split; [auto|].
      intros y [->|Hy]%elem_of_cons; [|auto]. destruct K4; auto. }
  destruct (HG (all_refs F) s) as (s3 & E & [M1 M2 M3] & K1 & K2 & _ & K4).
  - constructor; auto. { intros i x Hx. apply B3; auto. by eapply lookup_lt_Some. } intros x _ Hx. by rewrite B5 in Hx.
  - intros x Hx. apply (elem_all_refs F0 F); [apply B1|done].
  - exists s3. split; auto. split; auto. split; [|auto]. intros x Hx. rewrite (h_get_ok F0); [|rewrite M1; apply B1|done].
    destruct (K4 x) as [Hxl|Hxa]; [apply (elem_all_refs F0 F); [apply B1|done]| |by apply M3].
    apply elem_of_list_lookup in Hxl as (i & Hi). by rewrite (M2 i x Hi), (enc_valid F0 l dd fuel Hpar Hfuel Hl Hlv i x Hi).
Qed.

End link.
