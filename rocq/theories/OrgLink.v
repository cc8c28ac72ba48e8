(* The first loop of the original recognition: every region gets its real parent. *)
From stdpp Require Import sorting relations functions list_numbers list.
From Coq Require Import NArith ZArith SpecFloat.
From Verif Require Import Spec TreeSpec TreeFacts JoinMath FloodModel ConnectModel ConnectProof FloatModel RecogModel RecogSpec RecogStatic RecogTree
  RunCorrect JoinCorrect V1BuildModel V1Sort OrgModel OrgTree.
Local Open Scope nat_scope.

Lemma seq_pre n pre x suf : seq 0 n = pre ++ x :: suf -> x = length pre /\ pre = seq 0 x /\ x < n.
Proof.
  intros E. assert (length (seq 0 n) = n) as Hl by apply seq_length. rewrite E, app_length in Hl. cbn in Hl.
  assert (seq 0 n !! length pre = Some x) as Hx by (rewrite E; by apply list_lookup_middle).
  rewrite lookup_seq_lt in Hx by lia. injection Hx as Hx. cbn in Hx. split; [done|]. split; [|lia].
  replace n with (x + (n - x)) in E by lia. rewrite seq_app in E. apply app_inj_1 in E as [-> _]; [done|]. rewrite seq_length. lia.
Qed.

(* the number of regions flagged invalid *)
Definition ninv (regs : list oreg) : nat := length (List.filter (fun a => o_flag a =? 1) regs).
Lemma ninv_set regs i a b : regs !! i = Some a ->
  ninv (<[i := b]> regs) + (if o_flag a =? 1 then 1 else 0) = ninv regs + (if o_flag b =? 1 then 1 else 0).
Proof.
  revert i. induction regs as [|c regs IH]; intros i Ha; [done|]. destruct i as [|i].
  - injection Ha as ->. unfold ninv. cbn [insert list_insert List.filter]. destruct (o_flag a =? 1), (o_flag b =? 1); cbn [length]; lia.
  - cbn in Ha. specialize (IH i Ha). unfold ninv in *. change (<[S i := b]> (c :: regs)) with (c :: <[i := b]> regs). cbn [List.filter]. destruct (o_flag c =? 1); cbn [length]; lia.
Qed.
Lemma ninv_same regs i a b : regs !! i = Some a -> o_flag b = o_flag a -> ninv (<[i := b]> regs) = ninv regs.
Proof. intros Ha E. pose proof (ninv_set regs i a b Ha). rewrite E in H. lia. Qed.

(* SPEC: the regions as the forest of recognition: one partition *)
Definition oconv (i : nat) (a : oreg) : greg := GReg (o_gray a) (if o_merged a then 3 else 0) (o_size a) (pair 0 <$> o_par a) i 0.
Definition ofo (regs : list oreg) : forest := [imap oconv regs].

Lemma ofo_get regs i : fget (ofo regs) (0, i) = oconv i <$> regs !! i.
Proof. cbn. by rewrite list_lookup_imap. Qed.
Lemma ofo_inv regs z a : fget (ofo regs) z = Some a -> exists i b, z = (0, i) /\ regs !! i = Some b /\ a = oconv i b.
Proof.
  destruct z as [[|k] i]; [|done]. rewrite ofo_get. destruct (regs !! i) as [b|] eqn:E; [|done]. intros [= <-]. eauto.
Qed.
Lemma ofo_nregs regs : nregs (ofo regs) = length regs.
Proof. unfold nregs. cbn. rewrite imap_length. lia. Qed.

Section forest.
Context (V : view) (lab : nat -> nat) (regs : list oreg) (HT : ctree V lab (otable regs)).
Notation F := (ofo regs).
Notation lab2 := (fun p => (0, lab p)).

Lemma tab_ofo k i : tab F (k, i) = if decide (k = 0) then (fun v => VReg (v_gray v) (v_live v) (v_size v) (pair 0 <$> v_par v)) <$> otable regs i else None.
Proof.
  unfold tab, otable. destruct (decide (k = 0)) as [->|Hne].
  - rewrite ofo_get. destruct (regs !! i) as [a|] eqn:Ea; [|done]. cbn. unfold vr, oconv. cbn. by destruct (o_merged a).
  - unfold fget. cbn [fst]. destruct k; [done|]. done.
Qed.
Lemma tab_inv z a : tab F z = Some a -> exists i v, z = (0, i) /\ otable regs i = Some v /\ a = VReg (v_gray v) (v_live v) (v_size v) (pair 0 <$> v_par v).
Proof.
  destruct z as [k i]. rewrite tab_ofo. destruct (decide (k = 0)) as [->|]; [|done].
  destruct (otable regs i) as [v|] eqn:E; [|done]. intros [= <-]. exists i, v. done.
Qed.
Lemma tab_at i v : otable regs i = Some v -> tab F (0, i) = Some (VReg (v_gray v) (v_live v) (v_size v) (pair 0 <$> v_par v)).
Proof. intros E. rewrite tab_ofo, decide_True by done. by rewrite E. Qed.
Lemma vup_ofo x y : vup (tab F) x y <-> exists i j, x = (0, i) /\ y = (0, j) /\ vup (otable regs) i j.
Proof.
  split.
  - intros (a & Ha & Hp). destruct (tab_inv x a Ha) as (i & v & -> & Hv & ->). cbn in Hp.
    destruct (v_par v) as [j|] eqn:Ej; [|done]. injection Hp as <-. exists i, j. split; auto. split; auto. exists v. auto.
  - intros (i & j & -> & -> & v & Hv & Hj). eexists. split; [by apply tab_at|]. cbn. by rewrite Hj.
Qed.
Lemma vunder_ofo i y : vunder (tab F) (0, i) y <-> exists j, y = (0, j) /\ vunder (otable regs) i j.
Proof.
  split.
  - intros Hr. remember (0, i) as x eqn:Ex. revert i Ex. induction Hr as [x|x y z Hxy _ IH]; intros i ->.
    + exists i. split; auto. apply rtc_refl.
    + apply vup_ofo in Hxy as (i' & j & [= <-] & -> & Hu). destruct (IH j eq_refl) as (k & -> & Hk). exists k. split; auto.
      eapply rtc_l; eauto.
  - intros (j & -> & Hr). induction Hr as [x|x y z Hxy _ IH]; [apply rtc_refl|]. eapply rtc_l; [|exact IH].
    apply vup_ofo. eauto.
Qed.
Lemma pix_ofo i p : region_pixels V lab2 (tab F) (0, i) p <-> vw_in V p /\ vunder (otable regs) (lab p) i.
Proof.
  unfold region_pixels. rewrite vunder_ofo. split; intros [Hp H]; split; auto; [|by eauto]. destruct H as (j & [= <-] & ?). done.
Qed.
Lemma ctree_ofo : ctree V lab2 (tab F).
Proof using HT.
  destruct HT as [T1 T2 T3 T4 T5 T6 T7]. constructor.
  - intros p Hp. destruct (T1 p Hp) as (a & Ha & Hg). eexists. split; [by apply tab_at|]. done.
  - intros r a t Ha Ht. destruct (tab_inv r a Ha) as (i & v & -> & Hv & ->). cbn in Ht.
    destruct (v_par v) as [j|] eqn:Ej; [|done]. injection Ht as <-. destruct (T2 i v j Hv Ej) as (b & Hb & Hlt).
    eexists. split; [by apply tab_at|]. done.
  - intros r a Ha Hl. destruct (tab_inv r a Ha) as (i & v & -> & Hv & ->). destruct (T3 i v Hv Hl) as (t & b & Ht & Hb & Hg).
    exists (0, t). eexists. cbn [v_par]. rewrite Ht. split; [done|]. split; [by apply tab_at|]. done.
  - intros r a Ha Hl. destruct (tab_inv r a Ha) as (i & v & -> & Hv & ->). destruct (T4 i v Hv Hl) as (p & Hp & Hg & Hu).
    exists p. split; auto. split; auto. apply vunder_ofo. eauto.
  - intros r a p q Ha Hl Hp Hq. destruct (tab_inv r a Ha) as (i & v & -> & Hv & ->). rewrite !vunder_ofo. cbn [v_gray].
    intros (j & [= <-] & Hu). rewrite <-(T5 i v p q Hv Hl Hp Hq Hu). split; [intros (j & [= <-] & ?); done|eauto].
  - intros r a Ha Hl. destruct (tab_inv r a Ha) as (i & v & -> & Hv & ->). cbn [v_size].
    eapply card_ext; [|exact (T6 i v Hv Hl)]. intros p. cbn beta. rewrite vunder_ofo. split; intros [? H]; split; auto; [by eauto|].
    destruct H as (j & [= <-] & ?). done.
  - intros r a Ha. destruct (tab_inv r a Ha) as (i & v & -> & Hv & ->). destruct (T7 i v Hv) as (t & b & Ht & Hb & Hn).
    exists (0, t). eexists. split; [apply vunder_ofo; eauto|]. split; [by apply tab_at|]. cbn. by rewrite Hn.
Qed.
End forest.

(* SPEC: what recognition starts from: the tree of a connected picture of at most N pixels,
   in the order of the levels, no region classified *)
Record ostart (V : view) (lab : nat -> nat) (regs : list oreg) : Prop := {
  os_tree : ctree V lab (otable regs);
  os_sym : vsym V;
  os_conn : vconnected V;
  os_small : exists N, card_is (vw_in V) N /\ length regs <= N /\ (N.of_nat N * 5 < 2 ^ 32)%N;
  os_fresh : forall i a, regs !! i = Some a -> o_gray a <= 255 /\ o_flag a = 0 /\ o_var a = fminus1;
  os_sort : forall i j a b, i <= j -> regs !! i = Some a -> regs !! j = Some b -> o_gray a <= o_gray b
}.
Lemma ostart_input V lab regs : ostart V lab regs -> recog_input V (fun p => (0, lab p)) (ofo regs).
Proof.
  intros [H1 H2 H3 (N & H4 & H5 & H6) H7 H8]. constructor; auto.
  - by apply ctree_ofo.
  - exists N. rewrite ofo_nregs. auto.
  - intros k i a Ha. apply ofo_inv in Ha as (j & b & [= -> ->] & Hb & ->). cbn. destruct (H7 j b Hb) as [? _]. split; auto. split; auto.
    destruct (o_merged b); auto.
Qed.

Section link.
Context (V : view) (lab : nat -> nat) (regs0 : list oreg) (HO : ostart V lab regs0).
Notation F := (ofo regs0).
Let HI := ostart_input V lab regs0 HO.
Let H0 := input_start V _ F HI.
Definition OP (i : nat) : option nat := snd <$> RP F (0, i).
Definition olive (i : nat) : Prop := exists a, regs0 !! i = Some a /\ o_merged a = false.

Lemma olive_live i : olive i <-> live0 F (0, i).
Proof.
  split.
  - intros (a & Ha & Hm). exists (oconv i a). rewrite ofo_get, Ha. split; [done|]. cbn. by rewrite Hm.
  - intros (a & Ha & Hm). apply ofo_inv in Ha as (j & b & [= ->] & Hb & ->). exists b. split; auto. cbn in Hm. by destruct (o_merged b).
Qed.
Lemma live_olive z : live0 F z -> exists i, z = (0, i) /\ olive i.
Proof.
  intros Hz. pose proof Hz as (a & Ha & Hm). apply ofo_inv in Ha as (j & b & -> & Hb & ->). exists j. split; auto. by apply olive_live.
Qed.
Lemma OP_some i : olive i -> RP F (0, i) = pair 0 <$> OP i /\ forall y, OP i = Some y -> olive y.
Proof using HO.
  intros Hi%olive_live. unfold OP. destruct (RP F (0, i)) as [z|] eqn:E; [|done].
  destruct (live0_RP F H0 _ _ Hi E) as [Hz _]. apply live_olive in Hz as (j & -> & Hj). split; [done|]. by intros y [= <-].
Qed.

(* fields recognition never changes *)
Definition osame (a0 a : oreg) : Prop :=
  o_head a = o_head a0 /\ o_tail a = o_tail a0 /\ o_merged a = o_merged a0 /\ o_gray a = o_gray a0 /\ o_size a = o_size a0.

Record linked (k : nat) (regs : list oreg) : Prop := {
  lk_len : length regs = length regs0;
  lk_reg : forall i a0, regs0 !! i = Some a0 -> exists a, regs !! i = Some a /\ osame a0 a /\ o_var a = fminus1 /\
    (o_merged a0 = true -> o_par a = o_par a0 /\ o_flag a = if decide (i < k) then 1 else 0) /\
    (o_merged a0 = false -> o_flag a = 0 /\ (o_par a = o_par a0 \/ o_par a = OP i) /\ (i < k -> o_par a = OP i)) /\
    (i < k -> o_short a = i)
}.

Lemma real_link k regs : linked k regs -> forall n o, stored F (pair 0 <$> o) -> dp F (pair 0 <$> o) <= n ->
  o_real (S n) regs o = Some (snd <$> rp F (pair 0 <$> o)).
Proof using HO.
  intros HL. induction n as [|n IH]; intros o Ho Hn.
  - destruct o as [y|]; [|done]. destruct (Ho (0, y) eq_refl) as [a Ha]. destruct (dp_some F H0 (0, y) a Ha) as [E _]. change (pair 0 <$> Some y) with (Some (0, y)) in Hn. lia.
  - destruct o as [y|]; [|done]. destruct (Ho (0, y) eq_refl) as [c Hc]. pose proof Hc as Hc'.
    apply ofo_inv in Hc' as (j & a0 & [= <-] & Ha0 & ->). destruct (lk_reg _ _ HL y a0 Ha0) as (a & Ha & (_ & _ & Em & _) & _ & Hmer & _).
    change (o_real (S (S n)) regs (Some y)) with
      (match regs !! y with Some b => if o_merged b then o_real (S n) regs (o_par b) else Some (Some y) | None => None end).
    rewrite Ha, Em. cbn [fmap option_fmap option_map] in *. destruct (o_merged a0) eqn:Em0.
    + destruct (Hmer eq_refl) as [-> _]. rewrite (rp_dead F H0 (0, y) _ Hc) by (cbn; by rewrite Em0). apply IH.
      * by apply (par_stored F H0 (0, y) _ Hc).
      * destruct (dp_some F H0 (0, y) _ Hc) as [E _]. cbn [oconv g_par] in E. lia.
    + by rewrite (rp_live F (0, y) _ Hc) by (cbn; by rewrite Em0).
Qed.
Lemma real_par k regs n i a0 a : linked k regs -> length regs0 < n -> regs0 !! i = Some a0 -> o_merged a0 = false -> regs !! i = Some a ->
  o_real n regs (o_par a) = Some (OP i).
Proof using HO.
  intros HL Hn Ha0 Hm Ha. destruct (lk_reg _ _ HL i a0 Ha0) as (a' & Ha' & _ & _ & _ & Hl & _). assert (a' = a) as -> by congruence.
  destruct (Hl Hm) as (_ & Hp & _). destruct n as [|n]; [lia|].
  assert (olive i) as Li by (exists a0; auto). destruct (OP_some i Li) as [ER HOP].
  assert (fget F (0, i) = Some (oconv i a0)) as Hg by (rewrite ofo_get, Ha0; done).
  assert (forall o, stored F o -> dp F o <= n) as Hdp.
  { intros [z|] Hst; [|unfold dp; cbn; lia]. destruct (Hst z eq_refl) as [c Hc]. destruct (dp_some F H0 z c Hc) as [_ H]. rewrite ofo_nregs in H. lia. }
  destruct Hp as [-> | ->].
  - pose proof (par_stored F H0 (0, i) _ Hg) as Hst. cbn [oconv g_par] in Hst. rewrite (real_link k regs HL n) by auto.
    unfold OP, RP. by rewrite Hg.
  - assert (stored F (pair 0 <$> OP i)) as Hst.
    { intros z Hz. destruct (OP i) as [y|]; [|done]. injection Hz as <-. destruct (HOP y eq_refl) as (b & Hb & _). rewrite ofo_get, Hb. eauto. }
    rewrite (real_link k regs HL n) by auto. destruct (OP i) as [y|]; [|done]. cbn [fmap option_fmap option_map].
    destruct (HOP y eq_refl) as (b & Hb & Hmb). by rewrite (rp_live F (0, y) (oconv y b)) by (rewrite ?ofo_get, ?Hb; cbn; rewrite ?Hmb; done).
Qed.

(* setting a parent to the real one *)
Lemma linked_par k regs i a : linked k regs -> olive i -> regs !! i = Some a -> linked k (<[i := oset_par a (OP i)]> regs).
Proof using HO.
  intros [L1 L2] (b0 & Hb0 & Hm) Ha. constructor; [by rewrite insert_length|]. intros j a0 Ha0. destruct (decide (j = i)) as [->|Hne].
  - assert (b0 = a0) as -> by congruence. destruct (L2 i a0 Ha0) as (a' & Ha' & H1 & H2 & H3 & H4 & H5). assert (a' = a) as -> by congruence.
    eexists. rewrite list_lookup_insert by (by eapply lookup_lt_Some). split; [done|]. split; [exact H1|]. split; [exact H2|].
    split; [congruence|]. split; [|exact H5]. intros _. destruct (H4 Hm) as (? & _ & _). cbn. auto.
  - rewrite list_lookup_insert_ne by done. by apply L2.
Qed.

Lemma link_one n k regs : linked k regs -> k < length regs0 -> length regs0 < n ->
  exists regs', o_link n (regs, ninv regs) k = Some (regs', ninv regs') /\ linked (S k) regs'.
Proof using HO.
  intros HL Hk Hn. destruct (lookup_lt_is_Some_2 _ _ Hk) as [a0 Ha0].
  destruct (lk_reg _ _ HL k a0 Ha0) as (a & Ha & (S1 & S2 & S3 & S4 & S5) & Hv & Hmer & Hlive & _).
  unfold o_link. rewrite Ha. cbn [oset_short o_merged]. rewrite S3.
  destruct (o_merged a0) eqn:Em0.
  - destruct (Hmer eq_refl) as [Hp Hf]. rewrite decide_False in Hf by lia. eexists. split.
    { f_equal. f_equal. pose proof (ninv_set regs k a (oset_flag (oset_short a k) 1) Ha) as E. rewrite Hf in E. cbn in E. lia. }
    constructor; [rewrite insert_length; apply HL|]. intros j b0 Hb0. destruct (decide (j = k)) as [->|Hne].
    + assert (b0 = a0) as -> by congruence. eexists. rewrite list_lookup_insert by (by eapply lookup_lt_Some). split; [done|].
      split; [unfold osame; cbn; split_and!; congruence|]. split; [done|]. split; [intros _; cbn; rewrite decide_True by lia; auto|]. split; [congruence|done].
    + rewrite list_lookup_insert_ne by done. destruct (lk_reg _ _ HL j b0 Hb0) as (b & Hb & B1 & B2 & B3 & B4 & B5). exists b. split; auto.
      split; auto. split; auto. split; [|split; [|intros; apply B5; lia]].
      * intros Hm. destruct (B3 Hm) as [-> ->]. split; auto. destruct (decide (j < k)), (decide (j < S k)); auto; lia.
      * intros Hm. destruct (B4 Hm) as (? & ? & H). split; auto. split; auto. intros. apply H. lia.
  - destruct (Hlive eq_refl) as (Hf & _ & _). cbn [oset_short o_par].
    rewrite (real_par k regs n k a0 a HL Hn Ha0 Em0 Ha).
    assert (olive k) as Lk by (exists a0; auto). destruct (OP_some k Lk) as [_ HOP].
    set (regs1 := <[k := oset_par (oset_short a k) (OP k)]> regs).
    assert (linked (S k) regs1) as HL1.
    { constructor; [unfold regs1; rewrite insert_length; apply HL|]. intros j b0 Hb0. unfold regs1. destruct (decide (j = k)) as [->|Hne].
      + assert (b0 = a0) as -> by congruence. eexists. rewrite list_lookup_insert by (by eapply lookup_lt_Some). split; [done|].
        split; [unfold osame; cbn; split_and!; congruence|]. split; [done|]. split; [congruence|]. split; [cbn; auto|done].
      + rewrite list_lookup_insert_ne by done. destruct (lk_reg _ _ HL j b0 Hb0) as (b & Hb & B1 & B2 & B3 & B4 & B5). exists b. split; auto.
        split; auto. split; auto. split; [|split; [|intros; apply B5; lia]].
        * intros Hm. destruct (B3 Hm) as [-> ->]. split; auto. destruct (decide (j < k)), (decide (j < S k)); auto; lia.
        * intros Hm. destruct (B4 Hm) as (? & ? & H). split; auto. split; auto. intros. apply H. lia. }
    assert (ninv regs1 = ninv regs) as En by (unfold regs1; by apply (ninv_same regs k a)).
    destruct (OP k) as [y|] eqn:Ey.
    2: { exists regs1. rewrite En. done. }
    destruct (HOP y eq_refl) as (b0 & Hb0 & Hmb). destruct (lk_reg _ _ HL1 y b0 Hb0) as (b & Hb & _). rewrite Hb.
    rewrite (real_par (S k) regs1 n y b0 b HL1 Hn Hb0 Hmb Hb). eexists. split.
    { f_equal. f_equal. rewrite <-En. symmetry. by apply (ninv_same regs1 y b). }
    apply linked_par; auto.
Qed.

Lemma link_ok n : length regs0 < n -> exists regs, sweep (o_link n) (seq 0 (length regs0)) (regs0, 0) = Some (regs, ninv regs) /\ linked (length regs0) regs.
Proof using HO.
  intros Hn. destruct (sweep_inv (o_link n) (fun pre t => linked (length pre) (fst t) /\ snd t = ninv (fst t)) (seq 0 (length regs0)) (regs0, 0))
    as ([regs k] & E & H1 & H2).
  - cbn [length fst snd]. split.
    + constructor; auto. intros i a Ha. destruct (os_fresh _ _ _ HO i a Ha) as (_ & Hf & Hv). exists a. split; auto. split; [done|]. split; auto.
      split; [intros _; split; auto; by rewrite decide_False by lia|]. split; [|lia]. intros _. split; auto. split; auto. lia.
    + unfold ninv. assert (forall l, (forall a, a ∈ l -> o_flag a = 0) -> List.filter (fun a => o_flag a =? 1) l = []) as H.
      { induction l as [|b l IH]; intros Hl; auto. cbn. rewrite (Hl b) by apply elem_of_list_here. cbn. apply IH. intros. apply Hl. by apply elem_of_list_further. }
      rewrite H; auto. intros a Ha. apply elem_of_list_lookup in Ha as [i Ha]. by apply (os_fresh _ _ _ HO i a).
  - intros pre x suf [regs k] El [I1 I2]. cbn [fst snd] in *. subst k. apply seq_pre in El as (-> & _ & Hx).
    destruct (link_one n _ regs I1 Hx Hn) as (regs' & E & H). exists (regs', ninv regs'). split; auto. cbn [fst snd]. split; auto.
    rewrite app_length. cbn. by rewrite Nat.add_1_r.
  - cbn [fst snd] in *. subst k. exists regs. rewrite seq_length in H1. auto.
Qed.
End link.
