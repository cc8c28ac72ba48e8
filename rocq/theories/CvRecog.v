(* Recognition in CV-MSER+ does what recognition with one thread in Fast MSER V2 does
   on the same region table. *)
From stdpp Require Import sorting relations functions list_numbers list.
From Coq Require Import NArith ZArith SpecFloat.
From Verif Require Import FloodModel ConnectModel ConnectProof FloatModel RecogModel RecogOrder LinkedModel CvModel.
Local Open Scope nat_scope.

(* SPEC: the region table of CV-MSER+ as the table of one partition *)
Definition conv (i : nat) (a : lreg) : greg :=
  GReg (n_gray a) (n_flag a) (default 0 (n_size a)) (pair 0 <$> n_parent a) i 0.
Definition fo (regs : list lreg) : forest := [imap conv regs].

Record wfr (regs : list lreg) : Prop := {
  wr_size : forall i a, regs !! i = Some a -> is_Some (n_size a);
  wr_flag : forall i a, regs !! i = Some a -> n_flag a <> 3;
  wr_gray : forall i a, regs !! i = Some a -> n_gray a < 256;
  wr_par : forall i a t, regs !! i = Some a -> n_parent a = Some t -> t < length regs
}.

Lemma fo_get regs i : fget (fo regs) (0, i) = conv i <$> regs !! i.
Proof. cbn. by rewrite list_lookup_imap. Qed.
Lemma fo_set regs i a f : regs !! i = Some a -> fset (fo regs) (0, i) (set_flag (conv i a) f) = fo (<[i := cv_flag a f]> regs).
Proof.
  intros Ha. unfold fo, fset. cbn. f_equal. apply list_eq. intros j. rewrite list_lookup_imap.
  destruct (decide (i = j)) as [->|Hne].
  - rewrite !list_lookup_insert; [done| |rewrite imap_length]; by eapply lookup_lt_Some.
  - rewrite !list_lookup_insert_ne by done. by rewrite list_lookup_imap.
Qed.
Lemma fo_same regs i a : regs !! i = Some a -> fset (fo regs) (0, i) (set_par (conv i a) (pair 0 <$> n_parent a)) = fo regs.
Proof.
  intros Ha. unfold fo, fset. cbn. f_equal. apply list_insert_id. rewrite list_lookup_imap, Ha. done.
Qed.
Lemma fo_refs regs : all_refs (fo regs) = pair 0 <$> seq 0 (length regs).
Proof. unfold all_refs. cbn. rewrite app_nil_r. unfold refs_of. cbn. by rewrite imap_length. Qed.
Lemma fo_nregs regs : nregs (fo regs) = length regs.
Proof. unfold nregs. cbn. rewrite imap_length. lia. Qed.
Lemma conv_flag i a f : set_flag (conv i a) f = conv i (cv_flag a f).
Proof. done. Qed.

Lemma wfr_flag regs i a f : wfr regs -> regs !! i = Some a -> f <> 3 -> wfr (<[i := cv_flag a f]> regs).
Proof.
  intros [H1 H2 H3 H4] Ha Hf.
  assert (forall j c, <[i := cv_flag a f]> regs !! j = Some c -> exists c0, regs !! j = Some c0 /\ n_size c = n_size c0 /\
    n_gray c = n_gray c0 /\ n_parent c = n_parent c0 /\ (n_flag c = f \/ n_flag c = n_flag c0)) as HH.
  { intros j c [(<- & <- & _)|[_ Hj]]%list_lookup_insert_Some; [exists a|exists c]; cbn; auto 10. }
  constructor.
  - intros j c Hj. destruct (HH j c Hj) as (c0 & E & -> & _). eauto.
  - intros j c Hj. destruct (HH j c Hj) as (c0 & E & _ & _ & _ & [-> | ->]); eauto.
  - intros j c Hj. destruct (HH j c Hj) as (c0 & E & _ & -> & _). eauto.
  - intros j c t Hj Ht. destruct (HH j c Hj) as (c0 & E & _ & _ & Ep & _). rewrite insert_length. rewrite Ep in Ht. eauto.
Qed.

(* SPEC: two tables that differ in flags only *)
Definition same_but (regs regs' : list lreg) : Prop :=
  length regs' = length regs /\ forall i a, regs !! i = Some a -> exists f, regs' !! i = Some (cv_flag a f).
Lemma same_refl regs : same_but regs regs.
Proof. split; [done|]. intros i a Ha. exists (n_flag a). rewrite Ha. by destruct a. Qed.
Lemma same_trans r1 r2 r3 : same_but r1 r2 -> same_but r2 r3 -> same_but r1 r3.
Proof.
  intros [L1 H1] [L2 H2]. split; [congruence|]. intros i a Ha. destruct (H1 i a Ha) as [f Hf]. destruct (H2 _ _ Hf) as [g Hg].
  exists g. by rewrite Hg.
Qed.
Lemma same_flag regs i a f : regs !! i = Some a -> same_but regs (<[i := cv_flag a f]> regs).
Proof.
  intros Ha. split; [by rewrite insert_length|]. intros j c Hc. destruct (decide (i = j)) as [->|Hne].
  - exists f. rewrite list_lookup_insert by (by eapply lookup_lt_Some). congruence.
  - exists (n_flag c). rewrite list_lookup_insert_ne by done. rewrite Hc. by destruct c.
Qed.

Section stages.
Context (P : rparam) (fuel : nat) (Hfuel : 0 < fuel).

Lemma real_fo regs p : wfr regs -> (forall t, p = Some t -> t < length regs) ->
  real fuel (fo regs) (pair 0 <$> p) = Some (pair 0 <$> p).
Proof.
  intros H Hp. destruct fuel as [|n]; [lia|]. destruct p as [t|]; [|done]. cbn [fmap option_fmap option_map real].
  destruct (lookup_lt_is_Some_2 regs t) as [a Ha]; [auto|]. rewrite fo_get, Ha. cbn.
  destruct (Nat.eqb_spec (n_flag a) 3) as [E|]; [|done]. by apply (wr_flag _ H) in Ha.
Qed.
Lemma gsrp_fo regs x a : wfr regs -> regs !! x = Some a ->
  get_set_real_parent fuel (fo regs) (0, x) = Some (fo regs, pair 0 <$> n_parent a).
Proof.
  intros H Ha. unfold get_set_real_parent. rewrite fo_get, Ha. cbn [fmap option_fmap option_map conv g_par].
  change (option_map (pair 0) (n_parent a)) with (pair 0 <$> n_parent a).
  rewrite real_fo; auto. { by rewrite <-(fo_same regs x a Ha) at 2. } intros t Ht. by eapply wr_par.
Qed.

Lemma climb_sim n regs s thr t p s' tt pp : wfr regs -> s_F s = fo regs ->
  climb n fuel s thr (0, t) (pair 0 <$> p) = Some (s', tt, pp) ->
  exists t' p', cv_climb n regs thr t p = Some (t', p') /\ tt = (0, t') /\ pp = pair 0 <$> p' /\ s' = s.
Proof.
  intros H HF. revert t p. induction n as [|n IH]; intros t p; [done|]. cbn [climb cv_climb].
  destruct p as [y|]; cbn [fmap option_fmap option_map].
  - unfold sget. rewrite HF, fo_get. destruct (regs !! y) as [b|] eqn:Eb; [|done]. cbn [fmap option_fmap option_map conv g_gray].
    destruct (_ <=? _)%Z.
    + rewrite (gsrp_fo regs y b H Eb). rewrite <-HF. destruct s as [F v k]. cbn [s_F s_var s_calc] in *. apply IH.
    + intros [= <- <- <-]. exists t, (Some y). done.
  - intros [= <- <- <-]. exists t, None. done.
Qed.

Lemma variation_sim regs s x s' : wfr regs -> s_F s = fo regs -> calculate_variation fuel P s (0, x) = Some s' ->
  exists v, cv_variation fuel P regs x = Some v /\ s' = put_var s (0, x) v.
Proof.
  intros H HF. unfold calculate_variation, cv_variation, sget. rewrite HF, fo_get.
  destruct (regs !! x) as [a|] eqn:Ea; [|done]. cbn [fmap option_fmap option_map conv g_gray].
  destruct (add_z _ _) as [thr|]; [|done]. rewrite (gsrp_fo regs x a H Ea).
  assert (RSt (fo regs) (s_var s) (s_calc s) = s) as -> by (destruct s; cbn in *; by subst).
  destruct (climb _ _ _ _ _ _) as [[[s1 tt] pp]|] eqn:Ec; [|done].
  destruct (climb_sim fuel regs s thr x (n_parent a) s1 tt pp H HF Ec) as (t & p & -> & -> & -> & ->).
  unfold var_of, sget. rewrite HF, !fo_get, Ea. destruct (regs !! t) as [b|] eqn:Eb; [|done].
  cbn [fmap option_fmap option_map conv g_gray g_size].
  destruct (wr_size _ H x a Ea) as [k ->]. destruct (wr_size _ H t b Eb) as [m ->]. cbn [default].
  intros [= <-]. destruct p as [y|]; cbn [fmap option_fmap option_map orb].
  - eexists. split; done.
  - destruct (_ =? _)%Z; eexists; split; done.
Qed.

(* the first loop *)
Record rel (s : rst) (u : cvst) : Prop := {
  rl_F : s_F s = fo (cs_regs u);
  rl_wf : wfr (cs_regs u);
  rl_var : forall i, s_var s (0, i) = cs_var u i
}.

Lemma base_sim s total lvl u x t : rel s u -> cs_lvl u = lvl -> (forall a, cs_regs u !! x = Some a -> n_flag a = 0) ->
  serial_base fuel P (s, total, lvl) (0, x) = Some t ->
  exists u', cv_base fuel P u x = Some u' /\ rel (fst (fst t)) u' /\ cs_lvl u' = snd t /\
    same_but (cs_regs u) (cs_regs u') /\
    (forall y, y <> x -> cs_regs u' !! y = cs_regs u !! y) /\
    (forall a, cs_regs u' !! x = Some a -> n_flag a = 0 \/ n_flag a = 1) /\
    ((snd (fst t) = total /\ snd t = lvl) \/ exists g, g < 256 /\ snd (fst t) = S total /\ snd t = lvl_inc lvl g).
Proof.
  intros [HF HW HV] Hl H0. destruct u as [regs var lv]. cbn [cs_regs cs_var cs_lvl] in *. subst lv.
  unfold serial_base, cv_base, sget. cbn [cs_regs cs_var cs_lvl]. rewrite HF, fo_get.
  destruct (regs !! x) as [a|] eqn:Ea; [|done]. cbn [fmap option_fmap option_map conv g_flag]. rewrite (H0 a eq_refl). cbn [Nat.eqb negb].
  pose proof (wr_gray _ HW _ _ Ea) as Hg. destruct (wr_size _ HW _ _ Ea) as [k Hk].
  assert (forall s1 v1, s_F s1 = fo regs -> (forall i, s_var s1 (0, i) = v1 i) ->
    rel (put_flag s1 (0, x) (conv x a) 1) (CvSt (<[x:=cv_flag a 1]> regs) v1 lvl)) as HK.
  { intros s1 v1 HF1 HV1. constructor; cbn [put_flag s_F s_var cs_regs cs_var]; auto.
    - rewrite HF1. by apply fo_set.
    - by apply wfr_flag. }
  assert (forall y, y <> x -> <[x := cv_flag a 1]> regs !! y = regs !! y) as Hne by (intros; by rewrite list_lookup_insert_ne).
  assert (forall c, <[x := cv_flag a 1]> regs !! x = Some c -> n_flag c = 0 \/ n_flag c = 1) as Heq.
  { intros c. rewrite list_lookup_insert by (by eapply lookup_lt_Some). intros [= <-]. by right. }
  assert (forall q, bad_limits P (g_size (conv x a)) (g_par (conv x a)) = q -> cv_bad P a = Some q) as Hbad.
  { intros q <-. unfold cv_bad, bad_limits. rewrite Hk. cbn. rewrite Hk. by destruct (n_parent a). }
  destruct (0 <? p_delta P)%Z eqn:Ed; cbn [andb].
  - destruct (calculate_variation fuel P s (0, x)) as [s1|] eqn:Ev; [|done].
    destruct (variation_sim regs s x s1 HW HF Ev) as (v & -> & ->). cbn [put_var s_F s_var s_calc].
    rewrite HF, fo_get, Ea. cbn [fmap option_fmap option_map]. rewrite fn_lookup_insert, fn_lookup_insert.
    assert (forall i, <[(0, x) := v]> (s_var s) (0, i) = <[x := v]> var i) as HV1.
    { intros i. destruct (decide (i = x)) as [->|Hi]; [by rewrite !fn_lookup_insert|].
      rewrite !fn_lookup_insert_ne by congruence. apply HV. }
    destruct (fgt v (p_stable P)).
    { intros [= <-]. eexists. split; [done|]. cbn [fst snd cs_lvl cs_regs]. split; [|eauto 10 using same_flag].
      by apply HK. }
    destruct (bad_limits _ _ _) eqn:Eb; rewrite (Hbad _ eq_refl).
    { intros [= <-]. eexists. split; [done|]. cbn [fst snd cs_lvl cs_regs]. split; [|eauto 10 using same_flag].
      by apply HK. }
    intros [= <-]. eexists. split; [done|]. cbn [fst snd cs_lvl cs_regs]. split; [by constructor|].
    split; [done|]. split; [apply same_refl|]. split; [done|]. split; [|right; exists (n_gray a); done].
    intros c Hc. left. apply H0. congruence.
  - rewrite HF, fo_get, Ea. cbn [fmap option_fmap option_map].
    destruct (bad_limits _ _ _) eqn:Eb; rewrite (Hbad _ eq_refl).
    { intros [= <-]. eexists. split; [done|]. cbn [fst snd cs_lvl cs_regs]. split; [|eauto 10 using same_flag].
      by apply HK. }
    rewrite (gsrp_fo regs x a HW Ea). intros [= <-]. eexists. split; [done|]. cbn [fst snd cs_lvl cs_regs]. split; [by constructor|].
    split; [done|]. split; [apply same_refl|]. split; [done|]. split; [|right; exists (n_gray a); done].
    intros c Hc. left. apply H0. congruence.
Qed.

Definition counted (total : nat) (lvl : list nat) : Prop := length lvl = 257 /\ total = sum_list (take 256 lvl).
Lemma sum_insert (l : list nat) i x y : l !! i = Some x -> sum_list (<[i := y]> l) + x = sum_list l + y.
Proof.
  revert i. induction l as [|z l IH]; intros [|i] H; cbn in *; unfold id in *; try done; [injection H as ->; lia|].
  rewrite <-!Nat.add_assoc. f_equal. exact (IH i H).
Qed.
Lemma take_ins (l : list nat) g y : g < 256 -> take 256 (<[g := y]> l) = <[g := y]> (take 256 l).
Proof.
  intros Hg. apply list_eq. intros i. destruct (decide (i < 256)) as [Hi|Hi].
  - rewrite lookup_take by done. destruct (decide (g = i)) as [->|Hne].
    + destruct (decide (i < length l)) as [Hlt|Hge].
      * rewrite !list_lookup_insert; auto. rewrite take_length. lia.
      * rewrite !list_insert_ge; [by rewrite lookup_take| |lia]. rewrite take_length. lia.
    + rewrite !list_lookup_insert_ne by done. by rewrite lookup_take.
  - rewrite lookup_take_ge by lia. symmetry. apply lookup_ge_None. rewrite insert_length, take_length. lia.
Qed.
Lemma counted_inc total lvl g : g < 256 -> counted total lvl -> counted (S total) (lvl_inc lvl g).
Proof.
  intros Hg [Hl ->]. unfold lvl_inc. split; [by rewrite alter_length|].
  destruct (lookup_lt_is_Some_2 lvl g) as [n Hn]; [lia|].
  assert (alter S g lvl = <[g := S n]> lvl) as ->.
  { apply list_eq. intros i. destruct (decide (g = i)) as [->|Hne].
    - rewrite list_lookup_alter, Hn, list_lookup_insert; [done|lia].
    - by rewrite list_lookup_alter_ne, list_lookup_insert_ne. }
  rewrite take_ins by done. assert (take 256 lvl !! g = Some n) as Hn' by (by rewrite lookup_take).
  pose proof (sum_insert _ _ _ (S n) Hn') as H. lia.
Qed.
Lemma counted_dec total lvl g lvl' total' : g < 256 -> counted total lvl -> lvl_dec lvl g = Some lvl' -> total = S total' -> counted total' lvl'.
Proof.
  intros Hg [Hl Ht] Hd E. unfold lvl_dec in Hd. destruct (lvl !! g) as [[|n]|] eqn:Hn; try done. injection Hd as <-.
  split; [by rewrite insert_length|]. rewrite take_ins by done. assert (take 256 lvl !! g = Some (S n)) as Hn' by (by rewrite lookup_take).
  pose proof (sum_insert _ _ _ n Hn') as H. lia.
Qed.

Definition flags01 (regs : list lreg) : Prop := forall i a, regs !! i = Some a -> n_flag a = 0 \/ n_flag a = 1.

Lemma base_all l s total lvl u t : rel s u -> cs_lvl u = lvl -> counted total lvl -> NoDup l ->
  flags01 (cs_regs u) -> (forall x a, x ∈ l -> cs_regs u !! x = Some a -> n_flag a = 0) ->
  each (serial_base fuel P) (pair 0 <$> l) (s, total, lvl) = Some t ->
  exists u', cv_each (cv_base fuel P) l u = Some u' /\ rel (fst (fst t)) u' /\ cs_lvl u' = snd t /\
    counted (snd (fst t)) (snd t) /\ flags01 (cs_regs u') /\ same_but (cs_regs u) (cs_regs u').
Proof.
  revert s total lvl u. induction l as [|x l IH]; intros s total lvl u HR Hl Hc Hnd H01 H0 Hrun.
  - injection Hrun as <-. exists u. auto 10 using same_refl.
  - apply NoDup_cons in Hnd as [Hx Hnd]. cbn [fmap list_fmap each] in Hrun. cbn [cv_each].
    destruct (serial_base fuel P (s, total, lvl) (0, x)) as [[[s1 t1] l1]|] eqn:E; [|done].
    destruct (base_sim s total lvl u x _ HR Hl (fun a => H0 x a (elem_of_list_here _ _)) E) as (u1 & -> & R1 & L1 & N1 & K1 & K2 & C1).
    cbn [fst snd] in *.
    destruct (IH s1 t1 l1 u1) as (u' & -> & I1 & I2 & I3 & I4 & I5); auto; [..|exists u'; eauto 10 using same_trans].
    + destruct C1 as [[-> ->]|(g & Hg & -> & ->)]; [done|]. by apply counted_inc.
    + intros i a Hi. destruct (decide (i = x)) as [->|Hne]; [eauto|]. rewrite K1 in Hi by done. eauto.
    + intros y a Hy Ha. destruct (decide (y = x)) as [->|Hne]; [done|]. rewrite K1 in Ha by done. eapply H0; eauto. by right.
Qed.

(* suppression *)
Lemma kill_sim s total lvl u z t : rel s u -> cs_lvl u = lvl -> counted total lvl -> flags01 (cs_regs u) ->
  serial_kill s total lvl (0, z) = Some t ->
  exists u', cv_kill u z = Some u' /\ rel (fst (fst t)) u' /\ cs_lvl u' = snd t /\ counted (snd (fst t)) (snd t) /\
    flags01 (cs_regs u') /\ same_but (cs_regs u) (cs_regs u').
Proof.
  intros [HF HW HV] Hl Hc H01. destruct u as [regs var lv]. cbn [cs_regs cs_var cs_lvl] in *. subst lv.
  unfold serial_kill, cv_kill, sget. cbn [cs_regs cs_var cs_lvl]. rewrite HF, fo_get.
  destruct (regs !! z) as [c|] eqn:Ec; [|done]. cbn [fmap option_fmap option_map conv g_flag g_gray].
  destruct (n_flag c =? 1).
  - intros [= <-]. eexists. split; [done|]. cbn [fst snd cs_lvl cs_regs]. split; [by constructor|]. auto using same_refl.
  - destruct (lvl_dec lvl (n_gray c)) as [l'|] eqn:Ed; [|done]. destruct total as [|t']; [done|].
    intros [= <-]. eexists. split; [done|]. cbn [fst snd cs_lvl cs_regs]. split.
    { constructor; cbn [put_flag s_F s_var cs_regs cs_var]; auto.
      - rewrite HF. change (GReg _ _ _ _ _ _) with (conv z c). by apply fo_set.
      - by apply wfr_flag. }
    split; [done|]. split. { eapply counted_dec; [exact (wr_gray _ HW _ _ Ec)|exact Hc|exact Ed|done]. }
    split; [|by apply same_flag]. intros i a [(-> & <- & _)|[_ Hi]]%list_lookup_insert_Some; [by right|eauto].
Qed.
Lemma nms_sim s total lvl u x t : rel s u -> cs_lvl u = lvl -> counted total lvl -> flags01 (cs_regs u) ->
  serial_nms P (s, total, lvl) (0, x) = Some t ->
  exists u', cv_nms P u x = Some u' /\ rel (fst (fst t)) u' /\ cs_lvl u' = snd t /\ counted (snd (fst t)) (snd t) /\
    flags01 (cs_regs u') /\ same_but (cs_regs u) (cs_regs u').
Proof.
  intros HR Hl Hc H01 Hrun. pose proof HR as [HF HW HV]. unfold serial_nms, sget in Hrun. unfold cv_nms.
  rewrite HF, fo_get in Hrun. destruct (cs_regs u !! x) as [a|] eqn:Ea; [|done]. cbn [fmap option_fmap option_map conv g_flag g_par] in Hrun.
  assert (exists u', Some u = Some u' /\ rel s u' /\ cs_lvl u' = lvl /\ counted total lvl /\ flags01 (cs_regs u') /\
    same_but (cs_regs u) (cs_regs u')) as Hstay by (exists u; auto 10 using same_refl).
  destruct (Nat.eqb_spec (n_flag a) 3) as [E3|_]; [by apply (wr_flag _ HW) in Ea|].
  rewrite HV in Hrun. destruct (n_parent a) as [y|] eqn:Ey.
  2: { destruct (negb _); injection Hrun as <-; exact Hstay. }
  cbn [fmap option_fmap option_map] in Hrun. rewrite fo_get in Hrun.
  pose proof (wr_par _ HW x a y Ea Ey) as Hy. destruct (lookup_lt_is_Some_2 _ _ Hy) as [b Eb]. rewrite Eb in Hrun |- *.
  cbn [fmap option_fmap option_map conv g_gray] in Hrun. rewrite HV in Hrun.
  destruct (fge (cs_var u x) fzero) eqn:E1; cbn [negb andb] in *.
  2: { injection Hrun as <-. destruct ((n_flag a =? 1) && _); exact Hstay. }
  destruct (fge (cs_var u y) fzero && (n_gray b =? n_gray a + 1)) eqn:E2.
  2: { injection Hrun as <-. destruct ((n_flag a =? 1) && _); exact Hstay. }
  destruct ((n_flag a =? 1) && (n_flag b =? 1)) eqn:E3.
  - apply andb_true_iff in E3 as [Fa Fb].
    destruct (fgt _ _); [|destruct (fgt _ _)].
    + unfold serial_kill, sget in Hrun. rewrite HF, fo_get, Eb in Hrun. cbn [fmap option_fmap option_map conv g_flag] in Hrun.
      rewrite Fb in Hrun. injection Hrun as <-. exact Hstay.
    + unfold serial_kill, sget in Hrun. rewrite HF, fo_get, Ea in Hrun. cbn [fmap option_fmap option_map conv g_flag] in Hrun.
      rewrite Fa in Hrun. injection Hrun as <-. exact Hstay.
    + injection Hrun as <-. exact Hstay.
  - cbv zeta in Hrun |- *. destruct (fgt (var_diff _ _) _); [by eapply kill_sim|].
    destruct (fgt _ _); [by eapply kill_sim|]. injection Hrun as <-. exact Hstay.
Qed.
Lemma nms_all l s total lvl u t : rel s u -> cs_lvl u = lvl -> counted total lvl -> flags01 (cs_regs u) ->
  each (serial_nms P) (pair 0 <$> l) (s, total, lvl) = Some t ->
  exists u', cv_each (cv_nms P) l u = Some u' /\ rel (fst (fst t)) u' /\ cs_lvl u' = snd t /\ counted (snd (fst t)) (snd t) /\
    flags01 (cs_regs u') /\ same_but (cs_regs u) (cs_regs u').
Proof.
  revert s total lvl u. induction l as [|x l IH]; intros s total lvl u HR Hl Hc H01 Hrun.
  - injection Hrun as <-. exists u. auto 10 using same_refl.
  - cbn [fmap list_fmap each] in Hrun. cbn [cv_each].
    destruct (serial_nms P (s, total, lvl) (0, x)) as [[[s1 t1] l1]|] eqn:E; [|done].
    destruct (nms_sim s total lvl u x _ HR Hl Hc H01 E) as (u1 & -> & R1 & L1 & C1 & F1 & N1). cbn [fst snd] in *.
    destruct (IH s1 t1 l1 u1 R1 L1 C1 F1 Hrun) as (u' & -> & ? & ? & ? & ? & ?). exists u'. eauto 10 using same_trans.
Qed.

(* ordering *)
Definition oref (o : option nat) : option rref := pair 0 <$> o.
Lemma scatter_sim s regs (l : list nat) ext o2 n2 : s_F s = fo regs -> flags01 regs -> forall out starts,
  each (scatter s) (pair 0 <$> l) (out, starts) = Some (o2, n2) -> forall out1, out = oref <$> out1 ->
  exists out2, o2 = oref <$> out2 /\ length out2 = length out1 /\ cv_each (cv_scatter regs) l (out1 ++ ext, starts) = Some (out2 ++ ext, n2).
Proof.
  intros HF H01. induction l as [|x l IH]; intros out starts Hrun out1 ->.
  - injection Hrun as <- <-. exists out1. done.
  - cbn [fmap list_fmap each] in Hrun. cbn [cv_each].
    change (list_fmap (option nat) (option rref) oref out1) with (oref <$> out1) in Hrun.
    destruct (scatter s (oref <$> out1, starts) (0, x)) as [[o n]|] eqn:E; [|done].
    unfold scatter, sget in E. rewrite HF, fo_get in E. unfold cv_scatter. destruct (regs !! x) as [a|] eqn:Ea; [|done].
    change (conv x <$> Some a) with (Some (conv x a)) in E. cbn [conv g_flag g_gray] in E.
    destruct (H01 x a Ea) as [F0|F1].
    + rewrite F0 in E |- *. cbn [Nat.eqb] in *. destruct (starts !! n_gray a) as [i|]; [|done].
      rewrite fmap_length in E.
      destruct (i <? length out1) eqn:Ei; [|done]. injection E as <- <-. apply Nat.ltb_lt in Ei.
      unfold store. rewrite app_length. destruct (Nat.ltb_spec i (length out1 + length ext)); [|lia].
      rewrite insert_app_l by done.
      destruct (IH _ _ Hrun (<[i := Some x]> out1)) as (out2 & -> & Hlen & Hgo). { by rewrite list_fmap_insert. }
      exists out2. rewrite insert_length in Hlen. auto.
    + rewrite F1 in E |- *. cbn [Nat.eqb] in *. injection E as <- <-. by apply (IH _ _ Hrun).
Qed.
Lemma written_sim (q : list (option nat)) l : written (oref <$> q) = Some l ->
  exists l', mapM (fun o => o) q = Some l' /\ l = pair 0 <$> l'.
Proof.
  revert l. induction q as [|o q IH]; intros l; [intros [= <-]; by exists []|].
  rewrite fmap_cons. cbn [written]. destruct o as [x|]; cbn [oref fmap option_fmap option_map]; [|done].
  change (list_fmap (option nat) (option rref) oref q) with (oref <$> q).
  destruct (written (oref <$> q)) as [xs|]; [|done]. intros [= <-]. destruct (IH xs eq_refl) as (l' & E & ->).
  exists (x :: l'). split; [|done]. cbn. by rewrite E.
Qed.
Lemma order_sim s u total cap l b' : rel s u -> counted total (cs_lvl u) -> flags01 (cs_regs u) -> total <= cap ->
  order_regions s (CBuf 0 0) (cs_lvl u) total = Some (l, b') ->
  exists l', cv_order cap (cs_regs u) (cs_lvl u) = Some l' /\ l = pair 0 <$> l'.
Proof.
  intros [HF HW HV] [Hlen Htot] H01 Hcap. unfold order_regions, cv_order. cbv zeta.
  assert (size_buffer (CBuf 0 0) total = CBuf total 0) as ->.
  { unfold size_buffer. cbn [cb_cap cb_exceed]. change (N.of_nat 0) with 0%N. destruct (N.ltb_spec (N.of_nat total * 5 mod 2 ^ 32) 0) as [Hz|]; [exfalso; by eapply N.nlt_0_r|done]. }
  cbn [cb_cap]. rewrite HF, fo_refs.
  destruct (each _ _ _) as [[out st]|] eqn:E; [|done].
  destruct (scatter_sim s (cs_regs u) (seq 0 (length (cs_regs u))) (replicate (cap - total) None) out st HF H01 _ _ E (replicate total None))
    as (out2 & -> & Hl2 & E2). { by rewrite fmap_replicate. }
  rewrite <-replicate_add in E2. replace (total + (cap - total)) with cap in E2 by lia. rewrite E2.
  rewrite integral_lookup by (rewrite take_length; lia). rewrite take_take, Nat.min_id. cbn [Nat.add].
  rewrite <-Htot. destruct (Nat.leb_spec total cap); [|lia]. rewrite replicate_length in Hl2. rewrite take_app_alt by done.
  rewrite <-fmap_take, take_ge by lia. destruct (written _) as [l0|] eqn:Ew; [|done].
  destruct (written_sim _ _ Ew) as (l' & -> & ->). destruct (_ =? _); [|done]. intros [= <- _]. eauto.
Qed.

(* duplicates *)
Lemma duplicated_sim s regs k : s_F s = fo regs -> wfr regs -> forall n p,
  get_duplicated n P s k (oref p) = fmap (M:=list) (pair 0) <$> cv_duplicated n P regs k p.
Proof.
  intros HF HW. induction n as [|n IH]; intros p; [done|]. cbn [get_duplicated cv_duplicated].
  destruct p as [y|]; cbn [oref fmap option_fmap option_map]; [|done]. unfold sget. rewrite HF, fo_get.
  destruct (regs !! y) as [b|] eqn:Eb; [|done]. change (conv y <$> Some b) with (Some (conv y b)). cbn [conv g_size g_par g_flag].
  destruct (wr_size _ HW y b Eb) as [m ->]. cbn [default]. destruct (_ <? _)%Z; [done|]. destruct (fgt _ _); [done|].
  change (pair 0 <$> n_parent b) with (oref (n_parent b)). rewrite IH.
  destruct (cv_duplicated n P regs k (n_parent b)) as [l|]; [|done]. cbn [fmap option_fmap option_map].
  by destruct ((n_flag b =? 2) || (n_flag b =? 1)).
Qed.
Lemma mark_sim s regs x f s' : s_F s = fo regs -> wfr regs -> f <> 3 -> mark f s (0, x) = Some s' ->
  exists a, regs !! x = Some a /\ s_F s' = fo (<[x := cv_flag a f]> regs) /\ wfr (<[x := cv_flag a f]> regs).
Proof.
  intros HF HW Hf. unfold mark, sget. rewrite HF, fo_get. destruct (regs !! x) as [a|] eqn:Ea; [|done].
  change (conv x <$> Some a) with (Some (conv x a)). cbn match. intros [= <-]. exists a. split; [done|].
  cbn [put_flag s_F]. rewrite HF. split; [by apply fo_set|by apply wfr_flag].
Qed.
Lemma mark_list_sim (l : list nat) mid : forall s regs j s', s_F s = fo regs -> wfr regs -> mark_list s j mid (pair 0 <$> l) = Some s' ->
  exists regs', cv_mark_list regs j mid l = Some regs' /\ s_F s' = fo regs' /\ wfr regs' /\ same_but regs regs'.
Proof.
  induction l as [|x l IH]; intros s regs j s' HF HW.
  - intros [= <-]. exists regs. split; [done|]. split; [done|]. split; [done|apply same_refl].
  - rewrite fmap_cons. cbn [mark_list cv_mark_list].
    destruct (mark _ s (0, x)) as [s1|] eqn:E; [|done].
    destruct (mark_sim s regs x (if j =? mid then 2 else 1) s1 HF HW ltac:(by destruct (j =? mid)) E) as (a & Ha & F1 & W1). rewrite Ha. intros Hrun.
    destruct (IH s1 _ (S j) s' F1 W1 Hrun) as (regs' & -> & F2 & W2 & B2). exists regs'. split; [done|]. split; [done|]. split; [done|].
    eapply same_trans; [by apply same_flag|exact B2].
Qed.
Lemma dedup_one_sim s regs count x t : s_F s = fo regs -> wfr regs -> dedup_one fuel P (s, count) (0, x) = Some t ->
  exists regs', cv_dedup_one fuel P (regs, count) x = Some (regs', snd t) /\ s_F (fst t) = fo regs' /\ wfr regs' /\ same_but regs regs'.
Proof.
  intros HF HW. unfold dedup_one, cv_dedup_one. unfold sget at 1. rewrite HF, fo_get. destruct (regs !! x) as [a|] eqn:Ea; [|done].
  change (conv x <$> Some a) with (Some (conv x a)). cbn [conv g_flag g_size g_par].
  destruct (negb _). { intros [= <-]. exists regs. split; [done|]. split; [done|]. split; [done|apply same_refl]. }
  destruct (wr_size _ HW x a Ea) as [k Hk]. rewrite Hk. cbn [default]. change (pair 0 <$> n_parent a) with (oref (n_parent a)).
  rewrite (duplicated_sim s regs k HF HW fuel). destruct (cv_duplicated fuel P regs k (n_parent a)) as [l1|]; [|done].
  cbn [fmap option_fmap option_map]. cbv zeta.
  change ((0, x) :: (pair 0 <$> l1)) with (pair 0 <$> (x :: l1)). rewrite fmap_length, list_lookup_fmap, fmap_last.
  set (dup := x :: l1). set (mid := length dup / 2).
  assert (forall l2 l2', l2 = pair 0 <$> l2' -> match mark_list s 0 mid ((pair 0 <$> dup) ++ l2) with Some s' => Some (s', S count) | None => None end = Some t ->
    exists regs', match cv_mark_list regs 0 mid (dup ++ l2') with Some regs' => Some (regs', S count) | None => None end = Some (regs', snd t) /\
      s_F (fst t) = fo regs' /\ wfr regs' /\ same_but regs regs') as HH.
  { intros l2 l2' ->. rewrite <-fmap_app. destruct (mark_list _ _ _ _) as [s'|] eqn:Em; [|done]. intros [= <-].
    destruct (mark_list_sim _ _ s regs 0 s' HF HW Em) as (regs' & -> & ? & ? & ?). exists regs'. auto. }
  destruct (0 <? mid); [|by apply HH].
  destruct (dup !! mid) as [m|]; [|done]. destruct (last dup) as [e|]; [|done].
  change (pair 0 <$> Some m) with (Some (0, m)). change (pair 0 <$> Some e) with (Some (0, e)). cbn match.
  unfold sget. rewrite HF, !fo_get. unfold cv_size. destruct (regs !! m) as [cm|] eqn:Em; [|done].
  destruct (regs !! e) as [ce|] eqn:Ee; [|by destruct (n_size cm)].
  destruct (wr_size _ HW m cm Em) as [km Hkm]. cbn [fmap option_fmap option_map conv g_size g_par]. rewrite Hkm. cbn [default].
  change (option_map (pair 0) (n_parent ce)) with (oref (n_parent ce)).
  rewrite (duplicated_sim s regs km HF HW fuel). destruct (cv_duplicated fuel P regs km (n_parent ce)) as [l2|]; [|done].
  by apply HH.
Qed.
Lemma dedup_all (l : list nat) : forall s regs count t, s_F s = fo regs -> wfr regs ->
  each (dedup_one fuel P) (pair 0 <$> l) (s, count) = Some t ->
  exists regs', cv_each (cv_dedup_one fuel P) l (regs, count) = Some (regs', snd t) /\ s_F (fst t) = fo regs' /\ wfr regs' /\ same_but regs regs'.
Proof.
  induction l as [|x l IH]; intros s regs count t HF HW.
  - intros [= <-]. exists regs. split; [done|]. split; [done|]. split; [done|apply same_refl].
  - rewrite fmap_cons. cbn [each cv_each]. destruct (dedup_one fuel P (s, count) (0, x)) as [[s1 c1]|] eqn:E; [|done].
    destruct (dedup_one_sim s regs count x _ HF HW E) as (r1 & -> & F1 & W1 & B1). cbn [fst snd] in *. intros Hrun.
    destruct (IH s1 r1 c1 t F1 W1 Hrun) as (r2 & -> & F2 & W2 & B2). exists r2. split; [done|]. split; [done|]. split; [done|].
    by eapply same_trans.
Qed.
Lemma nodedup_all (l : list nat) : forall s regs s', s_F s = fo regs -> wfr regs ->
  each (mark 2) (pair 0 <$> l) s = Some s' ->
  exists regs', cv_each cv_mark2 l regs = Some regs' /\ s_F s' = fo regs' /\ wfr regs' /\ same_but regs regs'.
Proof.
  induction l as [|x l IH]; intros s regs s' HF HW.
  - intros [= <-]. exists regs. split; [done|]. split; [done|]. split; [done|apply same_refl].
  - rewrite fmap_cons. cbn [each cv_each]. destruct (mark 2 s (0, x)) as [s1|] eqn:E; [|done].
    destruct (mark_sim s regs x 2 s1 HF HW ltac:(done) E) as (a & Ha & F1 & W1). intros Hrun. unfold cv_mark2 at 1. rewrite Ha.
    destruct (IH s1 _ s' F1 W1 Hrun) as (r2 & -> & F2 & W2 & B2). exists r2. split; [done|]. split; [done|]. split; [done|].
    eapply same_trans; [by apply same_flag|exact B2].
Qed.
Lemma valid_sim s regs x : s_F s = fo regs -> is_valid s (0, x) = cv_valid regs x.
Proof. intros HF. unfold is_valid, cv_valid, sget. rewrite HF, fo_get. by destruct (regs !! x). Qed.
Lemma filter_sim s regs (l : list nat) : s_F s = fo regs ->
  List.filter (is_valid s) (pair 0 <$> l) = pair 0 <$> List.filter (cv_valid regs) l.
Proof.
  intros HF. induction l as [|x l IH]; [done|]. rewrite fmap_cons. cbn [List.filter]. rewrite (valid_sim s regs x HF), IH.
  by destruct (cv_valid regs x).
Qed.
Lemma total_ok regs l : (forall x, x ∈ l -> exists k, cv_size regs x = Some k) -> forall acc,
  exists ks, Forall2 (fun x k => cv_size regs x = Some k) l ks /\
  cv_each (fun acc x => match cv_size regs x with Some k => Some ((acc + N.of_nat k) mod 2 ^ 32)%N | None => None end) l (acc mod 2 ^ 32)%N =
  Some ((acc + N.of_nat (sum_list ks)) mod 2 ^ 32)%N.
Proof.
  induction l as [|x l IH]; intros Hx acc.
  - exists []. split; [constructor|]. cbn [cv_each]. f_equal. f_equal. cbn. lia.
  - destruct (Hx x) as [k Hk]; [by left|]. cbn [cv_each]. rewrite Hk. rewrite N.add_mod_idemp_l by lia.
    destruct (IH ltac:(intros; apply Hx; by right) (acc + N.of_nat k)%N) as (ks & H2 & ->). exists (k :: ks).
    split; [by constructor|]. f_equal. f_equal. cbn [sum_list sum_list_with foldr]. unfold id. cbn. lia.
Qed.
End stages.

(* the serial candidates of V2 and the rest of recognition in CV-MSER+ *)
Lemma same_size regs regs' x : same_but regs regs' -> cv_size regs' x = cv_size regs x.
Proof.
  intros [HL HS]. unfold cv_size. destruct (regs !! x) as [a|] eqn:Ea; [by destruct (HS x a Ea) as [f ->]|].
  apply lookup_ge_None in Ea. destruct (regs' !! x) eqn:E; [|done]. apply lookup_lt_Some in E. lia.
Qed.
Lemma cv_recognize_sim P fuel cap regs var0 s : 0 < fuel -> wfr regs -> (forall i a, regs !! i = Some a -> n_flag a = 0) ->
  s_F s = fo regs -> (forall i, s_var s (0, i) = var0 i) -> forall s2 l b2 s3 l3 n3,
  candidates_serial fuel P (CBuf 0 0) s = Some (s2, l, b2) -> length l <= cap -> (forall x, (0, x) ∈ l -> x < length regs) ->
  (if fgt (p_dup P) fzero then dedup fuel P s2 l else no_dedup s2 l) = Some (s3, l3, n3) -> n3 = length l3 ->
  exists regs' l' ks, cv_recognize fuel P cap regs var0 = Some (regs', l', (N.of_nat (sum_list ks) mod 2 ^ 32)%N) /\
    l3 = pair 0 <$> l' /\ same_but regs regs' /\ Forall2 (fun x k => cv_size regs x = Some k) l' ks.
Proof.
  intros Hfuel HW H0 HF HV s2 l b2 s3 l3 n3 Hc Hcap Hdom Hd Hn3. unfold candidates_serial in Hc. rewrite HF, fo_refs in Hc. unfold cv_recognize.
  destruct (each (serial_base fuel P) _ _) as [t1|] eqn:E1; [|done].
  destruct (base_all P fuel Hfuel (seq 0 (length regs)) s 0 lvl0 (CvSt regs var0 lvl0) t1) as (u1 & -> & R1 & L1 & C1 & G1 & B1).
  { by constructor. } { done. } { split; [done|]. by vm_compute. } { apply NoDup_seq. } { intros i a Ha. left. eauto. } { cbn. eauto. } { done. }
  cbn [cs_regs] in B1. destruct t1 as [[s1 tot1] lvl1]. cbn [fst snd] in *.
  destruct (if (0 <? p_delta P)%Z && fge (p_nms P) fzero then each (serial_nms P) (all_refs (s_F s1)) (s1, tot1, lvl1) else Some (s1, tot1, lvl1))
    as [[[s2' tot2] lvl2]|] eqn:E2; [|done].
  assert (exists u2,
    (if (0 <? p_delta P)%Z && fge (p_nms P) fzero then cv_each (cv_nms P) (seq 0 (length (cs_regs u1))) u1 else Some u1) = Some u2 /\
    rel s2' u2 /\ cs_lvl u2 = lvl2 /\ counted tot2 lvl2 /\ flags01 (cs_regs u2) /\ same_but regs (cs_regs u2)) as (u2 & -> & R2 & L2 & C2 & G2 & B2).
  { destruct ((0 <? p_delta P)%Z && fge (p_nms P) fzero).
    - rewrite (rl_F _ _ R1), fo_refs in E2.
      destruct (nms_all P fuel Hfuel (seq 0 (length (cs_regs u1))) s1 tot1 lvl1 u1 _ R1 L1 C1 G1 E2) as (u2 & ? & ? & ? & ? & ? & ?). cbn [fst snd] in *.
      exists u2. eauto 10 using same_trans.
    - injection E2 as -> -> ->. exists u1. auto 10. }
  destruct (order_regions s2' (CBuf 0 0) lvl2 tot2) as [[l0 b0]|] eqn:E3; [|done]. injection Hc as -> -> ->. subst lvl2.
  assert (tot2 = length l) as Htot.
  { unfold order_regions in E3. destruct (each (scatter s2) _ _) as [[out st]|]; [|done]. destruct (written _) as [q|]; [|done].
    destruct (Nat.eqb_spec (length q) tot2); [|done]. injection E3 as -> _. done. }
  destruct (order_sim fuel Hfuel s2 u2 tot2 cap l b2 R2 C2 G2 ltac:(lia) E3) as (l' & -> & ->).
  destruct R2 as [F2 W2 V2]. unfold cv_dedup.
  assert (exists regs' lx, (if fgt (p_dup P) fzero then
       match cv_each (cv_dedup_one fuel P) l' (cs_regs u2, 0) with
       | None => None
       | Some (regs', count) =>
           if length (List.filter (cv_valid regs') l') =? count then Some (regs', List.filter (cv_valid regs') l') else None
       end
     else match cv_each cv_mark2 l' (cs_regs u2) with
          | None => None
          | Some regs' => Some (regs', l')
          end) = Some (regs', lx) /\ l3 = pair 0 <$> lx /\ same_but regs regs' /\ wfr regs' /\ forall x, x ∈ lx -> x < length regs) as
    (regs' & lx & -> & -> & B3 & W3 & Hin).
  { assert (forall x, x ∈ l' -> x < length regs) as Hl'.
    { intros x Hx. apply Hdom. apply elem_of_list_fmap. eauto. }
    destruct (fgt (p_dup P) fzero).
    - unfold dedup in Hd. destruct (each (dedup_one fuel P) _ _) as [[s3' cnt]|] eqn:E4; [|done].
      destruct (dedup_all P fuel l' s2 (cs_regs u2) 0 _ F2 W2 E4) as (r3 & -> & F3 & W3 & B3). cbn [fst snd] in *. cbv zeta.
      injection Hd as -> <- ->. rewrite (filter_sim s3 r3 l' F3) in Hn3 |- *. rewrite fmap_length in Hn3. rewrite Hn3, Nat.eqb_refl.
      eexists r3, _. split; [done|]. split; [done|]. split; [by eapply same_trans|]. split; [done|].
      intros x Hx. apply elem_of_list_In, List.filter_In in Hx as [Hx _]. apply elem_of_list_In in Hx. auto.
    - unfold no_dedup in Hd. destruct (each (mark 2) _ _) as [s3'|] eqn:E4; [|done].
      destruct (nodedup_all l' s2 (cs_regs u2) _ F2 W2 E4) as (r3 & -> & F3 & W3 & B3).
      injection Hd as -> <- _. exists r3, l'. split; [done|]. split; [done|]. split; [by eapply same_trans|]. split; [done|]. done. }
  destruct (total_ok fuel Hfuel regs' lx) with (acc := 0%N) as (ks & H2 & E5).
  { intros x Hx. destruct (lookup_lt_is_Some_2 regs' x) as [a Ha]. { destruct B3 as [-> _]. auto. }
    unfold cv_size. rewrite Ha. destruct (wr_size _ W3 x a Ha) as [k ->]. eauto. }
  unfold cv_total. change 0%N with (0 mod 2 ^ 32)%N at 1. rewrite E5. exists regs', lx, ks. split; [done|]. split; [done|]. split; [done|].
  eapply Forall2_impl; [exact H2|]. intros x k Hx. cbn in Hx. by rewrite <-(same_size _ _ x B3).
Qed.
