(* The serial version of recognition: variations, limits and suppression. *)
From stdpp Require Import sorting relations functions list.
From Coq Require Import NArith ZArith SpecFloat.
From Verif Require Import Spec TreeSpec TreeFacts JoinMath FloodModel ConnectModel ConnectProof FloatModel FloatFacts
  RecogModel RecogSpec RecogStatic RecogWorkers RecogSched RecogNms.
Local Open Scope nat_scope.

Lemma counts_unk s s' vs : (forall z g, z ∈ vs -> unk s' g z = unk s g z) -> counts s' vs = counts s vs.
Proof.
  intros He. unfold counts. apply list_fmap_ext. intros g ? _. f_equal. apply filter_same. intros y Hy. by apply He.
Qed.

Section serial.
Context (F0 : forest) (H0 : rstart F0) (P : rparam).
Context (Hd : (- 2 ^ 31 <= p_delta P /\ p_delta P + 255 < 2 ^ 31)%Z).
Notation RP := (RP F0). Notation rp := (rp F0). Notation dp := (dp F0). Notation top := (top F0).
Notation gray0 := (gray0 F0). Notation size0 := (size0 F0). Notation live0 := (live0 F0).
Notation VAR := (VAR F0 P). Notation BASE := (BASE F0 P). Notation has_var := (has_var F0 P).
Notation FLAG := (FLAG F0 P). Notation vic := (vic F0 P). Notation regsok := (regsok F0 P).
Notation allvis := (allvis F0). Notation sim := (sim F0). Notation settled := (settled F0 P).

Lemma real_sim F : sim F -> forall n o, stored F0 o -> dp o <= n -> real (S n) F o = Some (rp o).
Proof.
  intros HS. induction n as [|n IH]; intros o Ho Hn.
  - destruct o as [y|]; [|done]. destruct (Ho y eq_refl) as [a Ha]. destruct (dp_some F0 H0 y a Ha) as [E _]. lia.
  - destruct o as [y|]; [|done]. destruct (Ho y eq_refl) as [a0 Ha0]. destruct (sm_reg _ _ HS y a0 Ha0) as (a & Ha & S1).
    change (real (S (S n)) F (Some y)) with
      (match fget F y with Some b => if g_flag b =? 3 then real (S n) F (g_par b) else Some (Some y) | None => None end).
    rewrite Ha. destruct (Nat.eqb_spec (g_flag a) 3) as [Hf|Hf].
    + assert (a = a0) as ->.
      { destruct S1 as (_ & _ & _ & S4 & S5). destruct (decide (g_flag a0 = 3)) as [|Hn3]; auto. by destruct (S5 Hn3). }
      rewrite (rp_dead F0 H0 y a0 Ha0 Hf). apply IH; [by eapply par_stored|].
      destruct (dp_some F0 H0 y a0 Ha0) as [E _]. lia.
    + destruct (flag_live F0 _ y a HS Ha Hf) as (c & Hc & Hfc). by rewrite (rp_live F0 y c Hc Hfc).
Qed.

(* states that differ by shortened links only *)
Record chg (s s' : rst) : Prop := {
  ch_sim : sim (s_F s');
  ch_reg : forall z a, sget s z = Some a -> exists b, sget s' z = Some b /\ g_flag b = g_flag a /\ g_gray b = g_gray a /\
    (g_par b = g_par a \/ g_par b = RP z);
  ch_var : s_var s' = s_var s;
  ch_calc : s_calc s' = s_calc s
}.
Lemma chg_refl s : sim (s_F s) -> chg s s.
Proof. intros HS. constructor; eauto 10. Qed.
Lemma chg_trans s s' s'' : chg s s' -> chg s' s'' -> chg s s''.
Proof.
  intros [A1 A2 A3 A4] [B1 B2 B3 B4]. constructor; auto; [|congruence..].
  intros z a Ha. destruct (A2 z a Ha) as (b & Hb & ? & ? & Hp). destruct (B2 z b Hb) as (c & Hc & ? & ? & Hp').
  exists c. split; auto. split; [congruence|]. split; [congruence|]. destruct Hp' as [->|]; auto.
Qed.
Lemma chg_counts s s' vs : chg s s' -> (forall z, z ∈ vs -> is_Some (sget s z)) -> counts s' vs = counts s vs.
Proof.
  intros HC Hv. apply counts_unk. intros z g Hz. destruct (Hv z Hz) as [a Ha]. unfold unk.
  destruct (ch_reg _ _ HC z a Ha) as (b & Hb & Hf & Hg & _). by rewrite Ha, Hb, Hf, Hg.
Qed.

Lemma gsrp_ok fuel s x : nregs F0 < fuel -> sim (s_F s) -> live0 x ->
  exists F', get_set_real_parent fuel (s_F s) x = Some (F', RP x) /\ chg s (RSt F' (s_var s) (s_calc s)) /\
    exists a, fget F' x = Some a /\ g_par a = RP x.
Proof.
  intros Hfuel HS Hx. destruct (sim_live F0 H0 _ x HS Hx) as (a & Ha & Hf3 & _ & _ & _ & Hst & Hrp & _).
  unfold get_set_real_parent. rewrite Ha. destruct fuel as [|n]; [lia|].
  rewrite (real_sim _ HS n) by (auto; pose proof (dp_bound F0 H0 _ Hst); lia). rewrite Hrp.
  eexists. split; [reflexivity|]. split.
  - constructor; auto; cbn [s_F].
    + apply (sim_fset F0 _ x a); auto.
    + intros z c Hc. unfold sget. cbn [s_F]. rewrite fget_fset. destruct (decide (z = x)) as [->|]; [|eauto 10].
      rewrite Ha. exists (set_par a (RP x)). unfold sget in Hc. assert (c = a) as -> by congruence. auto 10.
  - exists (set_par a (RP x)). rewrite fget_fset, decide_True, Ha by auto. done.
Qed.

Lemma climb_ok fuel n s thr x : nregs F0 < fuel -> sim (s_F s) -> live0 x -> dp (Some x) <= n ->
  exists s', climb n fuel s thr x (RP x) = Some (s', top thr x, RP (top thr x)) /\ chg s s'.
Proof.
  intros Hfuel. revert s x. induction n as [|n IH]; intros s x HS Hx Hn.
  - destruct Hx as (a & Ha & _). destruct (dp_some F0 H0 x a Ha) as [E _]. lia.
  - cbn [climb]. destruct (RP x) as [y|] eqn:Ey.
    + destruct (live0_RP F0 H0 x y Hx Ey) as [Hy _].
      destruct (sim_live F0 H0 _ y HS Hy) as (b & Hb & _ & Hg & _). fold (sget s y) in Hb. rewrite Hb, Hg.
      destruct (Z.leb_spec (Z.of_nat (gray0 y)) thr) as [Hle|Hlt].
      * destruct (gsrp_ok fuel s y Hfuel HS Hy) as (F' & -> & HC & _).
        destruct (IH (RSt F' (s_var s) (s_calc s)) y) as (s' & E' & HC').
        { apply HC. } { done. } { pose proof Hx as (a & Ha & _). pose proof (dp_RP F0 H0 x a y Ha Ey). lia. }
        exists s'. rewrite (top_up F0 H0 thr x y) by auto. split; auto. by eapply chg_trans.
      * exists s. rewrite (top_stop F0 thr x); auto; [|intros y' Hy'; assert (y' = y) as -> by congruence; lia].
        rewrite Ey. split; auto. by apply chg_refl.
    + exists s. rewrite (top_stop F0 thr x); auto; [|intros y' Hy'; congruence].
      rewrite Ey. split; auto. by apply chg_refl.
Qed.

Lemma variation_ok fuel s x : nregs F0 < fuel -> sim (s_F s) -> live0 x ->
  exists s' t, calculate_variation fuel P s x = Some (put_var s' x (VAR x)) /\ chg s s' /\
    sget s' x = Some t /\ g_par t = RP x.
Proof.
  intros Hfuel HS Hx. destruct (sim_live F0 H0 _ x HS Hx) as (a & Ha & _ & Hg & _). fold (sget s x) in Ha.
  unfold calculate_variation. rewrite Ha, Hg. rewrite (add_z_ok P Hd) by (by apply gray_byte).
  destruct (gsrp_ok fuel s x Hfuel HS Hx) as (F' & -> & HC & a1 & Ha1 & Hp1).
  destruct (climb_ok fuel fuel (RSt F' (s_var s) (s_calc s)) (Z.of_nat (gray0 x) + p_delta P) x Hfuel) as (s' & -> & HC').
  { apply HC. } { done. } { pose proof (dp_le F0 H0 x Hx). lia. }
  pose proof (ch_sim _ _ HC') as HS'. destruct (top_spec F0 H0 (Z.of_nat (gray0 x) + p_delta P) x Hx) as (Ht & _).
  destruct (sim_live F0 H0 _ _ HS' Ht) as (b & Hb & _ & Hgb & Hsb & _).
  destruct (sim_live F0 H0 _ x HS' Hx) as (c & Hc & _ & _ & Hsc & _). unfold var_of.
  fold (sget s' x) in Hc. match goal with |- context [match sget s' ?r with Some _ => _ | None => _ end] => fold (sget s' r) in Hb end.
  rewrite Hb, Hc, Hgb, Hsb, Hsc. destruct (ch_reg _ _ HC' x a1 Ha1) as (t & Et & _ & _ & Hpt).
  exists s', t. split; [reflexivity|]. split; [by eapply chg_trans|]. split; auto. destruct Hpt; congruence.
Qed.

(* the limits only, used without variations *)
Definition LIM (z : rref) : bool := negb (bad_limits P (size0 z) (RP z)).
Definition OK1 (z : rref) : bool := if (0 <? p_delta P)%Z then BASE z else LIM z.

Record sinv (vs : list rref) (s : rst) (total : nat) (lvl : list nat) : Prop := {
  si_sim : sim (s_F s);
  si_done : forall z, live0 z -> z ∈ vs -> exists a, sget s z = Some a /\ g_flag a = (if OK1 z then 0 else 1) /\
    ((0 < p_delta P)%Z \/ OK1 z = true -> g_par a = RP z) /\ ((0 < p_delta P)%Z -> s_var s z = VAR z);
  si_rest : forall z, live0 z -> z ∉ vs -> exists a, sget s z = Some a /\ g_flag a = 0;
  si_lvl : lvl = counts s vs;
  si_total : total = sum_list lvl
}.

Lemma sinv_step fuel vs s total lvl x : nregs F0 < fuel -> sinv vs s total lvl ->
  is_Some (fget F0 x) -> x ∉ vs -> (forall z, z ∈ vs -> is_Some (fget F0 z)) ->
  exists s' total' lvl', serial_base fuel P (s, total, lvl) x = Some (s', total', lvl') /\ sinv (vs ++ [x]) s' total' lvl'.
Proof.
  intros Hfuel [HS HD HR -> ->] Hx0 Hxv Hvs. unfold serial_base.
  assert (forall z, z ∈ vs -> is_Some (sget s z)) as Hvs'.
  { intros z Hz. destruct (Hvs z Hz) as [a0 Ha0]. destruct (sm_reg _ _ HS z a0 Ha0) as (a & Ha & _). unfold sget. eauto. }
  destruct (decide (lv F0 x = true)) as [Hx%lv_live|Hx].
  2: { rewrite lv_live in Hx. destruct (dead_get F0 _ x HS Hx0 Hx) as (a & Ha & Hf). fold (sget s x) in Ha. rewrite Ha, Hf.
    cbn [Nat.eqb negb]. eexists _, _, _. split; [reflexivity|]. constructor; auto.
    - intros z Hz Hz'. apply HD; auto. apply elem_of_app in Hz' as [?|Hz']; auto. apply elem_of_list_singleton in Hz' as ->. done.
    - intros z Hz Hz'. apply HR; auto. intros ?. apply Hz'. apply elem_of_app. auto.
    - rewrite counts_app, Ha, Hf. done. }
  destruct (HR x Hx Hxv) as (a0 & Ha0 & Hf0). rewrite Ha0, Hf0. cbn [Nat.eqb negb].
  pose proof (gray_byte F0 H0 x Hx) as Hgx.
  (* common end: a state that only shortens links and sets the flag and the variation of x *)
  assert (forall s1 s2, chg s s1 -> sim (s_F s2) ->
    (forall z, z <> x -> sget s2 z = sget s1 z /\ s_var s2 z = s_var s1 z) ->
    (exists a, sget s2 x = Some a /\ g_gray a = gray0 x /\ g_flag a = (if OK1 x then 0 else 1) /\
      ((0 < p_delta P)%Z \/ OK1 x = true -> g_par a = RP x) /\ ((0 < p_delta P)%Z -> s_var s2 x = VAR x)) ->
    sinv (vs ++ [x]) s2 (if OK1 x then S (sum_list (counts s vs)) else sum_list (counts s vs))
      (if OK1 x then lvl_inc (counts s vs) (gray0 x) else counts s vs)) as Hfin.
  { intros s1 s2 HC HS2 Hoth (a & Ha & Hga & Hfa & Hpa & Hva).
    assert (counts s2 vs = counts s vs) as Ecv.
    { rewrite (counts_ext s1 s2); [by apply chg_counts|]. intros z Hz. apply Hoth. by intros ->. }
    constructor; auto.
    - intros z Hz Hz'. apply elem_of_app in Hz' as [Hz'|Hz'].
      + assert (z <> x) as Hne by (by intros ->). destruct (Hoth z Hne) as [-> ->].
        destruct (HD z Hz Hz') as (b & Hb & Hfb & Hpb & Hvb). destruct (ch_reg _ _ HC z b Hb) as (c & Hc & Hfc & _ & Hpc).
        exists c. split; auto. split; [congruence|]. rewrite (ch_var _ _ HC). split; auto. intros H. specialize (Hpb H).
        destruct Hpc; congruence.
      + apply elem_of_list_singleton in Hz' as ->. eauto 10.
    - intros z Hz Hz'. assert (z <> x) as Hne. { intros ->. apply Hz'. apply elem_of_app. right. by apply elem_of_list_singleton. }
      destruct (Hoth z Hne) as [-> _]. destruct (HR z Hz) as (b & Hb & Hfb). { intros ?. apply Hz'. apply elem_of_app. auto. }
      destruct (ch_reg _ _ HC z b Hb) as (c & Hc & Hfc & _). exists c. split; auto. congruence.
    - rewrite counts_app, Ha, Hfa, Hga, Ecv. destruct (OK1 x); cbn [Nat.eqb andb]; auto.
      destruct (Nat.leb_spec (gray0 x) 256); auto. lia.
    - destruct (OK1 x); auto. rewrite sum_inc; auto. rewrite counts_length. lia. }
  destruct (Z.ltb_spec 0 (p_delta P)) as [Hpos|Hneg].
  - destruct (variation_ok fuel s x Hfuel HS Hx) as (s1 & t & -> & HC & Ht & Hpt).
    assert (sget (put_var s1 x (VAR x)) x = Some t) as Ht' by done. rewrite Ht'.
    assert (s_var (put_var s1 x (VAR x)) x = VAR x) as Hv. { unfold put_var. cbn [s_var]. by rewrite fn_lookup_insert. }
    rewrite Hv. destruct (sim_live F0 H0 _ x (ch_sim _ _ HC) Hx) as (t' & Et & Hf3 & Hg & Hs & _).
    assert (t' = t) as -> by (unfold sget in Ht; congruence). rewrite Hs, Hpt, Hg.
    assert (OK1 x = negb (fgt (VAR x) (p_stable P) || bad_limits P (size0 x) (RP x))) as EOK.
    { unfold OK1. destruct (Z.ltb_spec 0 (p_delta P)); [reflexivity|lia]. }
    destruct (ch_reg _ _ HC x a0 Ha0) as (t' & Et' & Hft & _). assert (t' = t) as -> by congruence.
    assert (forall f, sget (put_flag (put_var s1 x (VAR x)) x t f) x = Some (set_flag t f)) as Hpf.
    { intros f. rewrite (sget_put_flag _ x t f x Ht'), decide_True; auto. }
    assert (forall f z, z <> x -> sget (put_flag (put_var s1 x (VAR x)) x t f) z = sget s1 z /\
      s_var (put_flag (put_var s1 x (VAR x)) x t f) z = s_var s1 z) as Hpo.
    { intros f z Hz. rewrite (sget_put_flag _ x t f z Ht'), decide_False by auto. split; auto.
      cbn [put_flag put_var s_var]. by rewrite fn_lookup_insert_ne. }
    assert (OK1 x = false -> exists s' total' lvl',
      Some (put_flag (put_var s1 x (VAR x)) x t 1, sum_list (counts s vs), counts s vs) = Some (s', total', lvl') /\
      sinv (vs ++ [x]) s' total' lvl') as Hbad.
    { intros E. eexists _, _, _. split; [reflexivity|]. pose proof (Hfin s1 (put_flag (put_var s1 x (VAR x)) x t 1) HC) as HF. rewrite E in HF.
      apply HF; auto.
      - apply (sim_fset F0 _ x t); auto. apply HC.
      - exists (set_flag t 1). rewrite Hpf. split; auto. }
    destruct (fgt (VAR x) (p_stable P)) eqn:Ev; cbn [orb andb] in *.
    { by apply Hbad. }
    destruct (bad_limits P (size0 x) (RP x)) eqn:Eb; cbn [negb] in *; [by apply Hbad|].
    eexists _, _, _. split; [reflexivity|].
    pose proof (Hfin s1 (put_var s1 x (VAR x)) HC) as HF. rewrite EOK in HF. apply HF.
    + apply HC.
    + intros z Hz. split; auto. unfold put_var. cbn [s_var]. by rewrite fn_lookup_insert_ne.
    + exists t. split; auto. split; auto. split; [congruence|]. auto.
  - rewrite Ha0. cbn [andb]. destruct (sim_live F0 H0 _ x HS Hx) as (a' & Et & Hf3 & Hg & Hs & _ & _ & _ & Hn).
    assert (a' = a0) as -> by (unfold sget in Ha0; congruence). rewrite Hs.
    assert (bad_limits P (size0 x) (g_par a0) = bad_limits P (size0 x) (RP x)) as ->.
    { unfold bad_limits. f_equal. destruct Hn as [Hn1 Hn2]. clear - Hn1 Hn2.
      destruct (g_par a0), (RP x); auto; [specialize (Hn2 eq_refl)|specialize (Hn1 eq_refl)]; done. }
    assert (OK1 x = negb (bad_limits P (size0 x) (RP x))) as EOK.
    { unfold OK1. destruct (Z.ltb_spec 0 (p_delta P)); [lia|reflexivity]. }
    destruct (bad_limits P (size0 x) (RP x)) eqn:Eb; cbn [negb] in *.
    + eexists _, _, _. split; [reflexivity|]. pose proof (Hfin s (put_flag s x a0 1) (chg_refl s HS)) as HF. rewrite EOK in HF.
      apply HF; clear HF.
      * apply (sim_fset F0 _ x a0); auto.
      * intros z Hz. rewrite (sget_put_flag s x a0 1 z Ha0), decide_False by auto. auto.
      * exists (set_flag a0 1). rewrite (sget_put_flag s x a0 1 x Ha0), decide_True by auto. split; auto. split; auto.
        split; auto. split; [intros [?|?]; [lia|congruence]|lia].
    + destruct (gsrp_ok fuel s x Hfuel HS Hx) as (F' & -> & HC & a1 & Ha1 & Hp1). rewrite Hg.
      eexists _, _, _. split; [reflexivity|]. pose proof (Hfin _ (RSt F' (s_var s) (s_calc s)) HC) as HF. rewrite EOK in HF.
      apply HF; clear HF; auto.
      * apply HC.
      * destruct (ch_reg _ _ HC x a0 Ha0) as (b & Hb & Hfb & Hgb & _). unfold sget in Hb. cbn [s_F] in Hb.
        assert (b = a1) as -> by congruence. exists a1. split; auto. split; [congruence|]. split; [congruence|]. split; auto. lia.
Qed.

Lemma serial_base_ok fuel s : nregs F0 < fuel -> s_F s = F0 ->
  exists s' total lvl, each (serial_base fuel P) allvis (s, 0, lvl0) = Some (s', total, lvl) /\ sinv allvis s' total lvl.
Proof.
  intros Hfuel HF.
  destruct (each_inv (serial_base fuel P) allvis (fun vs t => let '(s, total, lvl) := t in sinv vs s total lvl) (s, 0, lvl0))
    as ([[s' total] lvl] & E & HI).
  - constructor; auto.
    + rewrite HF. apply sim_start.
    + intros z _ Hz. by apply elem_of_nil in Hz.
    + intros [i j] (a & Ha & Hf) _. exists a. unfold sget. rewrite HF. split; auto.
      destruct (rs_reg _ H0 i j a Ha) as (_ & _ & [?|?]); done.
  - intros pre x suf [[t total] lvl] El HI. destruct (fget_split F0 pre x suf El) as (Hx0 & Hxp & _ & _).
    destruct (sinv_step fuel pre t total lvl x) as (s' & total' & lvl' & E' & HI'); auto.
    { intros z Hz. apply elem_allvis. rewrite El, elem_of_app. auto. }
    exists (s', total', lvl'). auto.
  - exists s', total, lvl. auto.
Qed.

(* ---------- suppression ---------- *)
Context (HVAR : forall x, live0 x -> fge (VAR x) fzero = has_var x).

Lemma serial_kill_ok xs s x z : sim (s_F s) -> regsok anyr xs s -> live0 z -> vic x = Some z ->
  exists s', serial_kill s (sum_list (counts s allvis)) (counts s allvis) z = Some (s', sum_list (counts s' allvis), counts s' allvis) /\
    sim (s_F s') /\ regsok anyr (xs ++ [x]) s'.
Proof.
  intros HS HR Hz Hv. destruct (HR z Hz I) as (c & Hc & Hcp & Hcv & Hcf). unfold serial_kill. rewrite Hc.
  destruct (sim_live F0 H0 _ z HS Hz) as (c' & Hc' & Hf3 & Hgr & _). assert (c' = c) as -> by (unfold sget in Hc; congruence).
  pose proof (gray_byte F0 H0 z Hz) as Hg.
  destruct (Nat.eqb_spec (g_flag c) 1) as [H1|H1].
  - exists s. split; auto. split; auto. apply regs_none; auto. intros y Hy _. rewrite FLAG_app. case_bool_decide as E; auto.
    assert (y = z) as -> by congruence. congruence.
  - assert (g_flag c = 0) as Hf0 by (destruct (FLAG_01 F0 P xs z); congruence).
    assert (lvl_dec (counts s allvis) (g_gray c) = Some (counts (put_flag s z c 1) allvis)) as Edec.
    { apply dec_ok; auto; [lia|apply allvis_NoDup|]. apply elem_allvis. destruct Hz as (? & -> & _). eauto. }
    rewrite Edec. rewrite (sum_dec _ _ _ Edec). exists (put_flag s z c 1). split; auto. split.
    { apply (sim_fset F0 _ z c); auto. }
    intros y Hy _. rewrite (sget_put_flag s z c 1 y Hc). rewrite FLAG_app. cbn [put_flag s_var].
    destruct (decide (y = z)) as [->|Hne].
    + exists (set_flag c 1). rewrite bool_decide_true by auto. auto.
    + destruct (HR y Hy I) as (b & Hb & Hbp & Hbv & Hbf). exists b. rewrite bool_decide_false; [auto|]. congruence.
Qed.

Lemma serial_nms_ok s total lvl : settled [] s total lvl -> fge (p_nms P) fzero = true ->
  exists s' total' lvl', each (serial_nms P) allvis (s, total, lvl) = Some (s', total', lvl') /\ settled allvis s' total' lvl'.
Proof.
  intros HI Hn.
  destruct (each_inv (serial_nms P) allvis (fun vs t => let '(s, total, lvl) := t in settled vs s total lvl) (s, total, lvl))
    as ([[s' total'] lvl'] & E & HI').
  - done.
  - intros pre x suf [[t tot] lv1] El [HS HR -> ->]. destruct (fget_split F0 pre x suf El) as (Hx0 & _ & _ & _).
    assert (vic x = None -> exists s', Some (t, sum_list (counts t allvis), counts t allvis) = Some s' /\
      let '(s, total, lvl) := s' in settled (pre ++ [x]) s total lvl) as Hnone.
    { intros Hv. eexists (_, _, _). split; [reflexivity|]. constructor; auto. by apply regs_snoc. }
    assert (forall z, live0 z -> vic x = Some z -> exists s', serial_kill t (sum_list (counts t allvis)) (counts t allvis) z = Some s' /\
      let '(s, total, lvl) := s' in settled (pre ++ [x]) s total lvl) as Hkill.
    { intros z Hz Hv. destruct (serial_kill_ok pre t x z HS HR Hz Hv) as (t' & -> & S1 & S2).
      eexists (_, _, _). split; [reflexivity|]. by constructor. }
    unfold serial_nms. destruct (decide (lv F0 x = true)) as [Hx%lv_live|Hx].
    2: { rewrite lv_live in Hx. destruct (dead_get F0 _ x HS Hx0 Hx) as (a & Ha & Hf). fold (sget t x) in Ha. rewrite Ha, Hf.
      cbn [Nat.eqb]. apply Hnone. by apply vic_dead. }
    destruct (HR x Hx I) as (a & Ha & Hap & Hav & Haf).
    destruct (sim_live F0 H0 _ x HS Hx) as (a' & Ha' & Hf3 & Hgr & _). assert (a' = a) as -> by (unfold sget in Ha; congruence).
    rewrite Ha, Hap, Hav, (HVAR x Hx), Hgr. destruct (Nat.eqb_spec (g_flag a) 3) as [|_]; [done|].
    destruct (RP x) as [y|] eqn:Ey.
    2: { assert (vic x = None) as Hv by (unfold RecogWorkers.vic; by rewrite Ey). destruct (negb (has_var x)); auto. }
    destruct (has_var x) eqn:Ehx; cbn [negb].
    2: { apply Hnone. unfold RecogWorkers.vic. rewrite Ey, Ehx, andb_false_r. done. }
    destruct (live0_RP F0 H0 x y Hx Ey) as [Hy _]. destruct (HR y Hy I) as (b & Hb & Hbp & Hbv & Hbf).
    destruct (sim_live F0 H0 _ y HS Hy) as (b' & Hb' & _ & Hbg & _). assert (b' = b) as -> by (unfold sget in Hb; congruence).
    rewrite Hb, Hbv, (HVAR y Hy), Hbg. destruct (has_var y && (gray0 y =? gray0 x + 1)) eqn:Ec.
    2: { apply Hnone. unfold RecogWorkers.vic. rewrite Ey, Ehx, Hn, (proj2 (lv_live F0 x) Hx). cbn [andb]. by rewrite Ec. }
    assert (vic x = if fgt (var_diff (VAR y) (VAR x)) (f64_of_f32 (p_nms P)) then Some y
        else if fgt (SFopp (var_diff (VAR y) (VAR x))) (f64_of_f32 (p_nms P)) then Some x else None) as Ev.
    { unfold RecogWorkers.vic. rewrite Ey, Ehx, Hn, (proj2 (lv_live F0 x) Hx). cbn [andb]. by rewrite Ec. }
    destruct (fgt (var_diff _ _) _); [by apply Hkill|]. destruct (fgt (SFopp _) _); [by apply Hkill|by apply Hnone].
  - exists s', total', lvl'. auto.
Qed.
End serial.
