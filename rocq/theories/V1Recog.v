(* Recognition of Fast MSER V1 reports what recognition of V2 reports. *)
From stdpp Require Import sorting relations functions list_numbers list.
From Coq Require Import NArith ZArith SpecFloat.
From Verif Require Import Spec TreeSpec TreeFacts JoinMath FloodModel ConnectModel ConnectProof JoinCorrect FloatModel FloatFacts
  RecogModel RecogSpec RecogStatic RecogWorkers RecogSched RecogNms RecogSerial RecogOrder DupAbs RecogDup GrowthFacts RecogTree
  RecogCompose RecogFinal RecogTransport RecogResults V1JoinModel V1RecogModel.
Local Open Scope nat_scope.

(* SPEC: conditions of recognition with n partitions: the tree of a picture; delta does not
   overflow; the bound on loop iterations is large enough; the schedule lets every worker
   finish; the heap array has room for a pointer to each region *)
Record v1_ready (V : view) (lab : nat -> rref) (F : forest) (P : rparam) (fuel n : nat) (sched : list nat) (cap : nat)
  (s0 : rst) : Prop := {
  v1r_input : recog_input V lab F;
  v1r_delta : delta_ok P;
  v1r_fuel : nregs F < fuel;
  v1r_parts : length F = n;
  v1r_sched : complete F sched;
  v1r_cap : nregs F <= cap;
  v1r_F : s_F s0 = F;
  v1r_calc : forall x, s_calc s0 x = false
}.

(* two loops that agree on the states met *)
Lemma each_same {S : Type} (f g : S -> rref -> option S) l (I : list rref -> S -> Prop) s :
  I [] s -> (forall pre x suf s, l = pre ++ x :: suf -> I pre s ->
    f s x = g s x /\ exists s', g s x = Some s' /\ I (pre ++ [x]) s') ->
  each f l s = each g l s.
Proof.
  intros H1 H2. assert (forall suf pre s, l = pre ++ suf -> I pre s -> each f suf s = each g suf s) as H.
  { induction suf as [|x suf IH]; intros pre t El Ht; cbn [each]; [done|].
    destruct (H2 pre x suf t El Ht) as (-> & t' & -> & Ht'). apply (IH (pre ++ [x])); auto. by rewrite <-app_assoc. }
  apply (H l [] s); auto.
Qed.

Section cand.
Context (V : view) (lab : nat -> rref) (F0 : forest) (HI : recog_input V lab F0) (P : rparam) (Hd : delta_ok P).
Notation RP := (RP F0). Notation gray0 := (gray0 F0). Notation size0 := (size0 F0). Notation live0 := (live0 F0).
Notation allvis := (allvis F0). Notation flagged := (flagged F0 P). Notation CL := (CL F0). Notation dp := (dp F0).
Notation FLAG := (RecogWorkers.FLAG F0 P allvis).
Notation big := (fun x => too_big P (size0 x)). Notation near := (nearf P).
Notation arun := (arun RP size0 big near (NN F0)).
Notation anc := (rtc (up RP)). Notation sanc := (tc (up RP)).
Let H0 := input_start V lab F0 HI.
Let Hsz := size_lt V lab F0 HI.
Let HVAR := var_defined V lab F0 HI P.

Lemma order_v1 fl s cap : flagged fl s -> nregs F0 <= cap -> v1_order s cap (counts s allvis) (length (CL fl)) = Some (CL fl).
Proof using All.
  intros Hf Hcap. pose proof (fd_sim _ _ _ _ Hf) as Hs. rewrite <- (cands_CL V lab F0 HI P fl s Hf). unfold v1_order.
  rewrite (all_refs_vis F0 (s_F s)) by apply Hs.
  destruct (scatter_ok s allvis) with (cap := cap) as (out & starts & -> & E).
  - intros x Hx. apply elem_allvis in Hx as [a Ha]. destruct (sm_reg _ _ Hs x a Ha) as (a' & Ha' & _). unfold sget. eauto.
  - intros x a Ha. destruct (sim_get _ _ _ _ Hs Ha) as (a0 & Ha0 & E & _). rewrite E.
    destruct x as [k i]. by apply (rs_reg _ H0 k i a0).
  - rewrite (cands_CL V lab F0 HI P fl s Hf). pose proof (CL_len V lab F0 HI P fl). lia.
  - rewrite E, written_some, Nat.eqb_refl. done.
Qed.

Lemma v1_cand n sched cap s0 : s_F s0 = F0 -> length F0 = n -> (forall x, s_calc s0 x = false) -> complete F0 sched -> nregs F0 <= cap ->
  exists s, v1_candidates n P sched cap s0 = Some (s, CL FLAG) /\ flagged FLAG s /\ forall z, live0 z -> s_var s z = VAR F0 P z.
Proof using All.
  intros E <- Hc Hs Hcap. unfold v1_candidates.
  destruct (wrun_ok F0 H0 P Hd HVAR false (replicate (length F0) 0) sched s0 (replicate (length F0) wst0)) as (s1 & ws & Hr & Hi & Hm).
  { by apply winv_start. } { split; [by rewrite replicate_length|done]. } { apply Hs. }
  rewrite Hr.
  assert (forall i w, ws !! i = Some w -> w_pc w = PDone) as Hdone by (eapply complete_done; eauto).
  rewrite (all_done_iff ws Hdone). cbn [negb].
  destruct (done_base F0 P s1 ws Hi Hdone) as [D1 D2].
  rewrite (all_refs_vis F0 (s_F s1)) by apply Hi.
  destruct (master_ok F0 H0 P HVAR s1) as (s2 & t2 & l2 & -> & Hst); auto; [apply Hi|].
  destruct (settled_flagged F0 P _ _ _ _ Hst) as [G1 G2]. destruct Hst as [_ _ -> ->].
  destruct (total_flagged V lab F0 HI P _ _ G1) as [-> _]. rewrite (order_v1 _ _ cap G1 Hcap).
  exists s2. auto.
Qed.


(* ---------- duplicate removal ---------- *)
Lemma v1_get_dup_same fl s n st o : flagged fl s -> (forall z, live0 z -> fl z <= 2) ->
  (forall y, o = Some y -> live0 y /\ (p_min P <= Z.of_nat (size0 y))%Z) ->
  (forall y z, o = Some y -> anc y z -> fl z = 2 -> near st (size0 z) = false) ->
  v1_get_duplicated n P s st o = get_duplicated n P s st o.
Proof using All.
  intros HF Hfl. revert o. induction n as [|n IH]; intros o Ho Hv; [done|]. cbn [v1_get_duplicated get_duplicated].
  destruct o as [y|]; [|done]. destruct (Ho y eq_refl) as (Hy & Hmin).
  destruct (fd_reg _ _ _ _ HF y Hy) as (b & Hb & Hfb & Hpb). rewrite Hb.
  destruct (sim_live F0 H0 _ y (fd_sim _ _ _ _ HF) Hy) as (b' & Hb' & _ & _ & Hsb & _). unfold sget in Hb. assert (b' = b) as -> by congruence.
  rewrite Hsb. destruct (Z.ltb_spec (p_max P) (Z.of_nat (size0 y))) as [|Hle]; auto.
  destruct (fgt (f64_growth (size0 y) st) (f64_of_f32 (p_dup P))) eqn:En; auto.
  rewrite Hpb by lia. rewrite (IH (RP y)).
  - destruct (get_duplicated n P s st (RP y)) as [l|]; auto. rewrite Hfb. destruct (Nat.eqb_spec (fl y) 2) as [E2|]; [|done].
    exfalso. assert (near st (size0 y) = false) as Hc by (apply (Hv y y); auto; reflexivity). unfold nearf in Hc. by rewrite En in Hc.
  - intros z Hz. destruct (HLd F0 H0 Hsz y z Hy Hz) as (Hlz & ? & _ & _). split; auto. lia.
  - intros u z Hu Huz. apply (Hv y); auto. eapply rtc_l; [exact Hu|done].
Qed.

Lemma v1_dedup_one_same fuel fl s count x : nregs F0 < fuel -> flagged fl s -> (forall z, live0 z -> fl z <= 2) -> live0 x ->
  (p_min P <= Z.of_nat (size0 x) <= p_max P)%Z ->
  (forall a b, live0 a -> fl a = 0 -> fl b = 2 -> sanc a b -> near (size0 a) (size0 b) = false) ->
  v1_dedup_one fuel P (s, count) x = dedup_one fuel P (s, count) x.
Proof using All.
  intros Hfuel HF Hfl Hx Hlim Huv. destruct (fd_reg _ _ _ _ HF x Hx) as (a & Ha & Hfa & Hpa). unfold v1_dedup_one, dedup_one. rewrite Ha, Hfa.
  destruct (Nat.eqb_spec (fl x) 0) as [Hf|Hf]; cbn [negb]; [|done].
  assert (big x = false) as Hb. { unfold too_big. apply Z.ltb_ge. lia. }
  pose proof (Hmono V lab F0 HI P) as Hmono.
  destruct (adup_spec RP size0 gray0 big near (NN F0) live0 (fun x => dp (Some x)) (HLd F0 H0 Hsz) (HNd F0 H0)
    (Hbigd F0 P) Hmono fl x Hx Hf Hb) as [D1 D2].
  assert (forall z, live0 z -> (p_min P <= Z.of_nat (size0 z))%Z -> forall y, RP z = Some y ->
    live0 y /\ (p_min P <= Z.of_nat (size0 y))%Z /\ dp (Some y) < fuel /\ dp (Some y) <= NN F0) as Hpre.
  { intros z Hz Hm y Hy. destruct (HLd F0 H0 Hsz z y Hz Hy) as (Hly & ? & _ & _). pose proof (HNd F0 H0 y Hly). unfold NN in *. split; auto. lia. }
  destruct (sim_live F0 H0 _ x (fd_sim _ _ _ _ HF) Hx) as (a' & Ha' & _ & _ & Hsa & _). unfold sget in Ha. assert (a' = a) as -> by congruence.
  assert (forall z u, live0 z -> fl z = 0 -> RP z = Some u -> forall w, anc u w -> fl w = 2 -> near (size0 z) (size0 w) = false) as Hup.
  { intros z u Hz Hfz Hu w Hw H2. apply Huv; auto. eapply tc_rtc_r; [apply tc_once; exact Hu|exact Hw]. }
  rewrite Hsa, Hpa by auto. rewrite (v1_get_dup_same fl s fuel (size0 x) (RP x)); auto.
  2: { intros y Hy. destruct (Hpre x Hx) with (y := y) as (? & ? & _); auto; lia. }
  2: { intros y z Hy Hyz H2. by apply (Hup x y). }
  rewrite (get_dup_ok F0 H0 P Hsz fl s fuel (size0 x) (RP x) (NN F0)) by (auto; try lia; apply Hpre; auto; lia).
  cbv zeta. change (x :: awalk RP size0 big near (NN F0) fl (size0 x) (RP x)) with (adup RP size0 big near (NN F0) fl x).
  set (A := adup RP size0 big near (NN F0) fl x) in *.
  destruct (0 <? length A / 2) eqn:Em; [|done].
  destruct (A !! (length A / 2)) as [m|] eqn:Ek; [|done]. destruct (last A) as [e|] eqn:Ee; [|done].
  assert (forall z, z ∈ A -> live0 z /\ fl z = 0 /\ (p_min P <= Z.of_nat (size0 z) <= p_max P)%Z /\ anc x z) as Hdl.
  { intros z [->|(Hs & H2 & H3 & _)]%D1; [split_and!; auto; try lia; reflexivity|].
    destruct (sanc_lt RP size0 gray0 live0 (fun x => dp (Some x)) (HLd F0 H0 Hsz) x z Hx Hs) as (? & ? & _).
    apply Z.ltb_ge in H3. split_and!; auto; try lia. by apply tc_rtc. }
  pose proof (elem_of_list_lookup_2 _ _ _ Ek) as Hkin.
  assert (e ∈ A) as Hein by (by apply last_Some_elem_of).
  destruct (Hdl m Hkin) as (Lm & Fm & _ & Am). destruct (Hdl e Hein) as (Le & Fe & Mle & Ae).
  destruct (sim_live F0 H0 _ _ (fd_sim _ _ _ _ HF) Lm) as (ck & Hck & _ & _ & Hsk & _). unfold sget. rewrite Hck.
  destruct (fd_reg _ _ _ _ HF e Le) as (ce & Hce & _ & Hpe). unfold sget in Hce. rewrite Hce, Hsk, Hpe by auto.
  rewrite (v1_get_dup_same fl s fuel (size0 m) (RP e)); auto.
  - intros y Hy. destruct (Hpre e Le) with (y := y) as (? & ? & _); auto; lia.
  - intros y z Hy Hyz H2. apply Huv; auto.
    assert (anc m e) as Hme.
    { assert (forall (l : list rref) i u w, StronglySorted sanc l -> l !! i = Some u -> last l = Some w -> anc u w) as HL.
      { clear. induction l as [|v l IH]; intros i u w Hs Hi Hw; [done|]. inversion Hs as [|? ? Hs' Hall]; subst.
        destruct i as [|i].
        - injection Hi as ->. rewrite last_cons in Hw. destruct (last l) as [w'|] eqn:E.
          + injection Hw as ->. rewrite Forall_forall in Hall. apply tc_rtc, Hall. by apply last_Some_elem_of.
          + injection Hw as ->. reflexivity.
        - cbn in Hi. apply (IH i u w Hs' Hi). destruct l as [|v2 l]; [done|]. exact Hw. }
      by apply (HL A (length A / 2)). }
    eapply tc_rtc_l; [exact Hme|]. eapply tc_rtc_r; [apply tc_once; exact Hy|exact Hyz].
Qed.


Notation astep := (astep RP size0 big near (NN F0)).

Lemma v1_dedup_same fuel s : below1 (p_dup P) -> nregs F0 < fuel -> flagged FLAG s ->
  exists s', dedup fuel P s (CL FLAG) = Some (s', List.filter (fun z => keep F0 P FLAG z =? 2) (CL FLAG),
      length (List.filter (fun z => keep F0 P FLAG z =? 2) (CL FLAG))) /\
    v1_dedup fuel P s (CL FLAG) = Some (s', List.filter (fun z => keep F0 P FLAG z =? 2) (CL FLAG),
      length (List.filter (fun z => keep F0 P FLAG z =? 2) (CL FLAG))) /\
    flagged (keep F0 P FLAG) s'.
Proof using All.
  intros Hb1 Hfuel HF. set (l := CL FLAG).
  assert (forall z, FLAG z <= 1) as Hle1 by (intros z; destruct (FLAG_01 F0 P allvis z) as [->| ->]; lia).
  assert (forall z, z ∈ l <-> live0 z /\ FLAG z = 0) as Hl by (intros z; by apply (elem_CL V lab F0 HI P)).
  assert (forall z, live0 z -> FLAG z = 0 -> (p_min P <= Z.of_nat (size0 z) <= p_max P)%Z) as Hlim
    by (intros z; by apply (FLAG_limits V lab F0 HI P)).
  assert (forall z, z ∈ l -> big z = false) as Hbig.
  { intros z [Hz1 Hz2]%Hl. unfold too_big. apply Z.ltb_ge. by apply Hlim. }
  pose proof (Hmono V lab F0 HI P) as Hm.
  destruct (dedup_ok F0 H0 P Hsz Hm fuel FLAG s l) as (s' & E & HF'); auto.
  { apply (CL_NoDup F0). } { intros x [Hx1 Hx2]%Hl. auto. }
  exists s'. split; [exact E|]. split; [|exact HF'].
  assert (each (v1_dedup_one fuel P) l (s, 0) = each (dedup_one fuel P) l (s, 0)) as Ee.
  { apply (each_same _ _ l (fun pre t => flagged (foldl astep FLAG pre) (fst t) /\
      binv RP size0 near live0 FLAG (foldl astep FLAG pre) pre)).
    - cbn [foldl fst]. split; auto. constructor.
      + apply ainv_start. intros z. specialize (Hle1 z). lia.
      + intros a b Ha. specialize (Hle1 a). lia.
      + intros a b _ _ Hb. specialize (Hle1 b). lia.
    - intros pre x suf [s1 n1] El (I1 & I2). cbn [fst] in *. rewrite foldl_app. cbn [foldl].
      assert (x ∈ l) as Hxl by (rewrite El; apply elem_of_app; right; apply elem_of_list_here).
      destruct (proj1 (Hl x) Hxl) as [Hx Hfx]. set (fx := foldl astep FLAG pre) in *.
      assert (forall z, live0 z -> fx z <= 2) as Hle.
      { intros z _. apply (foldl_le F0 P). intros u. specialize (Hle1 u). lia. }
      split. { apply (v1_dedup_one_same fuel fx s1 n1 x); auto. apply I2. }
      destruct (dedup_one_ok F0 H0 P Hsz Hm fuel fx s1 n1 x Hfuel I1 Hle Hx (Hlim x Hx Hfx)) as (s2 & E2 & HF2).
      eexists. split; [exact E2|]. cbn [fst]. split; auto.
      apply (binv_step RP size0 gray0 big near (NN F0) live0 (fun z => dp (Some z))) with (l := l) (suf := suf); auto.
      + intros u w. apply (HLd F0 H0 Hsz). + intros u. apply (HNd F0 H0). + intros u w. apply (Hbigd F0 P).
      + intros u v w. by apply (RecogTree.dis_size V lab F0 HI). + by apply (Hhalf V lab F0 HI P). + apply CL_gray. }
  unfold v1_dedup. rewrite Ee. unfold dedup in E. destruct (each (dedup_one fuel P) l (s, 0)) as [[s1 n1]|]; [|done].
  injection E as -> E1 E2. cbv zeta. rewrite E1. rewrite E2.
  assert (forall (f : rref -> bool) k, length (List.filter f k) <= length k) as Hfl.
  { clear. intros f k. induction k as [|u k IH]; cbn; [lia|]. destruct (f u); cbn; lia. }
  rewrite (proj2 (Nat.leb_le _ _) (Hfl _ l)). by rewrite take_app.
Qed.
End cand.

(* ---------- results ---------- *)
Lemma v1_run V lab F P fuel n sched cap s0 : v1_ready V lab F P fuel n sched cap s0 -> below1 (p_dup P) ->
  exists s, v1_recognize fuel n P sched cap s0 =
      Some (s, reported F P (ThirtyTwo []), length (reported F P (ThirtyTwo []))) /\
    flagged F P (final F P (ThirtyTwo [])) s.
Proof.
  intros [HI Hd Hf Hn Hs Hcap E Hc] Hb. unfold v1_recognize.
  destruct (v1_cand V lab F HI P Hd n sched cap s0 E Hn Hc Hs Hcap) as (s1 & -> & G & _).
  unfold reported, final. cbn [flags]. destruct (fgt (p_dup P) fzero).
  - destruct (v1_dedup_same V lab F HI P Hd fuel s1 Hb Hf G) as (s' & _ & -> & H). eauto.
  - destruct (no_dedup_ok F P _ s1 (CL F (RecogWorkers.FLAG F P (allvis F))) G) as (s' & -> & H).
    { intros z Hz. by apply (elem_CL V lab F HI P) in Hz as [? _]. }
    exists s'. split; [|exact H].
    assert (forall (f : rref -> bool) l, (forall x, x ∈ l -> f x = true) -> List.filter f l = l) as Hall.
    { intros f l Hin. induction l as [|x l IHl]; auto. cbn. rewrite Hin by apply elem_of_list_here. f_equal. apply IHl.
      intros. apply Hin. by apply elem_of_list_further. }
    rewrite Hall; [done|]. intros x Hx. by rewrite decide_True.
Qed.

Lemma reported_same V lab F P m1 m2 : recog_input V lab F -> sane P -> below1 (p_dup P) -> reported F P m1 = reported F P m2.
Proof.
  intros HI Hs Hb. unfold reported.
  assert (CL F (flags F P m1) = CL F (flags F P m2)) as EC.
  { apply (CL_ext F). intros z Hz. apply (same_flags V lab lab F F HI HI P m1 m2 z z Hs). split; [done|]. split; done. }
  rewrite EC. apply filter_same. intros z Hz. pose proof Hz as Hz1. rewrite <-EC in Hz1.
  apply (elem_CL V lab F HI P) in Hz as [Lz Z2]. apply (elem_CL V lab F HI P) in Hz1 as [_ Z1].
  assert (forall m m', flags F P m z = 0 -> final F P m z = 2 -> final F P m' z = 2) as Hh.
  { intros m m' Hf H2. assert (z ∈ reported F P m) as Hr by (by apply (elem_reported V lab F HI P)).
    apply (same_reported V lab lab F F HI HI P m m' z z Hb Hs) in Hr; [|split; [done|split; done]].
    by apply (elem_reported V lab F HI P) in Hr as (_ & _ & ?). }
  destruct (Nat.eqb_spec (final F P m2 z) 2) as [E2|E2]; destruct (Nat.eqb_spec (final F P m1 z) 2) as [E1|E1]; auto; exfalso; eauto.
Qed.
