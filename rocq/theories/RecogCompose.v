(* The stages of recognition put together, for the three versions. *)
From stdpp Require Import sorting relations functions list_numbers list.
From Coq Require Import NArith ZArith SpecFloat.
From Verif Require Import Spec TreeSpec TreeFacts JoinMath FloodModel ConnectModel ConnectProof JoinCorrect FloatModel FloatFacts
  RecogModel RecogSpec RecogStatic RecogWorkers RecogSched RecogNms RecogSerial RecogOrder DupAbs RecogDup GrowthFacts RecogTree.
Local Open Scope nat_scope.

Lemma flat_length {A B} (f : A -> list B) l : length (flat_map f l) = sum_list ((fun x => length (f x)) <$> l).
Proof. induction l as [|x l IH]; cbn; auto. rewrite app_length, IH. done. Qed.

(* the candidates in the order of the counting sort *)
Definition CL (F0 : forest) (fl : rref -> nat) : list rref :=
  concat ((fun g => List.filter (fun z => lv F0 z && (fl z =? 0) && (gray0 F0 z =? g)) (allvis F0)) <$> seq 0 256).

Lemma all_length F0 : length (allvis F0) = nregs F0.
Proof.
  unfold allvis, nregs. rewrite flat_length. f_equal.
  apply list_eq_same_length with (n := length F0); [by rewrite fmap_length|by rewrite fmap_length, seq_length|].
  intros i x y Hi Hx Hy. rewrite list_lookup_fmap, lookup_seq_lt in Hx by auto. cbn in Hx. injection Hx as <-.
  rewrite list_lookup_fmap in Hy. unfold len0. destruct (F0 !! i) as [l|] eqn:E; [|done]. cbn in Hy. injection Hy as <-.
  unfold vis. by rewrite fmap_length, seq_length.
Qed.

Section compose.
Context (V : view) (lab : nat -> rref) (F0 : forest) (HI : recog_input V lab F0) (P : rparam).
Notation RP := (RP F0). Notation gray0 := (gray0 F0). Notation size0 := (size0 F0). Notation live0 := (live0 F0).
Notation VAR := (VAR F0 P). Notation BASE := (BASE F0 P). Notation has_var := (has_var F0 P).
Notation allvis := (allvis F0). Notation FLAG := (FLAG F0 P allvis). Notation LIM := (LIM F0 P).
Notation flagged := (flagged F0 P). Notation CL := (CL F0).
Let H0 := input_start V lab F0 HI.
Let HVAR := var_defined V lab F0 HI P.

Definition clt (x y : rref) : Prop := gray0 x < gray0 y \/ (gray0 x = gray0 y /\ rlt x y).
Lemma elem_CL fl z : z ∈ CL fl <-> live0 z /\ fl z = 0.
Proof.
  unfold RecogCompose.CL. rewrite elem_of_list_In, in_concat. split.
  - intros (l & Hl & Hz). apply elem_of_list_In, elem_of_list_fmap in Hl as (g & -> & _).
    apply filter_In in Hz as [_ Hz]. apply andb_true_iff in Hz as [Hz _]. apply andb_true_iff in Hz as [Hz1 Hz2].
    split; [by apply lv_live|by apply Nat.eqb_eq].
  - intros [Hl Hf]. exists (List.filter (fun z' => lv F0 z' && (fl z' =? 0) && (gray0 z' =? gray0 z)) allvis). split.
    + apply elem_of_list_In, elem_of_list_fmap. exists (gray0 z). split; auto. apply elem_of_seq.
      pose proof (gray_byte F0 H0 z Hl). lia.
    + apply filter_In. split; [apply elem_of_list_In, elem_allvis; destruct Hl as (a & -> & _); eauto|].
      apply andb_true_iff. split; [apply andb_true_iff; split; [by apply lv_live|by apply Nat.eqb_eq]|apply Nat.eqb_refl].
Qed.
Lemma CL_sorted fl : StronglySorted clt (CL fl).
Proof.
  clear. pose proof (allvis_sorted F0) as Hl. set (f h z := lv F0 z && (fl z =? 0) && (gray0 z =? h)).
  assert (forall n g, StronglySorted clt (concat ((fun h => List.filter (f h) allvis) <$> seq g n))) as H; [|apply (H 256 0)].
  induction n as [|n IH]; intros g; cbn [seq fmap list_fmap concat]; [constructor|].
  assert (forall h x, x ∈ List.filter (f h) allvis -> gray0 x = h) as Hin.
  { intros h x Hx. apply elem_of_list_In, filter_In in Hx as [_ Hx]. by apply andb_true_iff in Hx as [_ Hx%Nat.eqb_eq]. }
  apply sorted_app; [|apply IH|].
  - pose proof (sorted_filter rlt (f g) allvis Hl) as Hs. pose proof (Hin g) as Hg.
    induction Hs as [|x k Hk IHk Hx]; constructor.
    + apply IHk. intros y Hy. apply Hg. by apply elem_of_list_further.
    + rewrite Forall_forall in Hx |- *. intros y Hy. right. split; auto.
      rewrite (Hg x), (Hg y); auto; [by apply elem_of_list_further|by apply elem_of_list_here].
  - intros x y Hx Hy. apply elem_of_list_In, in_concat in Hy as (k & Hk & Hy).
    apply elem_of_list_In, elem_of_list_fmap in Hk as (h & -> & Hh%elem_of_seq). apply elem_of_list_In in Hy.
    left. rewrite (Hin g x Hx), (Hin h y Hy). lia.
Qed.
Lemma CL_NoDup fl : NoDup (CL fl).
Proof.
  clear. pose proof (CL_sorted fl) as Hs. induction Hs as [|x k Hk IH Hx]; constructor; auto.
  intros Hin. rewrite Forall_forall in Hx. destruct (Hx x Hin) as [?|[_ Hlt]]; [lia|]. unfold rlt in Hlt. lia.
Qed.
Lemma CL_gray fl : StronglySorted (fun x y => gray0 x <= gray0 y) (CL fl).
Proof.
  clear. pose proof (CL_sorted fl) as Hs. induction Hs as [|x k Hk IH Hx]; constructor; auto.
  rewrite Forall_forall in Hx |- *. intros y Hy. destruct (Hx y Hy) as [?|[? _]]; lia.
Qed.
Lemma CL_len fl : length (CL fl) <= nregs F0.
Proof.
  rewrite <- all_length. apply submseteq_length, NoDup_submseteq; [apply CL_NoDup|]. intros x Hx. apply elem_CL in Hx as [(a & Ha & _) _].
  apply elem_allvis. eauto.
Qed.
Lemma CL_small fl : (N.of_nat (length (CL fl)) * 5 < 2 ^ 32)%N.
Proof. pose proof (CL_len fl). destruct (ri_small _ _ _ HI) as (N & _ & H1 & H2). lia. Qed.
Lemma CL_ext fl fl' : (forall z, live0 z -> fl z = fl' z) -> CL fl = CL fl'.
Proof.
  clear. intros H. unfold RecogCompose.CL. f_equal. apply list_fmap_ext. intros i g _. apply filter_same. intros z _.
  destruct (lv F0 z) eqn:E; [|done]. apply lv_live in E. by rewrite (H z E).
Qed.

(* a state with the right flags *)
Lemma cands_CL fl s : flagged fl s -> sorted_cands s allvis = CL fl.
Proof.
  intros [Hs Hr]. unfold sorted_cands, RecogCompose.CL, lists. f_equal. apply list_fmap_ext. intros i g _.
  apply filter_same. intros z Hz. unfold unk. destruct (lv F0 z) eqn:E.
  - apply lv_live in E. destruct (Hr z E) as (a & Ha & Hf & _). rewrite Ha.
    destruct (sim_live F0 H0 (s_F s) z Hs E) as (a' & Ha' & _ & Hg & _).
    unfold sget in Ha. assert (a' = a) as -> by congruence. by rewrite Hf, Hg.
  - apply elem_allvis in Hz. assert (~ live0 z) as Hn by (intros ?%lv_live; congruence).
    destruct (dead_get F0 (s_F s) z Hs Hz Hn) as (a & Ha & Hf). unfold sget. by rewrite Ha, Hf.
Qed.
Lemma order_flagged fl s b : flagged fl s -> order_regions s b (counts s allvis) (length (CL fl)) =
  Some (CL fl, size_buffer b (length (CL fl))).
Proof.
  intros Hf. pose proof (fd_sim _ _ _ _ Hf) as Hs. rewrite <- (cands_CL fl s Hf).
  apply order_ok.
  - intros x Hx. apply elem_allvis in Hx as [a Ha]. destruct (sm_reg _ _ Hs x a Ha) as (a' & Ha' & _). unfold sget. eauto.
  - intros x a Ha. destruct (sim_get _ _ _ _ Hs Ha) as (a0 & Ha0 & E & _). rewrite E.
    destruct x as [k i]. by apply (rs_reg _ H0 k i a0).
  - apply all_refs_vis. apply Hs.
  - rewrite (cands_CL fl s Hf). apply CL_small.
Qed.
Lemma total_flagged fl s : flagged fl s -> sum_list (counts s allvis) = length (CL fl) /\ sum_list (take 256 (counts s allvis)) = length (CL fl).
Proof.
  intros Hf. pose proof (fd_sim _ _ _ _ Hf) as Hs. rewrite <- (cands_CL fl s Hf).
  assert (forall x a, sget s x = Some a -> g_gray a <= 255) as Hb.
  { intros x a Ha. destruct (sim_get _ _ _ _ Hs Ha) as (a0 & Ha0 & E & _). rewrite E. destruct x as [k i]. by apply (rs_reg _ H0 k i a0). }
  split; [by apply total_ok|by apply total4_ok].
Qed.

Lemma settled_flagged xs s total lvl : settled F0 P xs s total lvl -> flagged (RecogWorkers.FLAG F0 P xs) s /\
  forall z, live0 z -> s_var s z = VAR z.
Proof.
  intros [Hs Hr _ _]. split.
  - constructor; auto. intros z Hz. destruct (Hr z Hz I) as (a & Ha & Hp & _ & Hf). eauto.
  - intros z Hz. by destruct (Hr z Hz I) as (a & _ & _ & Hv & _).
Qed.

(* ---------- who survives ---------- *)
Lemma BASE_iff z : live0 z -> BASE z = true <-> in_limits P (tab F0) z /\ fgt (VAR z) (p_stable P) = false.
Proof.
  intros Hz. unfold RecogStatic.BASE. rewrite negb_true_iff, orb_false_iff.
  rewrite (Logic.and_comm (in_limits _ _ _)). apply and_iff_compat_l. destruct (live_get F0 z Hz) as (a & Ha & Hl & _ & Hs). unfold bad_limits.
  rewrite !orb_false_iff, !Z.ltb_ge. split.
  - intros [[H1 H2] H3]. exists a. split; auto. split; auto. split; [lia|].
    destruct (RP z) as [t|] eqn:E; [|done]. exists t. apply sparent_RP; auto.
  - intros (a' & Ha' & _ & H1 & t & Ht). assert (a' = a) as -> by congruence. apply sparent_RP in Ht as [_ Ht]; auto. rewrite Ht.
    split; [lia|done].
Qed.
Lemma neigh_iff z q : neighbours (tab F0) z q <->
  (live0 z /\ RP z = Some q /\ gray0 q = gray0 z + 1) \/ (live0 q /\ RP q = Some z /\ gray0 z = gray0 q + 1).
Proof.
  assert (forall x y, live0 x -> RP x = Some y -> exists a b, tab F0 x = Some a /\ tab F0 y = Some b /\
    v_gray a = gray0 x /\ v_gray b = gray0 y) as Hg.
  { intros x y Hx E. destruct (live0_RP F0 H0 x y Hx E) as [Hy _].
    destruct (live_get F0 x Hx) as (a & Ha & _ & Hga & _). destruct (live_get F0 y Hy) as (b & Hb & _ & Hgb & _).
    exists a, b. auto. }
  split.
  - intros (a & b & Ha & Hb & [[Hs Hgr]|[Hs Hgr]]); apply sparent_RP in Hs as [Hl E]; auto;
      destruct (Hg _ _ Hl E) as (a' & b' & Ha' & Hb' & G1 & G2); rewrite Ha in *; rewrite Hb in *; simplify_eq; [left|right];
      (split; auto; split; auto; lia).
  - intros [(Hl & E & Hgr)|(Hl & E & Hgr)]; destruct (Hg _ _ Hl E) as (a & b & Ha & Hb & G1 & G2).
    + exists a, b. split; auto. split; auto. left. split; [by apply sparent_RP|lia].
    + exists b, a. split; auto. split; auto. right. split; [by apply sparent_RP|lia].
Qed.
Lemma FLAG_survives z : live0 z -> FLAG z = 0 <-> survives P (tab F0) VAR z.
Proof.
  intros Hz. unfold RecogWorkers.FLAG. set (k := kills F0 P allvis z).
  assert (k = true <-> fge (p_nms P) fzero = true /\ exists q, neighbours (tab F0) z q /\ fge (VAR z) fzero = true /\
    fge (VAR q) fzero = true /\ worse_by (p_nms P) (VAR q) (VAR z)) as Hk.
  { unfold k. rewrite kills_iff. unfold vic, worse_by. split.
    - intros (x & _ & Hv). destruct (RP x) as [y|] eqn:E; [|done].
      destruct (lv F0 x && fge (p_nms P) fzero && has_var x && has_var y && (gray0 y =? gray0 x + 1)) eqn:C; [|done].
      apply andb_true_iff in C as [C C5%Nat.eqb_eq]. apply andb_true_iff in C as [C C4]. apply andb_true_iff in C as [C C3].
      apply andb_true_iff in C as [C1 C2]. apply lv_live in C1. split; auto. destruct (live0_RP F0 H0 x y C1 E) as [Hly _].
      rewrite <- (HVAR x C1) in C3. rewrite <- (HVAR y Hly) in C4.
      destruct (fgt (var_diff (VAR y) (VAR x)) (f64_of_f32 (p_nms P))) eqn:G.
      + injection Hv as <-. exists x. split; [|done]. apply neigh_iff. auto.
      + destruct (fgt (SFopp (var_diff (VAR y) (VAR x))) (f64_of_f32 (p_nms P))) eqn:G2; [|done]. injection Hv as <-.
        exists y. rewrite diff_opp in G2. split; [|done]. apply neigh_iff. auto.
    - intros (Hn & q & Hq & H1 & H2 & H3). apply neigh_iff in Hq as [(_ & E & Hg)|(Hl & E & Hg)].
      + destruct (live0_RP F0 H0 z q Hz E) as [Hq _]. exists z. split; [apply elem_allvis; destruct Hz as (a & -> & _); eauto|].
        rewrite E, Hn, <- (HVAR z Hz), <- (HVAR q Hq), H1, H2, (proj2 (lv_live F0 z) Hz). rewrite (proj2 (Nat.eqb_eq _ _) Hg). cbn [andb].
        rewrite (worse_exclusive _ _ _ Hn H3). by rewrite diff_opp, H3.
      + exists q. split; [apply elem_allvis; destruct Hl as (a & -> & _); eauto|].
        rewrite E, Hn, <- (HVAR z Hz), <- (HVAR q Hl), H1, H2, (proj2 (lv_live F0 q) Hl). rewrite (proj2 (Nat.eqb_eq _ _) Hg). cbn [andb].
        by rewrite H3. }
  unfold survives. pose proof (BASE_iff z Hz) as HB. destruct (BASE z).
  - destruct (proj1 HB eq_refl) as [B1 B2]. destruct k; cbn [andb negb].
    + split; [done|]. intros (_ & _ & Hn). exfalso. destruct (proj1 Hk eq_refl) as (N1 & q & N2 & N3 & N4 & N5). by apply (Hn N1 q).
    + split; [|done]. intros _. split; auto. split; auto. intros N1 q N2 N3 N4 N5. enough (false = true) by done. apply Hk. split; eauto.
  - cbn [andb]. split; [done|]. intros (B1 & B2 & _). enough (false = true) by done. apply HB. auto.
Qed.
Lemma FLAG_limits z : live0 z -> FLAG z = 0 -> (p_min P <= Z.of_nat (size0 z) <= p_max P)%Z.
Proof.
  intros Hz Hf. apply FLAG_survives in Hf as ((a & Ha & _ & Hs & _) & _); auto.
  destruct (live_get F0 z Hz) as (a' & Ha' & _ & _ & <-). by assert (a' = a) as -> by congruence.
Qed.

(* ---------- the three versions up to the candidates ---------- *)
Context (Hd : (- 2 ^ 31 <= p_delta P /\ p_delta P + 255 < 2 ^ 31)%Z).

(* what all versions reach *)
Definition at_cands (fl : rref -> nat) (s : rst) (b b' : cbuf) (l : list rref) : Prop :=
  flagged fl s /\ l = CL fl /\ b' = size_buffer b (length l).

Lemma cand_serial fuel b s0 : nregs F0 < fuel -> s_F s0 = F0 -> (0 < p_delta P)%Z ->
  exists s l b', candidates_serial fuel P b s0 = Some (s, l, b') /\ at_cands FLAG s b b' l /\ forall z, live0 z -> s_var s z = VAR z.
Proof.
  intros Hf E Hp. unfold candidates_serial. rewrite E, (all_refs_vis F0 F0 eq_refl).
  destruct (serial_base_ok F0 H0 P Hd fuel s0 Hf E) as (s1 & t1 & l1 & -> & HS).
  assert (settled F0 P [] s1 t1 l1) as Hst.
  { destruct HS as [S1 S2 _ S4 S5]. constructor; auto. intros z Hz _. destruct (S2 z Hz) as (a & Ha & Hfl & Hpar & Hv).
    { apply elem_allvis. destruct Hz as (a & -> & _); eauto. }
    exists a. split; auto. split; [auto|]. split; [auto|]. rewrite Hfl. unfold OK1. apply Z.ltb_lt in Hp. rewrite Hp.
    unfold RecogWorkers.FLAG. cbn. by rewrite andb_true_r. }
  assert (exists s2 t2 l2, (if (0 <? p_delta P)%Z && fge (p_nms P) fzero
             then each (serial_nms P) (all_refs (s_F (fst (fst (s1, t1, l1))))) (s1, t1, l1) else Some (s1, t1, l1)) = Some (s2, t2, l2) /\
    sim F0 (s_F s2) /\ flagged FLAG s2 /\ (forall z, live0 z -> s_var s2 z = VAR z) /\ l2 = counts s2 allvis /\ t2 = sum_list l2) as
    (s2 & t2 & l2 & -> & G1 & G2 & G3 & -> & ->).
  { rewrite (proj2 (Z.ltb_lt _ _) Hp). destruct (fge (p_nms P) fzero) eqn:En; cbn [andb].
    - cbn [fst]. rewrite (all_refs_vis F0 (s_F s1)) by apply Hst.
      destruct (serial_nms_ok F0 H0 P HVAR s1 t1 l1 Hst En) as (s2 & t2 & l2 & -> & Hst2).
      destruct (settled_flagged _ _ _ _ Hst2) as [F1 F2]. exists s2, t2, l2. destruct Hst2. auto 10.
    - destruct (settled_flagged _ _ _ _ Hst) as [F1 F2]. exists s1, t1, l1. destruct Hst. split; auto. split; auto. split; auto.
      eapply flagged_ext; [|exact F1]. intros z _. by apply no_nms. }
  destruct (total_flagged _ _ G2) as [-> _]. rewrite (order_flagged _ _ b G2).
  eexists _, _, _. split; [done|]. split; [|done]. split; auto.
Qed.

Lemma cand_serial0 fuel b s0 : nregs F0 < fuel -> s_F s0 = F0 -> (p_delta P <= 0)%Z ->
  exists s l b', candidates_serial fuel P b s0 = Some (s, l, b') /\ at_cands (fun z => if LIM z then 0 else 1) s b b' l.
Proof.
  intros Hf E Hp. unfold candidates_serial. rewrite E, (all_refs_vis F0 F0 eq_refl).
  destruct (serial_base_ok F0 H0 P Hd fuel s0 Hf E) as (s1 & t1 & l1 & -> & HS).
  apply Z.ltb_ge in Hp. rewrite Hp. cbn [andb]. destruct HS as [S1 S2 _ S4 S5].
  assert (flagged (fun z => if LIM z then 0 else 1) s1) as G.
  { constructor; auto. intros z Hz. destruct (S2 z Hz) as (a & Ha & Hfl & Hpar & _).
    { apply elem_allvis. destruct Hz as (a & -> & _); eauto. }
    unfold OK1 in Hfl, Hpar. rewrite Hp in Hfl, Hpar. exists a. split; auto. split; auto. intros Hlim.
    destruct (LIM z) eqn:El; [by apply Hpar; right|]. unfold RecogSerial.LIM, bad_limits in El. apply negb_false_iff in El.
    destruct (sim_live F0 H0 (s_F s1) z S1 Hz) as (a' & Ha' & _ & _ & _ & _ & _ & _ & Hnone). unfold sget in Ha.
    assert (a' = a) as -> by congruence. destruct (RP z) as [t|]; [|by apply Hnone].
    rewrite !orb_true_iff, !Z.ltb_lt in El. destruct El as [[?|?]|?]; [lia|lia|done]. }
  subst. destruct (total_flagged _ _ G) as [-> _]. rewrite (order_flagged _ _ b G).
  eexists _, _, _. split; [done|]. split; auto.
Qed.

Lemma cand_32 sched b s0 : s_F s0 = F0 -> length F0 = 32 -> (forall x, s_calc s0 x = false) -> complete F0 sched ->
  exists s l b', candidates_32 P sched b s0 = Some (s, l, b') /\ at_cands FLAG s b b' l /\ forall z, live0 z -> s_var s z = VAR z.
Proof.
  intros E H32 Hc Hs. unfold candidates_32. rewrite <- H32.
  destruct (wrun_ok F0 H0 P Hd HVAR false (replicate (length F0) 0) sched s0 (replicate (length F0) wst0)) as (s1 & ws & Hr & Hi & Hm).
  { by apply winv_start. } { split; [by rewrite replicate_length|done]. } { apply Hs. }
  rewrite Hr.
  assert (forall i w, ws !! i = Some w -> w_pc w = PDone) as Hdone by (eapply complete_done; eauto).
  rewrite (all_done_iff ws Hdone). cbn [negb].
  destruct (done_base F0 P s1 ws Hi Hdone) as [D1 D2].
  rewrite (all_refs_vis F0 (s_F s1)) by apply Hi.
  destruct (master_ok F0 H0 P HVAR s1) as (s2 & t2 & l2 & -> & Hst); auto; [apply Hi|].
  destruct (settled_flagged _ _ _ _ Hst) as [G1 G2]. destruct Hst as [_ _ -> ->].
  destruct (total_flagged _ _ G1) as [-> _]. rewrite (order_flagged _ _ b G1).
  eexists _, _, _. split; [done|]. split; [|done]. split; auto.
Qed.

Lemma cand_4 sched caps b s0 : s_F s0 = F0 -> length F0 = 4 -> (forall x, s_calc s0 x = false) -> complete F0 sched ->
  length caps = 4 -> (forall i c, caps !! i = Some c -> len0 F0 i <= c) ->
  exists s l b' caps', candidates_4 P sched caps b s0 = Some (s, l, b', caps') /\ at_cands FLAG s b b' l /\
    (forall z, live0 z -> s_var s z = VAR z) /\ (fge (p_nms P) fzero = true -> caps' = caps).
Proof.
  intros E H4 Hc Hs Hl Hcap. unfold candidates_4. replace (replicate 4 wst0) with (replicate (length F0) wst0) by (by rewrite H4).
  destruct (wrun_ok F0 H0 P Hd HVAR true caps sched s0 (replicate (length F0) wst0)) as (s1 & ws & Hr & Hi & Hm).
  { by apply winv_start. } { split; [by rewrite Hl|auto]. } { apply Hs. }
  rewrite Hr.
  assert (forall i w, ws !! i = Some w -> w_pc w = PDone) as Hdone by (eapply complete_done; eauto).
  rewrite (all_done_iff ws Hdone). cbn [negb].
  destruct (done_loop2 F0 P Hd s1 ws Hi Hdone) as (D1 & D2 & -> & D4 & D5 & D6).
  destruct (fge (p_nms P) fzero) eqn:En.
  - destruct (cross_ok F0 H0 P HVAR s1 (flat_map w_heap ws)) as (s2 & l2 & -> & Hst); auto; [apply Hi| |].
    { intros x Hx. destruct (D4 x Hx) as (? & _ & ?). auto. }
    destruct (settled_flagged _ _ _ _ Hst) as [G1 G2]. destruct Hst as [_ _ -> _].
    assert (flagged FLAG s2) as G3.
    { eapply flagged_ext; [|exact G1]. intros z Hz. apply cross_flag; auto. intros x Hx. by destruct (D4 x Hx). }
    destruct (total_flagged _ _ G3) as [_ ->]. rewrite (order_flagged _ _ b G3).
    eexists _, _, _, _. split; [done|]. split; [|done]. split; auto.
  - assert (flagged FLAG s1) as G3.
    { constructor; [apply Hi|]. intros z Hz. destruct (D1 z Hz I) as (a & Ha & Hp & _ & Hf). exists a. split; auto. split; auto.
      rewrite Hf. by apply no_nms. }
    destruct (total_flagged _ _ G3) as [_ ->]. rewrite (order_flagged _ _ b G3).
    eexists _, _, _, _. split; [done|]. split; [split; auto|]. split; [|done].
    intros z Hz. by destruct (D1 z Hz I) as (a & _ & _ & Hv & _).
Qed.
End compose.
