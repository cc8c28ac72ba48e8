(* The three versions of local suppression compute the same candidates. *)
From stdpp Require Import sorting relations functions list.
From Coq Require Import NArith ZArith SpecFloat.
From Verif Require Import Spec TreeSpec TreeFacts JoinMath FloodModel ConnectModel ConnectProof FloatModel FloatFacts
  RecogModel RecogSpec RecogStatic RecogWorkers RecogSched.
Local Open Scope nat_scope.

Lemma each_inv {S : Type} (f : S -> rref -> option S) l (I : list rref -> S -> Prop) s :
  I [] s -> (forall pre x suf s, l = pre ++ x :: suf -> I pre s -> exists s', f s x = Some s' /\ I (pre ++ [x]) s') ->
  exists s', each f l s = Some s' /\ I l s'.
Proof.
  intros H1 H2. assert (forall suf pre s, l = pre ++ suf -> I pre s -> exists s', each f suf s = Some s' /\ I l s') as H.
  { induction suf as [|x suf IH]; intros pre t El Ht; cbn [each].
    - exists t. rewrite app_nil_r in El. by subst.
    - destruct (H2 pre x suf t El Ht) as (t' & -> & Ht'). apply (IH (pre ++ [x])); auto. by rewrite <-app_assoc. }
  apply (H l [] s); auto.
Qed.

Lemma sum_inc l g : g < length l -> sum_list (lvl_inc l g) = S (sum_list l).
Proof.
  unfold lvl_inc. revert g. induction l as [|n l IH]; intros g Hg; cbn [length] in Hg; [lia|].
  destruct g as [|g]; [done|]. change (n + sum_list (alter S g l) = S (n + sum_list l)). rewrite IH by lia. lia.
Qed.
Lemma sum_dec l g l' : lvl_dec l g = Some l' -> sum_list l = S (sum_list l').
Proof.
  unfold lvl_dec. destruct (l !! g) as [[|n]|] eqn:E; try done. intros [= <-]. revert g E.
  induction l as [|m l IH]; intros g E; [done|]. destruct g as [|g].
  - injection E as ->. done.
  - change (m + sum_list l = S (m + sum_list (<[g:=n]> l))). rewrite (IH g E). lia.
Qed.

Section nms.
Context (F0 : forest) (H0 : rstart F0) (P : rparam).
Context (Hd : (- 2 ^ 31 <= p_delta P /\ p_delta P + 255 < 2 ^ 31)%Z).
Context (HVAR : forall x, live0 F0 x -> fge (VAR F0 P x) fzero = has_var F0 P x).
Notation RP := (RP F0). Notation gray0 := (gray0 F0). Notation size0 := (size0 F0). Notation live0 := (live0 F0).
Notation VAR := (VAR F0 P). Notation BASE := (BASE F0 P). Notation has_var := (has_var F0 P).
Notation FLAG := (FLAG F0 P). Notation vic := (vic F0 P). Notation regsok := (regsok F0 P). Notation calcok := (calcok F0).
Notation allvis := (allvis F0). Notation allinn := (allinn F0). Notation sim := (sim F0).

Lemma gray_byte z : live0 z -> gray0 z <= 255.
Proof.
  clear - H0. destruct z as [u v]. intros (a0 & E & _). unfold RecogStatic.gray0. rewrite E.
  by destruct (rs_reg _ H0 u v a0 E) as (_ & ? & _).
Qed.
Lemma vic_dead x : ~ live0 x -> vic x = None.
Proof.
  clear. intros Hn. unfold RecogWorkers.vic. destruct (lv F0 x) eqn:E; [by apply lv_live in E|].
  by destruct (RecogStatic.RP F0 x).
Qed.
Lemma regs_snoc xs s x : vic x = None -> regsok anyr xs s -> regsok anyr (xs ++ [x]) s.
Proof. intros Hv HR. apply regs_none; auto. intros. by apply FLAG_none. Qed.
Lemma fget_split pre x suf : allvis = pre ++ x :: suf -> is_Some (fget F0 x) /\ x ∉ pre /\ NoDup pre /\ NoDup (pre ++ [x]).
Proof.
  intros E. assert (x ∈ allvis) as Hx. { rewrite E, elem_of_app, elem_of_cons. auto. }
  apply elem_allvis in Hx. split; auto. pose proof (allvis_NoDup F0) as Hnd. rewrite E in Hnd.
  apply NoDup_app in Hnd as (N1 & N2 & N3). assert (x ∉ pre) as Hx'.
  { intros Hin. apply (N2 x Hin). apply elem_of_cons. auto. }
  split; auto. split; auto. apply NoDup_app. split; auto. split; [|apply NoDup_singleton].
  intros z Hz Hz'. apply elem_of_list_singleton in Hz' as ->. done.
Qed.

(* SPEC-side state after the suppression phase *)
Record settled (xs : list rref) (s : rst) (total : nat) (lvl : list nat) : Prop := {
  st_sim : sim (s_F s);
  st_regs : regsok anyr xs s;
  st_lvl : lvl = counts s allvis;
  st_total : total = sum_list lvl
}.

(* ---------- 32 partitions ---------- *)
Lemma master_ok s : sim (s_F s) -> regsok anyr [] s -> calcok anyr [] s ->
  exists s' total lvl, each (master_nms P) allvis (s, 0, lvl0) = Some (s', total, lvl) /\ settled allvis s' total lvl.
Proof.
  intros HS HR HC.
  destruct (each_inv (master_nms P) allvis (fun vs t => let '(s, total, lvl) := t in
      sim (s_F s) /\ regsok anyr vs s /\ calcok anyr vs s /\ lvl = counts s vs /\ total = sum_list lvl) (s, 0, lvl0))
    as ([[s' total] lvl] & E & S1 & S2 & S3 & S4 & S5).
  - split; auto.
  - intros pre x suf [[t total] lvl] El (HS' & HR' & HC' & -> & ->).
    destruct (fget_split pre x suf El) as (Hx0 & Hxp & Hnd & Hnd'). unfold master_nms.
    destruct (decide (lv F0 x = true)) as [Hx%lv_live|Hx].
    2: { rewrite lv_live in Hx. destruct (dead_get F0 _ x HS' Hx0 Hx) as (a & Ha & Hf). fold (sget t x) in Ha. rewrite Ha, Hf.
      cbn [Nat.eqb]. eexists (_, _, _). split; [reflexivity|]. split; auto.
      split; [apply regs_snoc; auto; by apply vic_dead|]. split.
      - intros z b Hz _ Hb Hb0. rewrite (HC' z b Hz I Hb Hb0), elem_of_app, elem_of_list_singleton. split; auto.
        intros [?| ->]; done.
      - rewrite counts_app, Ha, Hf. done. }
    destruct (HR' x Hx I) as (a & Ha & Hap & Hav & Haf).
    destruct (sim_live F0 H0 _ x HS' Hx) as (a' & Ha' & Hf3 & Hgr & Hsz & Hpt & _). fold (sget t x) in Ha'.
    assert (a' = a) as -> by congruence. clear Ha'. rewrite Ha, Hap.
    destruct (Nat.eqb_spec (g_flag a) 3) as [|_]; [done|]. pose proof (gray_byte x Hx) as Hgx.
    set (t1 := if g_flag a =? 0 then put_calc t x else t).
    set (lvl1 := if g_flag a =? 0 then lvl_inc (counts t pre) (g_gray a) else counts t pre).
    set (tot1 := if g_flag a =? 0 then S (sum_list (counts t pre)) else sum_list (counts t pre)).
    assert (forall z, sget t1 z = sget t z) as Ht1 by (intros z; unfold t1; by destruct (g_flag a =? 0)).
    assert (forall z, s_var t1 z = s_var t z) as Ht1v by (intros z; unfold t1; by destruct (g_flag a =? 0)).
    assert (sim (s_F t1)) as HS1 by (unfold t1; by destruct (g_flag a =? 0)).
    assert (regsok anyr pre t1) as M1. { intros z Hz Hdz. rewrite Ht1, Ht1v. by apply HR'. }
    assert (calcok anyr (pre ++ [x]) t1) as M2.
    { intros z c Hz _. rewrite Ht1. intros Hc Hc0. rewrite elem_of_app, elem_of_list_singleton.
      destruct (decide (z = x)) as [->|Hne].
      - split; auto. intros _. assert (c = a) as -> by congruence. unfold t1. rewrite Hc0. cbn [Nat.eqb put_calc s_calc].
        by rewrite fn_lookup_insert.
      - assert (s_calc t1 z = s_calc t z) as ->.
        { unfold t1. destruct (g_flag a =? 0); auto. unfold put_calc. cbn [s_calc]. by rewrite fn_lookup_insert_ne. }
        rewrite (HC' z c Hz I Hc Hc0). split; [auto|]. intros [?|?]; done. }
    assert (lvl1 = counts t1 (pre ++ [x])) as M3.
    { rewrite counts_app, Ht1, Ha. unfold lvl1. rewrite (counts_ext t t1 pre) by auto.
      destruct (g_flag a =? 0); cbn [andb]; auto. destruct (Nat.leb_spec (g_gray a) 256); auto. lia. }
    assert (tot1 = sum_list lvl1) as M4.
    { unfold tot1, lvl1. destruct (g_flag a =? 0); auto. rewrite sum_inc; auto. rewrite counts_length. lia. }
    assert ((forall z, live0 z -> FLAG (pre ++ [x]) z = FLAG pre z) -> g_flag a <> 0 ->
      exists s', Some (t, sum_list (counts t pre), counts t pre) = Some s' /\ let '(s, total, lvl) := s' in
      sim (s_F s) /\ regsok anyr (pre ++ [x]) s /\ calcok anyr (pre ++ [x]) s /\ lvl = counts s (pre ++ [x]) /\ total = sum_list lvl) as Hskip.
    { intros He Hne. eexists (_, _, _). split; [reflexivity|]. split; auto. split; [by apply regs_none; auto|]. split.
      - intros z b Hz _ Hb Hb0. rewrite (HC' z b Hz I Hb Hb0), elem_of_app, elem_of_list_singleton. split; auto.
        intros [?| ->]; auto. congruence.
      - rewrite counts_app, Ha. destruct (Nat.eqb_spec (g_flag a) 0); done. }
    destruct (RP x) as [y|] eqn:Ey.
    2: { assert (g_flag a = 1) as Hf1. { rewrite Haf. unfold RecogWorkers.FLAG. by rewrite (BASE_root F0 P x Ey). }
      rewrite Hf1 in Hskip |- *. cbn [Nat.eqb]. apply Hskip; auto. intros z _. apply FLAG_none. unfold RecogWorkers.vic. by rewrite Ey. }
    destruct (live0_RP F0 H0 x y Hx Ey) as [Hy Hgxy].
    destruct (HR' y Hy I) as (b & Hb & Hbp & Hbv & Hbf). rewrite Hb.
    destruct (sim_live F0 H0 _ y HS' Hy) as (b' & Hb' & _ & Hbgr & _). fold (sget t y) in Hb'.
    assert (b' = b) as -> by congruence. clear Hb'.
    destruct (negb (g_flag a =? 0) && (g_flag b =? 1)) eqn:Eskip.
    { apply andb_true_iff in Eskip as [E1%negb_true_iff%Nat.eqb_neq E2%Nat.eqb_eq]. apply Hskip; auto.
      intros z Hz. rewrite FLAG_app. case_bool_decide as Ev; auto. apply vic_cases in Ev as [->|Ev].
      - destruct (FLAG_01 F0 P pre x); congruence.
      - assert (z = y) as -> by congruence. congruence. }
    assert (vic x = None -> exists s', Some (t1, tot1, lvl1) = Some s' /\ let '(s, total, lvl) := s' in
      sim (s_F s) /\ regsok anyr (pre ++ [x]) s /\ calcok anyr (pre ++ [x]) s /\ lvl = counts s (pre ++ [x]) /\ total = sum_list lvl) as Hnone.
    { intros Ev. eexists (_, _, _). split; [reflexivity|]. split; auto. split; [by apply regs_snoc|]. auto. }
    rewrite Hav, Hbv, (HVAR x Hx), (HVAR y Hy), Hgr, Hbgr.
    destruct (fge (p_nms P) fzero && has_var x && has_var y && (gray0 y =? gray0 x + 1)) eqn:Econd.
    2: { apply Hnone. unfold RecogWorkers.vic. rewrite Ey, (proj2 (lv_live F0 x) Hx). cbn [andb]. by rewrite Econd. }
    assert (vic x = if fgt (var_diff (VAR y) (VAR x)) (f64_of_f32 (p_nms P)) then Some y
        else if fgt (SFopp (var_diff (VAR y) (VAR x))) (f64_of_f32 (p_nms P)) then Some x else None) as Ev.
    { unfold RecogWorkers.vic. rewrite Ey, (proj2 (lv_live F0 x) Hx). cbn [andb]. by rewrite Econd. }
    assert (forall z, live0 z -> vic x = Some z -> exists s',
      match sget t1 z with
      | Some c => if g_flag c =? 0 then
          if s_calc t1 z then
            match lvl_dec lvl1 (g_gray c), tot1 with
            | Some lvl', S total' => Some (put_flag t1 z c 1, total', lvl')
            | _, _ => None
            end
          else Some (put_flag t1 z c 1, tot1, lvl1)
        else Some (t1, tot1, lvl1)
      | None => None
      end = Some s' /\ let '(s, total, lvl) := s' in
      sim (s_F s) /\ regsok anyr (pre ++ [x]) s /\ calcok anyr (pre ++ [x]) s /\ lvl = counts s (pre ++ [x]) /\ total = sum_list lvl) as Hkill.
    { intros z Hz Hv. destruct (regs_kill F0 H0 P anyr (pre ++ [x]) pre t1 x z) as (s' & Hk & K1 & K2 & K3 & _); auto; [done|].
      rewrite <-M3 in Hk. unfold par_kill in Hk. destruct (sget t1 z) as [c|]; [|done]. destruct (g_flag c =? 0).
      - destruct (s_calc t1 z).
        + destruct (lvl_dec lvl1 (g_gray c)) as [lvl'|] eqn:Edec; [|done]. pose proof (sum_dec _ _ _ Edec) as Hsum.
          rewrite M4, Hsum. injection Hk as <- Hk. eexists (_, _, _). split; [reflexivity|]. auto.
        + injection Hk as <- Hk. eexists (_, _, _). split; [reflexivity|]. rewrite <-Hk. auto.
      - injection Hk as <- Hk. eexists (_, _, _). split; [reflexivity|]. rewrite <-Hk. auto. }
    destruct (fgt (var_diff _ _) _); [by apply Hkill|]. destruct (fgt (SFopp _) _); [by apply Hkill|by apply Hnone].
  - exists s', total, lvl. split; auto. constructor; auto.
Qed.

(* ---------- 4 partitions ---------- *)
Lemma cross_ok s heap : sim (s_F s) -> regsok anyr allinn s -> calcok anyr allvis s -> fge (p_nms P) fzero = true ->
  (forall x, x ∈ heap -> live0 x /\ exists y, RP x = Some y /\ gray0 y = gray0 x + 1) ->
  exists s' lvl, each (cross_nms P) heap (s, counts s allvis) = Some (s', lvl) /\
    settled (allinn ++ heap) s' (sum_list lvl) lvl.
Proof.
  intros HS HR HC Hn Hh.
  destruct (each_inv (cross_nms P) heap (fun vs t => let '(s, lvl) := t in
      sim (s_F s) /\ regsok anyr (allinn ++ vs) s /\ calcok anyr allvis s /\ lvl = counts s allvis) (s, counts s allvis))
    as ([s' lvl] & E & S1 & S2 & S3 & S4).
  - rewrite app_nil_r. auto.
  - intros pre x suf [t lvl] El (HS' & HR' & HC' & ->).
    destruct (Hh x) as (Hx & y & Ey & Hg). { rewrite El, elem_of_app, elem_of_cons. auto. }
    destruct (live0_RP F0 H0 x y Hx Ey) as [Hy Hgxy].
    destruct (HR' x Hx I) as (a & Ha & Hap & Hav & Haf). destruct (HR' y Hy I) as (b & Hb & Hbp & Hbv & Hbf).
    unfold cross_nms. rewrite Ha, Hap, Ey, Hb. rewrite app_assoc. set (xs := allinn ++ pre) in *.
    destruct ((g_flag a =? 1) && (g_flag b =? 1)) eqn:Eskip.
    { apply andb_true_iff in Eskip as [E1%Nat.eqb_eq E2%Nat.eqb_eq]. eexists (_, _). split; [reflexivity|]. split; auto.
      split; auto. apply regs_none; auto. intros z Hz _. rewrite FLAG_app. case_bool_decide as Ev; auto.
      apply vic_cases in Ev as [->|Ev]; [congruence|]. assert (z = y) as -> by congruence. congruence. }
    rewrite Hbv, (HVAR y Hy). destruct (has_var y) eqn:Ehy.
    + assert (has_var x = true) as Ehx by (by apply (has_var_child F0 H0 P x y)).
      destruct (regs_pair F0 H0 P anyr allvis xs t x y) as (t' & Hp & K0 & K1 & K2 & _); auto; try done.
      { apply allvis_NoDup. }
      { revert Hn. clear. unfold fge, fgt, SFleb, SFltb, SFcompare, fzero. destruct (p_nms P) as [[]|[]| |[]]; done. }
      rewrite Hp. eexists (_, _). split; [reflexivity|]. auto.
    + eexists (_, _). split; [reflexivity|]. split; auto. split; auto. apply regs_snoc; auto.
      unfold RecogWorkers.vic. rewrite Ey, Ehy, !andb_false_r. done.
  - exists s', lvl. split; auto. constructor; auto.
Qed.

Lemma no_nms xs z : fge (p_nms P) fzero = false -> FLAG xs z = FLAG allvis z.
Proof.
  intros Hn. apply FLAG_ext. assert (forall ys, kills F0 P ys z <> true) as H.
  { intros ys (x & _ & Hv)%kills_iff. unfold RecogWorkers.vic in Hv. destruct (RP x); [|done].
    by rewrite Hn, andb_false_r in Hv. }
  split; intros Hk; by apply H in Hk.
Qed.
Lemma vic_stored x z : vic x = Some z -> live0 x.
Proof. intros Hv. apply lv_live. destruct (lv F0 x) eqn:E; auto. rewrite vic_dead in Hv; [done|]. rewrite <-lv_live. congruence. Qed.
Lemma cross_flag heap z : live0 z ->
  (forall x, x ∈ heap -> live0 x) ->
  (forall x y, live0 x -> RP x = Some y -> inner F0 (fst x) x = false -> gray0 y = gray0 x + 1 ->
     x ∈ heap \/ (FLAG allinn x = 1 /\ BASE y = false)) ->
  FLAG (allinn ++ heap) z = FLAG allvis z.
Proof.
  intros Hz Hh Hall.
  assert (forall x, x ∈ allinn -> x ∈ allvis) as Hsub.
  { intros x Hx. unfold RecogSched.allinn in Hx. apply elem_of_list_In, in_flat_map in Hx as (i & Hi & Hx).
    unfold inn in Hx. apply filter_In in Hx as [Hx _]. unfold RecogSched.allvis. apply elem_of_list_In, in_flat_map. eauto. }
  destruct (FLAG_01 F0 P (allinn ++ heap) z) as [E|E]; rewrite E; symmetry.
  - unfold RecogWorkers.FLAG in E |- *. destruct (BASE z && negb (kills F0 P (allinn ++ heap) z)) eqn:Ek; [|done].
    apply andb_true_iff in Ek as [HBz Ek]. rewrite HBz. cbn [andb]. apply negb_true_iff in Ek.
    assert (kills F0 P allvis z = false) as ->; auto. apply not_true_iff_false. intros (x & Hx & Hv)%kills_iff.
    apply not_true_iff_false in Ek. apply Ek. apply kills_iff. pose proof (vic_stored x z Hv) as Hlx.
    destruct (inner F0 (fst x) x) eqn:Ein.
    + exists x. split; auto. apply elem_of_app. left. unfold RecogSched.allinn. apply elem_of_list_In, in_flat_map.
      exists (fst x). unfold RecogSched.allvis in Hx. apply elem_of_list_In, in_flat_map in Hx as (i & Hi & Hx).
      pose proof Hx as Hx'. apply elem_of_list_In, elem_vis in Hx' as [<- _]. split; auto. unfold inn. by apply filter_In.
    + destruct (RP x) as [y|] eqn:Ey; [|unfold RecogWorkers.vic in Hv; by rewrite Ey in Hv].
      assert (gray0 y = gray0 x + 1) as Hg.
      { unfold RecogWorkers.vic in Hv. rewrite Ey in Hv. destruct (Nat.eqb_spec (gray0 y) (gray0 x + 1)); auto.
        by rewrite andb_false_r in Hv. }
      destruct (Hall x y Hlx Ey Ein Hg) as [Hh'|[HF HB]].
      * exists x. split; auto. apply elem_of_app. auto.
      * exfalso. pose proof (vic_cases F0 P x z Hv) as [->|Hzy].
        -- unfold RecogWorkers.FLAG in HF. assert (kills F0 P allinn x = true) as Hk.
           { destruct (kills F0 P allinn x); auto. cbn [negb] in HF. rewrite andb_true_r in HF.
             by rewrite HBz in HF. }
           apply Ek. rewrite kills_app, Hk. done.
        -- congruence.
  - unfold RecogWorkers.FLAG in E |- *. destruct (BASE z); auto. cbn [andb] in *.
    destruct (kills F0 P (allinn ++ heap) z) eqn:Ek; [|done]. apply kills_iff in Ek as (x & Hx & Hv).
    assert (kills F0 P allvis z = true) as ->; auto. apply kills_iff. exists x. split; auto.
    apply elem_of_app in Hx as [Hx|Hx]; auto. apply elem_allvis. destruct (Hh x Hx) as (a & -> & _). eauto.
Qed.
End nms.
