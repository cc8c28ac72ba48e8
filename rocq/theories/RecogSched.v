(* Running the workers of recognition under any schedule. *)
From stdpp Require Import sorting relations functions list.
From Coq Require Import NArith ZArith SpecFloat.
From Verif Require Import Spec TreeSpec TreeFacts JoinMath FloodModel ConnectModel ConnectProof FloatModel FloatFacts
  RecogModel RecogSpec RecogStatic RecogWorkers.
Local Open Scope nat_scope.

(* SPEC: the number of times worker i moves in a schedule *)
Fixpoint moves (i : nat) (sched : list nat) : nat :=
  match sched with [] => 0 | j :: r => (if i =? j then 1 else 0) + moves i r end.
(* SPEC: a number of moves that lets the worker of a partition with n of the N regions finish *)
Definition enough (N n : nat) : nat := n * (3 * N + 9) + n + 3.
(* SPEC: a schedule of the workers of F that lets every worker finish: it names only
   existing workers, each of them often enough *)
Definition complete (F : forest) (sched : list nat) : Prop :=
  Forall (fun i => i < length F) sched /\
  forall i l, F !! i = Some l -> enough (nregs F) (length l) <= moves i sched.

Section sched.
Context (F0 : forest) (H0 : rstart F0) (P : rparam).
Context (Hd : (- 2 ^ 31 <= p_delta P /\ p_delta P + 255 < 2 ^ 31)%Z).
Context (HVAR : forall x, live0 F0 x -> fge (VAR F0 P x) fzero = has_var F0 P x).

Record winv (four : bool) (s : rst) (ws : list wst) : Prop := {
  wi_sim : sim F0 (s_F s);
  wi_len : length ws = length F0;
  wi_t : forall i w, ws !! i = Some w -> tinv F0 P four i s w
}.
Definition caps_ok (four : bool) (caps : list nat) : Prop :=
  length caps = length F0 /\ forall i c, caps !! i = Some c -> four = true -> len0 F0 i <= c.

Lemma wrun_ok four caps sched s ws : winv four s ws -> caps_ok four caps -> Forall (fun i => i < length F0) sched ->
  exists s' ws', wrun P four caps sched s ws = Some (s', ws') /\ winv four s' ws' /\
    forall i w w', ws !! i = Some w -> ws' !! i = Some w' -> msr F0 i w' <= msr F0 i w - moves i sched.
Proof.
  intros HI [Hcl Hc] Hs. revert s ws HI. induction Hs as [|i sched Hi Hs IH]; intros s ws HI.
  - exists s, ws. split; auto. split; auto. intros i w w' H1 H2. assert (w' = w) as -> by congruence. cbn. lia.
  - cbn [wrun]. destruct (lookup_lt_is_Some_2 ws i) as [w Ew]; [rewrite (wi_len _ _ _ HI); auto|].
    destruct (lookup_lt_is_Some_2 caps i) as [c Ec]; [lia|]. rewrite Ew, Ec.
    assert (exists s' w', wstep P four c i s w = Some (s', w') /\ sim F0 (s_F s') /\ tinv F0 P four i s' w' /\
      msr F0 i w' <= msr F0 i w - 1 /\ (forall j, j <> i -> agree j s s')) as (s1 & w1 & E1 & S1 & T1 & M1 & A1).
    { assert (w_pc w = PDone \/ w_pc w <> PDone) as [Epc|Epc] by (destruct (w_pc w); auto; right; done).
      - exists s, w. unfold wstep. rewrite Epc. split; [destruct w; cbn in *; congruence|]. split; [apply HI|].
        split; [by apply HI|]. split; [|intros; apply agree_refl]. unfold msr. rewrite Epc. lia.
      - destruct (wstep_ok F0 H0 P Hd HVAR four c i s w (wi_sim _ _ _ HI) (wi_t _ _ _ HI i w Ew) Hi (Hc i c Ec) Epc)
          as (s' & w' & ? & ? & ? & ? & ?).
        exists s', w'. split; auto. split; auto. split; auto. split; auto. lia. }
    rewrite E1. destruct (IH s1 (<[i:=w1]> ws)) as (s' & ws' & E' & I' & M').
    { constructor; auto.
      - rewrite insert_length. apply HI.
      - intros j v Hj. destruct (decide (j = i)) as [->|Hne].
        + rewrite list_lookup_insert in Hj; [by injection Hj as <-|]. rewrite (wi_len _ _ _ HI). auto.
        + rewrite list_lookup_insert_ne in Hj by auto. apply tinv_agree with s; auto. by apply HI. }
    exists s', ws'. split; auto. split; auto. intros j v v' Hj Hj'. cbn [moves].
    destruct (Nat.eqb_spec j i) as [->|Hne].
    + specialize (M' i w1 v'). assert (v = w) as -> by congruence.
      rewrite list_lookup_insert in M' by (rewrite (wi_len _ _ _ HI); auto). specialize (M' eq_refl Hj'). lia.
    + specialize (M' j v v'). rewrite list_lookup_insert_ne in M' by auto. specialize (M' Hj Hj'). lia.
Qed.

Lemma winv_start four s : s_F s = F0 -> (forall x, s_calc s x = false) -> winv four s (replicate (length F0) wst0).
Proof.
  intros HF HC. constructor.
  - rewrite HF. apply (sim_start F0).
  - apply replicate_length.
  - intros i w Hw. apply lookup_replicate in Hw as [-> Hi]. unfold tinv. cbn [wst0 w_pc]. split; [|lia].
    split; [intros j _ ?; lia|]. split; [|auto]. intros j (a & Ha & Hf) _. exists a. unfold sget. rewrite HF. split; auto.
    destruct (rs_reg _ H0 i j a Ha) as (_ & _ & [?|?]); done.
Qed.

Lemma complete_done sched four s0 s ws caps : s_F s0 = F0 -> complete F0 sched -> winv four s ws ->
  wrun P four caps sched s0 (replicate (length F0) wst0) = Some (s, ws) ->
  (forall i w w', replicate (length F0) wst0 !! i = Some w -> ws !! i = Some w' -> msr F0 i w' <= msr F0 i w - moves i sched) ->
  forall i w, ws !! i = Some w -> w_pc w = PDone.
Proof.
  intros HF [_ Hmv] HI _ HM i w Hw. assert (i < length F0) as Hi. { rewrite <-(wi_len _ _ _ HI). by eapply lookup_lt_Some. }
  specialize (HM i wst0 w). rewrite lookup_replicate_2 in HM by auto. specialize (HM eq_refl Hw).
  destruct (lookup_lt_is_Some_2 F0 i Hi) as [l El]. specialize (Hmv i l El).
  assert (msr F0 i wst0 = enough (nregs F0) (length l)) as Hms.
  { unfold msr, enough, C3, len0. cbn [wst0 w_pc]. rewrite El. rewrite Nat.sub_0_r. lia. }
  assert (msr F0 i w = 0) as H by lia. unfold msr in H. destruct (w_pc w); auto; exfalso; clear - H;
    repeat match type of H with context [?a * C3 ?b] => revert H; generalize (a * C3 b); intros ? H end; lia.
Qed.
Lemma all_done_iff ws : (forall i w, ws !! i = Some w -> w_pc w = PDone) -> all_done ws = true.
Proof.
  clear. intros H. unfold all_done. apply forallb_forall. intros w Hw. apply elem_of_list_In, elem_of_list_lookup in Hw as [i Hi].
  by rewrite (H i w Hi).
Qed.
Lemma done_all ws : all_done ws = true -> forall i w, ws !! i = Some w -> w_pc w = PDone.
Proof.
  clear. intros H i w Hi. unfold all_done in H. rewrite forallb_forall in H. specialize (H w).
  assert (In w ws) as Hin by (apply elem_of_list_In, elem_of_list_lookup; eauto). specialize (H Hin).
  by destruct (w_pc w).
Qed.

(* ---------- the state when all workers are done ---------- *)
Definition anyr (x : rref) : Prop := True.
Definition allvis : list rref := flat_map (fun i => vis i (len0 F0 i)) (seq 0 (length F0)).
Definition allinn : list rref := flat_map (fun i => inn F0 i (len0 F0 i)) (seq 0 (length F0)).

Lemma all_refs_vis F : length <$> F = length <$> F0 -> all_refs F = allvis.
Proof.
  clear. intros Hs. assert (length F = length F0) as Hl. { by rewrite <-(fmap_length length), Hs, fmap_length. }
  unfold all_refs, allvis. rewrite Hl. rewrite !flat_map_concat_map. f_equal. apply map_ext_in.
  intros i Hi%in_seq. unfold refs_of, vis, len0.
  assert (length <$> F !! i = length <$> F0 !! i) as E by (by rewrite <-!list_lookup_fmap, Hs).
  destruct (F !! i), (F0 !! i); simpl in E; congruence || done.
Qed.
Lemma elem_allvis x : x ∈ allvis <-> is_Some (fget F0 x).
Proof.
  clear. unfold allvis. rewrite elem_of_list_In, in_flat_map. destruct x as [i j]. rewrite (len0_get F0). split.
  - intros (k & _ & Hk). apply elem_of_list_In, elem_vis in Hk as [Hk1 Hk2]. cbn in *. by subst.
  - intros Hj. exists i. split.
    + apply in_seq. split; [lia|]. cbn. destruct (decide (i < length F0)); auto. unfold len0 in Hj.
      rewrite lookup_ge_None_2 in Hj by lia. lia.
    + by apply elem_of_list_In, elem_vis.
Qed.
Lemma allvis_NoDup : NoDup allvis.
Proof.
  clear. unfold allvis. generalize (length F0). intros n. generalize 0. induction n as [|n IH]; intros b; cbn; [constructor|].
  apply NoDup_app. split; [apply vis_NoDup|]. split; auto. intros x [Hx _]%elem_vis Hin.
  apply elem_of_list_In, in_flat_map in Hin as (k & Hk%in_seq & Hk2). apply elem_of_list_In, elem_vis in Hk2 as [? _]. lia.
Qed.

Lemma FLAG_ext xs ys z : (kills F0 P xs z = true <-> kills F0 P ys z = true) -> FLAG F0 P xs z = FLAG F0 P ys z.
Proof.
  clear. intros H. unfold FLAG. assert (kills F0 P xs z = kills F0 P ys z) as ->; auto.
  apply eq_bool_prop_intro. rewrite !Is_true_true. done.
Qed.

Lemma FLAG_allinn i j : live0 F0 (i, j) -> FLAG F0 P (inn F0 i (len0 F0 i)) (i, j) = FLAG F0 P allinn (i, j).
Proof.
  intros Hl. apply FLAG_ext. rewrite !kills_iff. split.
  - intros (x & Hx & Hv). exists x. split; auto. unfold allinn. apply elem_of_list_In, in_flat_map.
    exists i. split; [|by apply elem_of_list_In]. apply in_seq. split; [lia|]. cbn.
    apply live_len in Hl. unfold len0 in Hl. destruct (F0 !! i) eqn:E; [|lia]. by eapply lookup_lt_Some.
  - intros (x & Hx & Hv). exists x. split; auto. unfold allinn in Hx. apply elem_of_list_In, in_flat_map in Hx as (k & _ & Hk).
    assert (k = i) as ->; [|by apply elem_of_list_In]. unfold inn in Hk. apply filter_In in Hk as [Hk1 Hk2].
    apply elem_of_list_In, elem_vis in Hk1 as [Hk1 _]. unfold inner in Hk2.
    apply vic_cases in Hv as [Hv|Hv]; [rewrite <-Hv in Hk1; auto|]. rewrite Hv in Hk2. by apply Nat.eqb_eq in Hk2.
Qed.

Lemma done_base s ws : winv false s ws -> (forall i w, ws !! i = Some w -> w_pc w = PDone) ->
  regsok F0 P anyr [] s /\ calcok F0 anyr [] s.
Proof.
  intros HI HD. assert (forall i j, live0 F0 (i, j) -> exists w, base F0 P i (len0 F0 i) s w) as HB.
  { intros i j Hl. assert (i < length F0) as Hi.
    { apply live_len in Hl. unfold len0 in Hl. destruct (F0 !! i) eqn:E; [|lia]. by eapply lookup_lt_Some. }
    destruct (lookup_lt_is_Some_2 ws i) as [w Ew]; [by rewrite (wi_len _ _ _ HI)|]. exists w.
    pose proof (wi_t _ _ _ HI i w Ew) as HT. unfold tinv in HT. by rewrite (HD i w Ew) in HT. }
  split.
  - intros [i j] Hl _. destruct (HB i j Hl) as (w & B1 & _). destruct (B1 j Hl (live_len F0 i j Hl)) as [(a & ? & ? & Hf) ?].
    exists a. split; auto. split; auto. split; auto. rewrite Hf. unfold FLAG. cbn. by rewrite andb_true_r.
  - intros [i j] a Hl _ _ _. destruct (HB i j Hl) as (w & _ & _ & B3 & _). rewrite B3. by split; [|intros ?%elem_of_nil].
Qed.

Lemma counts_flat s (f : nat -> list rref) l : counts s (flat_map f l) = foldr (zip_with Nat.add) lvl0 ((fun i => counts s (f i)) <$> l).
Proof.
  clear. induction l as [|i l IH]; [reflexivity|]. cbn [flat_map fmap list_fmap foldr]. rewrite <-IH.
  apply list_eq_same_length with (n := 257); [|by rewrite counts_length|].
  { rewrite zip_with_length, !counts_length. done. }
  intros g u v Hg H1 H2. rewrite counts_lookup in H1 by lia. injection H1 as <-.
  rewrite lookup_zip_with, !counts_lookup in H2 by lia. simpl in H2. injection H2 as <-.
  by rewrite List.filter_app, app_length.
Qed.
Lemma lvl_sum_seq s ws : (forall i w, ws !! i = Some w -> w_lvl w = counts s (vis i (len0 F0 i))) ->
  lvl_sum ws = foldr (zip_with Nat.add) lvl0 ((fun i => counts s (vis i (len0 F0 i))) <$> seq 0 (length ws)).
Proof.
  clear. intros H. unfold lvl_sum. f_equal. apply list_eq. intros i. rewrite !list_lookup_fmap.
  destruct (ws !! i) as [w|] eqn:E.
  - rewrite lookup_seq_lt by (by eapply lookup_lt_Some). simpl. f_equal. auto.
  - rewrite lookup_seq_ge; auto. by apply lookup_ge_None.
Qed.

Lemma done_loop2 s ws : winv true s ws -> (forall i w, ws !! i = Some w -> w_pc w = PDone) ->
  regsok F0 P anyr allinn s /\ calcok F0 anyr allvis s /\ lvl_sum ws = counts s allvis /\
  (forall x, x ∈ flat_map w_heap ws -> live0 F0 x /\ inner F0 (fst x) x = false /\
     exists y, RP F0 x = Some y /\ gray0 F0 y = gray0 F0 x + 1) /\
  (forall x y, live0 F0 x -> RP F0 x = Some y -> inner F0 (fst x) x = false -> gray0 F0 y = gray0 F0 x + 1 ->
     x ∈ flat_map w_heap ws \/ (FLAG F0 P allinn x = 1 /\ BASE F0 P y = false)) /\
  (forall i w, ws !! i = Some w -> length (w_heap w) <= len0 F0 i).
Proof.
  intros HI HD. assert (forall i w, ws !! i = Some w -> loop2 F0 P i (len0 F0 i) s w) as HL.
  { intros i w Ew. pose proof (wi_t _ _ _ HI i w Ew) as HT. unfold tinv in HT. by rewrite (HD i w Ew) in HT. }
  assert (forall i j, live0 F0 (i, j) -> exists w, ws !! i = Some w) as HB.
  { intros i j Hl. assert (i < length F0) as Hi.
    { apply live_len in Hl. unfold len0 in Hl. destruct (F0 !! i) eqn:E; [|lia]. by eapply lookup_lt_Some. }
    destruct (lookup_lt_is_Some_2 ws i) as [w Ew]; [by rewrite (wi_len _ _ _ HI)|]. eauto. }
  split; [|split; [|split; [|split; [|split]]]].
  - intros [i j] Hl _. destruct (HB i j Hl) as [w Ew]. destruct (l2_reg _ _ _ _ _ _ (HL i w Ew) (i, j) Hl eq_refl) as (a & ? & ? & ? & Hf).
    exists a. split; auto. split; auto. split; auto. rewrite Hf. by apply FLAG_allinn.
  - intros [i j] a Hl _ Ha Hf. destruct (HB i j Hl) as [w Ew].
    rewrite (l2_calc _ _ _ _ _ _ (HL i w Ew) (i, j) a Hl eq_refl Ha Hf). rewrite elem_vis, elem_allvis, (len0_get F0). cbn. tauto.
  - rewrite (lvl_sum_seq s); [|intros i w Ew; by apply (HL i w Ew)]. unfold allvis. rewrite counts_flat, (wi_len _ _ _ HI). done.
  - intros x Hx. apply elem_of_list_In, in_flat_map in Hx as (w & Hw & Hx). apply elem_of_list_In in Hw, Hx.
    apply elem_of_list_lookup in Hw as [i Ew]. destruct (l2_heap _ _ _ _ _ _ (HL i w Ew) x Hx) as ([<- _]%elem_vis & ? & ? & ?). auto.
  - intros [i j] y Hl Hy Hin Hg. destruct (HB i j Hl) as [w Ew].
    destruct (l2_all _ _ _ _ _ _ (HL i w Ew) (i, j) y) as [Hx|[Hx ?]]; auto.
    + apply elem_vis. cbn. split; auto. by apply live_len.
    + left. apply elem_of_list_In, in_flat_map. exists w. split; apply elem_of_list_In; auto. by eapply elem_of_list_lookup_2.
    + right. split; auto. rewrite <-Hx. symmetry. by apply FLAG_allinn.
  - intros i w Ew. apply (HL i w Ew).
Qed.
End sched.
