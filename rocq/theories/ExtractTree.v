(* The records of extraction and the regions found by recognition: the record of a pixel
   is the smallest reported region that contains it. *)
From stdpp Require Import sorting relations functions list_numbers list.
From Coq Require Import NArith ZArith SpecFloat.
From Verif Require Import Spec TreeSpec TreeFacts JoinMath JoinCorrect FloodModel ConnectModel ConnectProof FloatModel
  RecogModel RecogSpec RecogStatic RecogWorkers RecogDup RecogTree RecogCompose RecogFinal RecogResults ExtractModel ExtractAbs ExtractLink.
Local Open Scope nat_scope.

Lemma under_gray V lab F (HI : recog_input V lab F) x y : live0 F x -> live0 F y -> vunder (tab F) x y -> y <> x -> gray0 F x < gray0 F y.
Proof.
  intros Hx Hy Hu Hne. assert (rtc (DupAbs.up (RP F)) x y) as Ha by (by apply (under_anc V lab F HI)). clear Hu. pose proof (input_start V lab F HI) as H0.
  assert (forall u v, rtc (DupAbs.up (RP F)) u v -> live0 F u -> gray0 F u <= gray0 F v) as Hmon.
  { intros u v. induction 1 as [|u w v E _ IH]; intros Hlu; [done|]. destruct (live0_RP F H0 u w Hlu E) as [Hlw ?]. specialize (IH Hlw). lia. }
  inversion Ha as [|? w ? E Hr]; subst; [done|]. destruct (live0_RP F H0 x w Hx E) as [Hlw ?]. pose proof (Hmon w y Hr Hlw). lia.
Qed.

Section link.
Context (V : view) (lab : nat -> rref) (F : forest) (HI : recog_input V lab F).
Context (P : rparam) (m : mode) (s : rst) (Hfl : flagged F P (final F P m) s).
Context (fuel : nat) (Hfu : nregs F + 1 < fuel).
Notation F1 := (s_F s). Notation l := (reported F P m). Notation T := (tab F).
Notation NR := (NR F1 fuel). Notation NP := (NP F1 fuel). Notation vp := (vp F1 l fuel).
Definition dd (x : rref) : nat := dp F (Some x).
Let H0 := input_start V lab F HI.
Let HS := fd_sim _ _ _ _ Hfl.

Lemma l_flags z : z ∈ l <-> exists a, fget F1 z = Some a /\ g_flag a = 2.
Proof. exact (reported_flags V lab F HI P m s z Hfl). Qed.
Lemma l_live z : z ∈ l -> live0 F z.
Proof. intros Hz. by apply (elem_reported V lab F HI P m z) in Hz as (? & _). Qed.
Lemma l_NoDup : NoDup l.
Proof. apply NoDup_ListNoDup, List.NoDup_filter, NoDup_ListNoDup. by eapply CL_NoDup. Qed.

Lemma f1_id (Hix : forall x a, fget F x = Some a -> g_idx a = snd x) x a : fget F1 x = Some a -> (g_patch a, g_idx a) = x.
Proof.
  intros Ha. destruct (sim_get F F1 x a HS Ha) as (a0 & Ha0 & _ & _ & E & _).
  rewrite E, (sm_idx _ _ HS x a0 a Ha0 Ha), (Hix x a0 Ha0). destruct x as [k i]. by destruct (ri_reg _ _ _ HI k i a0 Ha0) as (-> & _).
Qed.
Lemma f1_stored x : is_Some (fget F1 x) <-> is_Some (fget F x).
Proof.
  split; intros [a Ha].
  - destruct (sim_get F F1 x a HS Ha) as (a0 & -> & _). eauto.
  - destruct (sm_reg _ _ HS x a Ha) as (b & -> & _). eauto.
Qed.
Lemma f1_par x a y : fget F1 x = Some a -> g_par a = Some y ->
  is_Some (fget F1 y) /\ dd y < dd x /\ vunder T x y /\ forall z, live0 F z -> vunder T x z -> z = x \/ vunder T y z.
Proof.
  intros Ha Hy. destruct (sim_get F F1 x a HS Ha) as (a0 & Ha0 & _ & _ & _ & Hdead & Hlive).
  assert (g_par a = g_par a0 -> is_Some (fget F1 y) /\ dd y < dd x /\ vunder T x y /\ forall z, live0 F z -> vunder T x z -> z = x \/ vunder T y z) as Hsame.
  { intros E. rewrite E in Hy. assert (vup T x y) as Hup. { exists (vr a0). split; [by apply tab_get|done]. }
    split. { apply f1_stored. by apply (par_stored F H0 x a0 Ha0). }
    split. { unfold dd. destruct (dp_some F H0 x a0 Ha0) as [-> _]. rewrite Hy. lia. }
    split; [by apply rtc_once|]. intros z _ Hz. inversion Hz as [|? t ? Hup' Hr]; subst; [by left|]. right. by rewrite (vup_fun _ _ _ _ Hup' Hup) in Hr. }
  destruct (decide (g_flag a0 = 3)) as [Hf|Hf]; [apply Hsame; by rewrite Hdead|].
  destruct (Hlive Hf) as [_ [E|E]]; [by apply Hsame|]. rewrite E in Hy. clear Hsame.
  destruct (RP_some F H0 x a0 y Ha0 Hf Hy) as (b & Hb & Hfb & (_ & _ & _ & Hu & Hmin) & _).
  split; [apply f1_stored; eauto|]. split; [by eapply dp_RP|]. split; auto.
  intros z (c & Hc & Hcf) Hz. destruct (Hmin z (vr c) Hz) as [->|?]; auto; [by apply tab_get|]. cbn. by destruct (Nat.eqb_spec (g_flag c) 3).
Qed.
Lemma f1_top x a : fget F1 x = Some a -> g_par a = None -> forall z, vunder T x z -> z = x.
Proof.
  intros Ha Hn. destruct (sim_get F F1 x a HS Ha) as (a0 & Ha0 & _ & _ & _ & Hdead & Hlive).
  assert (g_par a0 = None) as Hn0.
  { destruct (decide (g_flag a0 = 3)) as [Hf|Hf]; [by rewrite <-(Hdead Hf)|].
    destruct (Hlive Hf) as [_ [E|E]]; [congruence|]. rewrite E in Hn. by apply (RP_none F H0 x a0 Ha0). }
  intros z Hz. inversion Hz as [|? t ? (c & Hc & Hp) Hr]; subst; [done|]. rewrite (tab_get _ _ _ Ha0) in Hc. injection Hc as <-. cbn in Hp. congruence.
Qed.
Lemma f1_dd x a y : fget F1 x = Some a -> g_par a = Some y -> is_Some (fget F1 y) /\ dd y < dd x.
Proof. intros Ha Hy. by destruct (f1_par x a y Ha Hy) as (? & ? & _). Qed.
Lemma f1_fuel x : is_Some (fget F1 x) -> dd x + 1 < fuel.
Proof. rewrite f1_stored. intros [a Ha]. unfold dd. destruct (dp_some F H0 x a Ha) as [_ ?]. lia. Qed.
Let NRs := NR_some F1 dd fuel f1_dd f1_fuel.

(* the nearest reported region at or above x *)
Lemma nr_spec x : is_Some (fget F1 x) ->
  (forall y, NR (Some x) = Some y -> y ∈ l /\ vunder T x y) /\
  forall z, z ∈ l -> vunder T x z -> exists y, NR (Some x) = Some y /\ vunder T y z.
Proof.
  remember (dd x) as d eqn:Ed. revert x Ed. induction d as [d IH] using lt_wf_ind. intros x -> [a Ha]. rewrite (NRs x a Ha).
  destruct (Nat.eqb_spec (g_flag a) 2) as [Hf|Hf].
  { split; [|intros z _ Hz; eauto]. intros y [= <-]. split; [|apply rtc_refl]. apply l_flags. eauto. }
  assert (forall z, z ∈ l -> z <> x) as Hnx. { intros z (b & Hb & Hbf)%l_flags ->. congruence. }
  destruct (g_par a) as [t|] eqn:Et.
  - destruct (f1_par x a t Ha Et) as (Hst & Hdt & Hu & Hmin). destruct (IH (dd t) Hdt t eq_refl Hst) as [I1 I2]. split.
    + intros y Hy. destruct (I1 y Hy) as [? ?]. split; auto. by etrans.
    + intros z Hz Hxz. destruct (Hmin z (l_live z Hz) Hxz) as [->|Htz]; [by apply Hnx in Hz|]. by apply I2.
  - rewrite (NR_none F1 dd fuel f1_fuel). split; [done|]. intros z Hz Hxz. rewrite (f1_top x a Ha Et z Hxz) in Hz. by apply Hnx in Hz.
Qed.
Lemma nr_iff x z : is_Some (fget F1 x) -> z ∈ l -> vunder T x z <-> exists y, NR (Some x) = Some y /\ vunder T y z.
Proof.
  intros Hx Hz. destruct (nr_spec x Hx) as [H1 H2]. split; [by apply H2|]. intros (y & Hy & ?). etrans; [by apply (H1 y Hy)|done].
Qed.
(* the nearest reported region above x *)
Lemma np_spec x : x ∈ l -> (forall y, NP x = Some y -> y ∈ l /\ vunder T x y /\ y <> x) /\
  forall z, z ∈ l -> vunder T x z -> z = x \/ exists y, NP x = Some y /\ vunder T y z.
Proof.
  intros (a & Ha & Hf)%l_flags. rewrite (NP_eq F1 fuel x a Ha). destruct (g_par a) as [t|] eqn:Et.
  - destruct (f1_par x a t Ha Et) as (Hst & Hdt & Hu & Hmin). destruct (nr_spec t Hst) as [I1 I2]. split.
    + intros y Hy. destruct (I1 y Hy) as [? ?]. split; auto. split; [by etrans|]. intros ->.
      destruct (NR_valid F1 l dd fuel f1_dd f1_fuel l_flags (Some t) x) as [_ Hd]; auto. { by intros ? [= <-]. } cbn [odd] in Hd. lia.
    + intros z Hz Hxz. destruct (Hmin z (l_live z Hz) Hxz) as [->|Htz]; [by left|]. right. by apply I2.
  - rewrite (NR_none F1 dd fuel f1_fuel). split; [done|]. intros z Hz Hxz. left. by apply (f1_top x a Ha Et).
Qed.

Lemma l_sorted i j x y : l !! i = Some x -> l !! j = Some y -> i < j -> gray0 F x <= gray0 F y.
Proof.
  intros Hi Hj Hlt. assert (StronglySorted (clt F) l) as Hs.
  { unfold reported. generalize (CL_sorted F (flags F P m)). generalize (CL F (flags F P m)). intros q. induction 1 as [|x' q Hq IH Hall]; cbn [List.filter]; [constructor|].
    destruct (_ =? 2); [|done]. constructor; auto. apply Forall_forall. intros z Hz. apply elem_of_list_In, List.filter_In in Hz as [Hz _].
    apply elem_of_list_In in Hz. by eapply Forall_forall in Hall. }
  assert (clt F x y) as [?|[-> _]]; [|lia|lia]. revert i j Hi Hj Hlt. induction Hs as [|u q Hq IH Hall]; intros i j Hi Hj Hlt; [done|].
  destruct i as [|i], j as [|j]; try lia; cbn in Hi, Hj.
  - injection Hi as ->. eapply Forall_forall in Hall; [exact Hall|]. by eapply elem_of_list_lookup_2.
  - apply (IH i j); auto. lia.
Qed.
Lemma vp_lt i j : vp i = Some j -> i < j.
Proof.
  intros E. destruct (l !! i) as [x|] eqn:Hx; [|unfold ExtractLink.vp in E; by rewrite Hx in E].
  destruct (proj1 (vp_some F1 l fuel l_NoDup i x Hx j) E) as (y & Hy & Hj). assert (x ∈ l) as Hxl by (by eapply elem_of_list_lookup_2).
  destruct (np_spec x Hxl) as [N1 _]. destruct (N1 y Hy) as (Hyl & Hu & Hne).
  pose proof (under_gray V lab F HI x y (l_live x Hxl) (l_live y Hyl) Hu Hne) as Hg. destruct (decide (i < j)) as [|Hge]; [done|].
  destruct (decide (i = j)) as [->|]; [congruence|]. pose proof (l_sorted j i y x Hj Hx ltac:(lia)). lia.
Qed.
Let Hvp := Hvp F1 l fuel l_NoDup vp_lt.

Lemma reach_under i j x y : l !! i = Some x -> l !! j = Some y -> reach vp i j <-> vunder T x y.
Proof.
  intros Hx Hy. split.
  - intros Hr. revert x Hx. induction Hr as [i|i k j E Hr IH]; intros x Hx. { rewrite Hx in Hy. injection Hy as ->. apply rtc_refl. }
    destruct (proj1 (vp_some F1 l fuel l_NoDup i x Hx k) E) as (z & Hz & Hk). assert (x ∈ l) as Hxl by (by eapply elem_of_list_lookup_2).
    destruct (np_spec x Hxl) as [N1 _]. destruct (N1 z Hz) as (_ & ? & _). etrans; [eassumption|]. by apply IH.
  - assert (y ∈ l) as Hyl by (by eapply elem_of_list_lookup_2). remember (dd x) as d eqn:Ed. revert i x Ed Hx.
    induction d as [d IH] using lt_wf_ind. intros i x -> Hx Hu. assert (x ∈ l) as Hxl by (by eapply elem_of_list_lookup_2).
    destruct (np_spec x Hxl) as [N1 N2]. destruct (N2 y Hyl Hu) as [->|(z & Hz & Hzy)].
    { assert (i = j) as ->; [|apply rtc_refl]. eapply NoDup_lookup; eauto. apply l_NoDup. }
    destruct (N1 z Hz) as (Hzl & Hxz & Hne). assert (is_Some (fget F1 x)) as Hsx. { apply l_flags in Hxl as (? & ? & _). eauto. }
    destruct (vp_NP F1 l dd fuel f1_dd f1_fuel l_NoDup l_flags i x z Hx Hz) as (k & Hk & Hlk).
    eapply rtc_l; [exact Hk|]. eapply IH; eauto. by apply (NP_in F1 l dd fuel f1_dd f1_fuel l_flags x z Hsx Hz).
Qed.

(* the record of a pixel *)
Definition rec_of (p : nat) : option nat := match NR (Some (lab p)) with Some y => ix l y | None => None end.
Lemma lab_stored p : vw_in V p -> is_Some (fget F1 (lab p)).
Proof.
  intros Hp. apply f1_stored. destruct (ct_lab _ _ _ (ri_tree _ _ _ HI) p Hp) as (v & Hv & _). destruct (get_tab _ _ _ Hv) as (a & -> & _). eauto.
Qed.
Lemma rec_pix p j z : vw_in V p -> l !! j = Some z ->
  region_pixels V lab T z p <-> exists i, rec_of p = Some i /\ reach vp i j.
Proof.
  intros Hp Hz. assert (z ∈ l) as Hzl by (by eapply elem_of_list_lookup_2). unfold region_pixels.
  pose proof (lab_stored p Hp) as Hs. rewrite (nr_iff (lab p) z Hs Hzl). unfold rec_of. split.
  - intros (_ & y & Hy & Hyz). rewrite Hy. destruct (nr_spec (lab p) Hs) as [N1 _]. destruct (N1 y Hy) as [Hyl _].
    destruct (ix_elem l l_NoDup y Hyl) as (i & -> & Hi & _). exists i. split; auto. by apply (reach_under i j y z).
  - intros (i & Hi & Hr). split; auto. destruct (NR (Some (lab p))) as [y|] eqn:Hy; [|done]. exists y. split; auto.
    apply (ix_some l l_NoDup) in Hi. by apply (reach_under i j y z).
Qed.
Lemma rec_lt p i : rec_of p = Some i -> i < length l.
Proof. unfold rec_of. destruct (NR _) as [y|]; [|done]. intros E. apply (ix_some l l_NoDup) in E. by eapply lookup_lt_Some. Qed.
Lemma rec_own j z : l !! j = Some z -> exists p, vw_in V p /\ rec_of p = Some j.
Proof.
  intros Hz. assert (z ∈ l) as Hzl by (by eapply elem_of_list_lookup_2). destruct (pix_own V lab F HI z (l_live z Hzl)) as (p & Hp & Hg).
  exists p. assert (vw_in V p) as Hin by apply Hp. split; auto. destruct (proj1 (rec_pix p j z Hin Hz) Hp) as (i & Hi & Hr).
  rewrite Hi. f_equal. destruct (lookup_lt_is_Some_2 l i (rec_lt p i Hi)) as [y Hy]. assert (y ∈ l) as Hyl by (by eapply elem_of_list_lookup_2).
  destruct (decide (y = z)) as [->|Hne]. { eapply NoDup_lookup; eauto. apply l_NoDup. }
  exfalso. apply (reach_under i j y z Hy Hz) in Hr. pose proof (under_gray V lab F HI y z (l_live y Hyl) (l_live z Hzl) Hr ltac:(done)).
  assert (region_pixels V lab T y p) as Hyp. { apply (rec_pix p i y Hin Hy). exists i. split; auto. apply rtc_refl. }
  pose proof (pix_gray V lab F HI y p (l_live y Hyl) Hyp). lia.
Qed.
Lemma rec_sz j z : l !! j = Some z -> sz F1 l j = size0 F z /\ gr F1 l j = gray0 F z /\ live0 F z.
Proof.
  intros Hz. assert (z ∈ l) as Hzl by (by eapply elem_of_list_lookup_2). pose proof (l_live z Hzl) as (a0 & Ha0 & Hf).
  destruct (sm_reg _ _ HS z a0 Ha0) as (a & Ha & E1 & E2 & _). unfold sz, gr, size0, gray0. rewrite Hz, Ha, Ha0.
  split; [done|]. split; [done|]. exists a0. auto.
Qed.
End link.
