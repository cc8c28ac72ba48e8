(* Recognition from the tree to the reported regions. *)
From stdpp Require Import sorting relations functions list_numbers list.
From Coq Require Import NArith ZArith SpecFloat.
From Verif Require Import Spec TreeSpec TreeFacts JoinMath FloodModel ConnectModel ConnectProof JoinCorrect FloatModel FloatFacts
  RecogModel RecogSpec RecogStatic RecogWorkers RecogSched RecogNms RecogSerial RecogOrder DupAbs RecogDup GrowthFacts RecogTree
  RecogCompose.
Local Open Scope nat_scope.

(* SPEC: the workers of a mode can finish and have room for one entry per region *)
Definition mode_ok (F : forest) (m : mode) : Prop :=
  match m with
  | One => True
  | Four sched caps => length F = 4 /\ complete F sched /\ length caps = 4 /\
      forall i c l, caps !! i = Some c -> F !! i = Some l -> length l <= c
  | ThirtyTwo sched => length F = 32 /\ complete F sched
  end.
(* SPEC: delta is an i32 whose sum with a gray level is one, too *)
Definition delta_ok (P : rparam) : Prop := (- 2 ^ 31 <= p_delta P /\ p_delta P + 255 < 2 ^ 31)%Z.

Section final.
Context (V : view) (lab : nat -> rref) (F0 : forest) (HI : recog_input V lab F0) (P : rparam) (Hd : delta_ok P).
Notation RP := (RP F0). Notation gray0 := (gray0 F0). Notation size0 := (size0 F0). Notation live0 := (live0 F0).
Notation VAR := (VAR F0 P). Notation LIM := (LIM F0 P). Notation allvis := (allvis F0).
Notation flagged := (flagged F0 P). Notation CL := (CL F0). Notation dp := (dp F0).
Notation big := (fun x => too_big P (size0 x)). Notation near := (nearf P).
Notation arun := (arun RP size0 big near (NN F0)).
Notation anc := (rtc (up RP)). Notation sanc := (tc (up RP)).
Notation pix := (region_pixels V lab (tab F0)).
Let H0 := input_start V lab F0 HI.
Let Hsz := size_lt V lab F0 HI.

(* the flags before duplicate removal *)
Definition flags (m : mode) : rref -> nat :=
  match m with
  | One => if (0 <? p_delta P)%Z then FLAG F0 P allvis else fun z => if LIM z then 0 else 1
  | _ => FLAG F0 P allvis
  end.
Definition has_vars (m : mode) : bool := match m with One => (0 <? p_delta P)%Z | _ => true end.

Lemma flags_le m z : flags m z <= 1.
Proof.
  clear. assert (forall xs, FLAG F0 P xs z <= 1) as H. { intros xs. destruct (FLAG_01 F0 P xs z) as [->| ->]; lia. }
  destruct m; cbn; auto. destruct (0 <? p_delta P)%Z; auto. destruct (LIM z); lia.
Qed.
Lemma flags_limits m z : live0 z -> flags m z = 0 -> in_limits P (tab F0) z /\ (p_min P <= Z.of_nat (size0 z) <= p_max P)%Z.
Proof.
  intros Hz Hf. assert (in_limits P (tab F0) z) as Hl.
  { assert (FLAG F0 P allvis z = 0 -> in_limits P (tab F0) z) as H.
    { intros H. eapply (FLAG_survives V lab F0 HI P z Hz) in H. apply H. }
    destruct m; cbn in Hf; auto. destruct (0 <? p_delta P)%Z; auto. unfold RecogSerial.LIM in Hf.
    destruct (bad_limits P (size0 z) (RP z)) eqn:E; [done|]. unfold bad_limits in E. rewrite !orb_false_iff, !Z.ltb_ge in E.
    destruct E as [[E1 E2] E3]. destruct (live_get F0 z Hz) as (a & Ha & Hla & _ & Hs). exists a. split; auto. split; auto.
    split; [lia|]. destruct (RP z) as [t|] eqn:Et; [|done]. exists t. by apply sparent_RP. }
  split; auto. destruct Hl as (a & Ha & _ & Hs & _). destruct (live_get F0 z Hz) as (a' & Ha' & _ & _ & <-).
  by assert (a' = a) as -> by congruence.
Qed.

Lemma candidates_ok fuel m b s0 : nregs F0 < fuel -> mode_ok F0 m -> s_F s0 = F0 -> (forall x, s_calc s0 x = false) ->
  exists s l b', candidates fuel m P b s0 = Some (s, l, b') /\ at_cands F0 P (flags m) s b b' l /\
    (has_vars m = true -> forall z, live0 z -> s_var s z = VAR z).
Proof.
  intros Hf Hm E Hc. destruct m as [|sched caps|sched]; cbn [candidates flags has_vars].
  - destruct (Z.ltb_spec 0 (p_delta P)) as [Hp|Hp].
    + destruct (cand_serial V lab F0 HI P Hd fuel b s0 Hf E Hp) as (s & l & b' & -> & H1 & H2). eauto 10.
    + destruct (cand_serial0 V lab F0 HI P Hd fuel b s0 Hf E Hp) as (s & l & b' & -> & H1). exists s, l, b'. split; [done|]. split; [exact H1|done].
  - destruct Hm as (M1 & M2 & M3 & M4).
    destruct (cand_4 V lab F0 HI P Hd sched caps b s0 E M1 Hc M2 M3) as (s & l & b' & c' & -> & H1 & H2 & _); eauto 10.
    intros i c Hi. unfold len0. destruct (F0 !! i) as [k|] eqn:Ek; [eauto|lia].
  - destruct Hm as (M1 & M2). destruct (cand_32 V lab F0 HI P Hd sched b s0 E M1 Hc M2) as (s & l & b' & -> & H1 & H2). eauto 10.
Qed.

Lemma Hmono x y z : live0 x -> live0 y -> live0 z -> size0 x <= size0 y -> size0 y <= size0 z ->
  near (size0 x) (size0 z) = true -> near (size0 x) (size0 y) = true.
Proof.
  intros Hx Hy Hz H1 H2. unfold nearf. rewrite !negb_true_iff. intros Hn.
  destruct (fgt (f64_growth (size0 y) (size0 x)) (f64_of_f32 (p_dup P))) eqn:G; auto.
  rewrite <- Hn. symmetry. apply (growth_mono (p_dup P) (size0 x) (size0 y) (size0 z)); auto; [by eapply size_pos|by eapply size_small].
Qed.
Lemma Hhalf : fgt (f64_of_int 1) (f64_of_f32 (p_dup P)) = true ->
  forall x y, live0 x -> live0 y -> size0 x <= size0 y -> near (size0 x) (size0 y) = true -> size0 y < 2 * size0 x.
Proof.
  intros H1 x y Hx Hy Hle. unfold nearf. rewrite negb_true_iff. intros Hn.
  destruct (decide (size0 y < 2 * size0 x)) as [|Hge]; auto. exfalso.
  rewrite (growth_half (p_dup P) (size0 x) (size0 y)) in Hn; [done|by eapply size_pos|lia|by eapply size_small|auto].
Qed.

(* the flags after duplicate removal *)
Definition keep (fl : rref -> nat) : rref -> nat := arun fl (CL fl).

Section run.
Context (fl : rref -> nat) (Hfl : forall z, fl z <= 1).
Context (Hlim : forall z, live0 z -> fl z = 0 -> (p_min P <= Z.of_nat (size0 z) <= p_max P)%Z).
Lemma elem_cl z : z ∈ CL fl <-> live0 z /\ fl z = 0.
Proof. by eapply elem_CL. Qed.
Lemma keep_inv : ainv RP size0 near live0 fl (keep fl) (CL fl).
Proof.
  apply (ainv_run RP size0 gray0 big near (NN F0) live0 (fun z => dp (Some z))); intros.
  - by apply HLd. - by apply HNd. - eapply (Hbigd F0 P x y); eauto. - eapply (Hmono x y z); eauto.
  - specialize (Hfl z). lia. - apply elem_cl. - apply elem_cl in H as [H1 H2]. unfold too_big. apply Z.ltb_ge. by apply Hlim.
Qed.
Lemma keep_binv : fgt (f64_of_int 1) (f64_of_f32 (p_dup P)) = true ->
  binv RP size0 near live0 fl (keep fl) (CL fl).
Proof.
  intros H1. apply (binv_run RP size0 gray0 big near (NN F0) live0 (fun z => dp (Some z))); intros.
  - by apply HLd. - by apply HNd. - eapply (Hbigd F0 P x y); eauto. - eapply (Hmono x y z); eauto.
  - specialize (Hfl z). lia. - apply elem_cl. - apply elem_cl in H as [? ?]. unfold too_big. apply Z.ltb_ge. by apply Hlim.
  - by eapply dis_size. - by eapply Hhalf. - apply CL_gray.
Qed.
Lemma keep_flags z : live0 z -> fl z = 0 -> keep fl z = 1 \/ keep fl z = 2.
Proof.
  intros Hz Hf. apply (arun_flags RP size0 gray0 big near (NN F0) live0 (fun z => dp (Some z))); intros; auto.
  - by apply HLd. - by apply HNd. - eapply (Hbigd F0 P x y); eauto. - eapply (Hmono x y z0); eauto.
  - specialize (Hfl z0). lia. - apply elem_cl. - apply elem_cl in H as [? ?]. unfold too_big. apply Z.ltb_ge. by apply Hlim.
Qed.
Lemma keep_nonpos z : fge fzero (p_dup P) = true -> live0 z -> fl z = 0 -> keep fl z = 2.
Proof.
  intros Hn Hz Hf. destruct (keep_flags z Hz Hf) as [H1|]; auto. exfalso.
  assert (forall c y, live0 c -> anc c y -> y = c \/ near (size0 c) (size0 y) = true -> y = c) as Hs.
  { intros c y Hc Hcy [|Hnear]; auto. apply rtc_inv in Hcy as [|(u & Hu & Huy)]; auto. exfalso.
    assert (live0 y /\ size0 c < size0 y) as [Hy Hlt].
    { destruct (live0_RP F0 H0 c u Hc Hu) as [Hlu _]. pose proof (Hsz c u Hc Hu).
      destruct (anc_le RP size0 gray0 live0 (fun z => dp (Some z)) (HLd F0 H0 Hsz) u y Hlu Huy) as (? & ? & _). split; auto. lia. }
    unfold nearf in Hnear. rewrite (growth_pos (p_dup P) (size0 c) (size0 y)) in Hnear; [done|by eapply size_pos|done|by eapply size_small|done]. }
  destruct (ai_cov _ _ _ _ _ _ _ keep_inv z Hz Hf H1) as (c & m & C1 & C2 & C3 & C4 & C5 & C6 & C7 & C8 & C9).
  rewrite (Hs c z C1 C5 C8) in H1. rewrite (Hs c m C1 C6 C9) in C4. congruence.
Qed.
End run.

(* the final flags and the reported regions *)
Definition final (m : mode) : rref -> nat :=
  match m with
  | One => keep (flags m)
  | _ => if fgt (p_dup P) fzero then keep (flags m) else fun z => if decide (z ∈ CL (flags m)) then 2 else flags m z
  end.
Definition reported (m : mode) : list rref := List.filter (fun z => final m z =? 2) (CL (flags m)).

Lemma final_cases m : final m = keep (flags m) \/
  (fgt (p_dup P) fzero = false /\ final m = fun z => if decide (z ∈ CL (flags m)) then 2 else flags m z).
Proof. clear. destruct m; cbn; auto; destruct (fgt (p_dup P) fzero); auto. Qed.

Lemma elem_reported m z : z ∈ reported m <-> live0 z /\ flags m z = 0 /\ final m z = 2.
Proof.
  unfold reported. rewrite elem_of_list_In, filter_In, <- elem_of_list_In, (elem_cl _ z), Nat.eqb_eq. tauto.
Qed.
Lemma final_two m z : live0 z -> final m z = 2 -> z ∈ reported m.
Proof.
  intros Hz H2. apply elem_reported. split; auto. split; auto. destruct (final_cases m) as [E|[_ E]]; rewrite E in H2.
  - by apply (ai_L _ _ _ _ _ _ _ (keep_inv (flags m) (flags_le m) (fun z Hz Hf => proj2 (flags_limits m z Hz Hf))) z H2).
  - destruct (decide (z ∈ CL (flags m))) as [Hin|]; [by apply (elem_cl (flags m)) in Hin as [_ ?]|]. pose proof (flags_le m z). lia.
Qed.

Lemma recognize_ok fuel m b s0 : nregs F0 < fuel -> mode_ok F0 m -> s_F s0 = F0 -> (forall x, s_calc s0 x = false) ->
  exists s, recognize fuel m P b s0 = Some (s, reported m, length (reported m), size_buffer b (length (CL (flags m)))) /\
    flagged (final m) s.
Proof.
  intros Hf Hm E Hc. destruct (candidates_ok fuel m b s0 Hf Hm E Hc) as (s1 & l & b' & Hcand & (G1 & -> & ->) & _).
  assert (exists s, dedup fuel P s1 (CL (flags m)) = Some (s, List.filter (fun z => keep (flags m) z =? 2) (CL (flags m)),
    length (List.filter (fun z => keep (flags m) z =? 2) (CL (flags m)))) /\ flagged (keep (flags m)) s) as (s2 & Hdd & G2).
  { apply (dedup_ok F0 H0 P Hsz Hmono fuel (flags m) s1); auto.
    - apply flags_le. - apply elem_cl. - apply CL_NoDup. - intros x [Hx1 Hx2]%elem_cl. by apply (flags_limits m). }
  assert (exists s, no_dedup s1 (CL (flags m)) = Some (s, CL (flags m), length (CL (flags m))) /\
    flagged (fun z => if decide (z ∈ CL (flags m)) then 2 else flags m z) s) as (s3 & Hnd & G3).
  { apply no_dedup_ok; auto. by intros z [? _]%elem_cl. }
  assert (match m with One => False | _ => True end -> exists s,
    par_dedup fuel P s1 (CL (flags m)) = Some (s, reported m, length (reported m)) /\ flagged (final m) s) as Hpar.
  { intros Hmm. unfold par_dedup, reported, final. destruct m as [|sched caps|sched]; [done| |];
      (destruct (fgt (p_dup P) fzero); [eexists; split; [exact Hdd|done]|]);
      (exists s3; split; [|done]; rewrite Hnd; do 2 f_equal);
      (assert (forall (f : rref -> bool) l, (forall x, x ∈ l -> f x = true) -> List.filter f l = l) as Hall;
        [intros f l Hin; induction l as [|x l IHl]; auto; cbn; rewrite Hin by apply elem_of_list_here; f_equal; apply IHl; intros;
         apply Hin; by apply elem_of_list_further|]);
      (rewrite Hall; [done|]); intros x Hx; by rewrite decide_True. }
  unfold recognize. destruct m as [|sched caps|sched]; cbn [candidates] in Hcand.
  - unfold recognize_serial. rewrite Hcand, Hdd. eexists. split; [done|exact G2].
  - unfold recognize_4. destruct (candidates_4 P sched caps b s0) as [[[[s l] b'] c']|]; [|done]. injection Hcand as -> -> ->.
    destruct (Hpar I) as (s & Hs1 & Hs). cbn [flags] in Hs1 |- *. rewrite Hs1. eauto.
  - unfold recognize_32. rewrite Hcand. destruct (Hpar I) as (s & -> & Hs). eauto.
Qed.

(* ---------- what is reported ---------- *)
Lemma reported_flags m s z : flagged (final m) s -> z ∈ reported m <-> exists a, sget s z = Some a /\ g_flag a = 2.
Proof.
  intros [Hs Hr]. split.
  - intros Hz. apply elem_reported in Hz as (H1 & _ & H2). destruct (Hr z H1) as (a & Ha & Hf & _). exists a. split; auto. congruence.
  - intros (a & Ha & Hf). assert (live0 z) as Hl. { eapply (flag_live F0 (s_F s) z a); eauto. lia. }
    apply final_two; auto. destruct (Hr z Hl) as (a' & Ha' & Hf' & _). congruence.
Qed.
Lemma anc_card x y : live0 x -> live0 y -> (forall p, pix x p -> pix y p) -> x <> y -> sanc x y.
Proof.
  intros Hx Hy Hsub Hne. destruct (pix_own V lab F0 HI x Hx) as (o & Ho & Hgo).
  destruct (vunder_linear _ _ _ _ (proj2 Ho) (proj2 (Hsub o Ho))) as [Hu|Hu].
  - assert (anc x y) as Ha by (by eapply under_anc). apply rtc_inv in Ha as [|(u & Hu1 & Hu2)]; [done|].
    eapply tc_rtc_r; [apply tc_once; exact Hu1|exact Hu2].
  - exfalso. assert (anc y x) as Ha by (by eapply under_anc). apply rtc_inv in Ha as [|(u & Hu1 & Hu2)]; [congruence|].
    destruct (live0_RP F0 H0 y u Hy Hu1) as [Hlu _]. pose proof (Hsz y u Hy Hu1).
    destruct (anc_le RP size0 gray0 live0 (fun z => dp (Some z)) (HLd F0 H0 Hsz) u x Hlu Hu2) as (_ & ? & _).
    pose proof (card_sub _ _ _ _ (pix_card V lab F0 HI x Hx) (pix_card V lab F0 HI y Hy) Hsub). lia.
Qed.
End final.
