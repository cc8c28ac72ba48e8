(* Extraction in MS-MSER: the phases put together. *)
From stdpp Require Import sorting relations functions list_numbers list.
From Coq Require Import NArith ZArith.
From Verif Require Import FloodModel ConnectModel ConnectProof PartModel WholeModel FloatModel RecogModel RectModel ExtractModel
  ExtractAbs ExtractLink RectFacts ExtractMem ExtractFinish ExtractDecode ExtractCorrect MsModel MsLink MsMem.
Local Open Scope nat_scope.

Section ext.
Context (F0 : forest) (l : list rref) (dd : rref -> nat) (fuel : nat).
Context (Hid : forall x a, fget F0 x = Some a -> (g_patch a, g_idx a) = x).
Context (Hpar : forall x a y, fget F0 x = Some a -> g_par a = Some y -> is_Some (fget F0 y) /\ dd y < dd x).
Context (Hfuel : forall x, is_Some (fget F0 x) -> dd x + 1 < fuel).
Context (Hl : NoDup l) (Hlv : forall z, z ∈ l <-> exists a, fget F0 z = Some a /\ g_flag a = 2).
Notation n := (length l). Notation vp := (vp F0 l fuel). Notation NR := (NR F0 fuel). Notation NP := (NP F0 fuel).
Notation sz := (sz F0 l). Notation gr := (gr F0 l).
Context (Hord : forall i j, vp i = Some j -> i < j).
Context (gm : N) (thr : Z) (w h : nat) (words : list N) (lbl : nat * nat -> nat).
Notation r := (PRect 0 0 w h).
Context (Hword : forall c, c ∈ cells r -> words !! word_at r c = Some (bnd4 + N.of_nat (lbl c))%N /\ (N.of_nat (lbl c) < 2 ^ 29)%N /\
  is_Some (fget F0 (0, lbl c))).
Definition mow (c : nat * nat) : option nat := match NR (Some (0, lbl c)) with Some y => ix l y | None => None end.
Definition mown (j : nat) : list pt := map (cpt r) (hit mow j (cells r)).
Notation P := (pts vp (own4 mown)). Notation shr := (shr F0 l fuel thr).
Definition mgr (j : nat) : N := N.lxor (N.of_nat (gr j)) gm.
Context (Hsz : forall j, j < n -> sz j = length (P j)) (Hne : forall j, j < n -> mown j <> []).
Context (Hsum : (Z.of_nat (sumto (mcost F0 l fuel thr) n) < 2 ^ 31)%Z).
Let Hvp := Hvp F0 l fuel Hl Hord.
Let P_eq := P_eq n vp Hvp mown.

Lemma mksum j : j < n -> ksum F0 l (chl vp j) = length (chl vp j ≫= P).
Proof.
  intros Hj. unfold ksum. assert (forall c, c ∈ chl vp j -> c < n) as Hc.
  { intros c Hc. apply (elem_chl n vp Hvp) in Hc. pose proof (Hvp _ _ Hc). lia. }
  revert Hc. induction (chl vp j) as [|c q IH]; intros Hc; [done|]. cbn [map sum_list mbind list_bind].
  rewrite app_length, <-IH by (intros d Hd; apply Hc; by right). rewrite (Hsz c) by (apply Hc; left). done.
Qed.
Lemma mHk j : j < n -> ksum F0 l (chl vp j) <= sz j.
Proof. intros Hj. rewrite mksum, Hsz, P_eq, app_length by done. lia. Qed.
Lemma mshr_down i j : vp i = Some j -> shr j = true -> shr i = true.
Proof.
  intros Hv Hs. assert (i ∈ chl vp j) as Hi by (by apply (elem_chl n vp Hvp)). pose proof (Hvp _ _ Hv) as [_ Hj].
  unfold ExtractLink.shr in *. apply orb_true_iff in Hs as [Hs|Hs].
  - apply Nat.eqb_eq in Hs. apply nil_length_inv in Hs. rewrite Hs in Hi. by apply elem_of_nil in Hi.
  - apply orb_true_iff. right. apply Z.leb_le in Hs. apply Z.leb_le. pose proof (mHk j Hj).
    assert (forall c q, c ∈ q -> sz c <= ksum F0 l q) as Hel.
    { induction 1 as [|c d q _ IH]; unfold ksum in *; cbn; unfold id in *; lia. }
    pose proof (Hel _ _ Hi). lia.
Qed.
Lemma mcost_total : sumto (mcost F0 l fuel thr) n = mst vp mown shr n.
Proof.
  unfold mst. apply sumto_ext. intros j Hj. unfold mcost, mblk. rewrite (Hsz j Hj), (mksum j Hj), P_eq, app_length.
  set (q := (1 + length (chl vp j)) / 2). destruct (shr j); lia.
Qed.
Lemma mow_lt c j : mow c = Some j -> j < n.
Proof. unfold mow. destruct (NR _) as [y|]; [|done]. intros E. apply (ix_some l Hl) in E. by eapply lookup_lt_Some. Qed.
Lemma mow_enc c : enc l (NR (Some (0, lbl c))) = encZ (mow c).
Proof. unfold mow, enc, encZ. destruct (NR _) as [y|]; [|done]. by destruct (ix l y). Qed.

Lemma ms_extract_ok heap0 : exists m ms,
  ms_extract fuel gm thr w h words F0 heap0 l = Some (MRes (mst vp mown shr n) m ms) /\
  finI n vp mown shr mgr sz n (m, ms).
Proof.
  unfold ms_extract. destruct (decide (l = [])) as [El|El].
  { rewrite El. cbn [length]. exists (fun _ => None), []. split; [done|]. constructor; cbn; intros; try done; lia. }
  assert (forall (A : Type) (a b : A), match l with [] => a | _ :: _ => b end = b) as -> by (intros; by destruct l).
  destruct (ms_first_ok F0 l Hlv gm heap0) as ([s1 ms1] & E1 & A1). rewrite E1.
  destruct (ms_second_ok F0 l dd fuel Hpar Hfuel Hl Hlv mHk thr gm (s1, ms1) A1 Hsum) as ([[s2 ms2] tot] & E2 & A2). cbn [fst snd] in E2. rewrite E2.
  destruct (ms_third_ok F0 l dd fuel Hid Hpar Hfuel Hl Hlv thr gm _ A2) as (s3 & E3 & HF3 & Hg3 & Hkd & Hkp). cbn [fst snd] in E3, HF3, Hkd, Hkp.
  destruct A2 as [B1 B2 B3 B4 B5 B6 B7 B8]. cbn [fst snd] in *. cbn zeta.
  assert (Z.to_nat tot = mst vp mown shr n) as -> by (rewrite B8, Nat2Z.id; apply mcost_total).
  assert (forall j x, l !! j = Some x -> e_kids s2 x = length (chl vp j) /\ e_kpix s2 x = length (chl vp j ≫= P)) as Hkk.
  { intros j x Hx. assert (j < n) as Hj by (by eapply lookup_lt_Some). destruct (B4 j x Hx) as [-> ->].
    rewrite (procs_later n vp Hvp n j) by lia. by rewrite mksum. }
  destruct (ms_place_ok n vp Hvp mown shr mgr sz Hsz l s2 ms2 eq_refl Hl B6 Hkk) as (ly & E5 & HP).
  { intros j Hj. rewrite (B7 j Hj), (proj2 (Nat.ltb_lt _ _) Hj). done. }
  rewrite E5, E3.
  destruct (ms_fill_ok n vp Hvp mown shr mgr sz r mow (fun j => eq_refl) (fun c j _ => mow_lt c j) s3 words lbl (y_mem ly, y_ms ly)) as ([m1 ms3] & E6 & HFl).
  { intros c Hc. destruct (Hword c Hc) as (W1 & W2 & W3). split; [done|]. split; [done|]. by rewrite Hg3, mow_enc. }
  { by eapply placed_filled. }
  rewrite E6.
  destruct (ms_close_ok n vp Hvp mown shr mgr sz Hsz Hne r mow (fun j => eq_refl) l s3 (m1, ms3) eq_refl) as (ms4 & E7 & HC); [|done|].
  { intros j x Hx. rewrite Hkp. by apply Hkk. }
  cbn [snd] in E7. rewrite E7.
  destruct (ms_finish_ok n vp Hvp mown shr mgr sz Hsz mshr_down l s3 (y_mi ly) (m1, ms4) eq_refl) as ([m ms] & E8 & HI).
  { intros i x Hx. assert (i < n) as Hi by (by eapply lookup_lt_Some). destruct (B2 i x Hx Hi) as (a & Ha & Ep). exists a. rewrite HF3. split; auto.
    destruct (NP x) as [y|] eqn:En.
    - right. destruct (l_stored F0 l Hlv i x Hx) as (a0 & Ha0 & Hf0).
      destruct (NP_in F0 l dd fuel Hpar Hfuel Hlv x y ltac:(eauto) En) as [Hy _].
      apply elem_of_list_lookup in Hy as (j & Hj). destruct (l_stored F0 l Hlv j y Hj) as (c & Hc & Hcf).
      destruct (rl_reg _ _ _ _ B1 y c Hc) as (b & Hb & Eb & _). exists y, b, j. split; auto. split; auto. split; [rewrite Eb; by destruct c|].
      split; [eapply (pl_mi _ _ _ _ _ _ _ _ _ HP); eauto; by eapply lookup_lt_Some|]. apply (vp_some F0 l fuel Hl i x Hx). eauto.
    - left. split; auto. destruct (vp i) as [j|] eqn:Ev; [|done]. apply (vp_some F0 l fuel Hl i x Hx) in Ev as (y & ? & _). congruence. }
  { exact (closed_fin n vp mown shr mgr sz r mow (fun j => eq_refl) (m1, ms3) ms4 HFl HC). }
  rewrite E8. eauto.
Qed.
End ext.
