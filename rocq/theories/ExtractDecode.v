(* Reading records: the traversal with a stack ends and visits every record below the
   given one once. *)
From stdpp Require Import sorting relations functions list_numbers list.
From Coq Require Import NArith ZArith.
From Verif Require Import FloodModel ConnectModel PartModel WholeModel FloatModel RecogModel RectModel ExtractModel ExtractAbs ExtractFinish.
Local Open Scope nat_scope.

(* SPEC: record j can be read: its four ranges hold [pts], and it lists the records
   [kids], as differences to its own number *)
Definition readable (R : mres) (j : nat) (pts : list (Z * Z)) (kids : list nat) : Prop :=
  exists c, r_ms R !! j = Some c /\ read_ranges (r_size R) (r_mem R) (ms_pts c) = Some pts /\
    if ms_share c then kids = []
    else m_get (r_size R) (r_mem R) (2 * (ms_pts c + 4)) = Some (Z.of_nat (length kids)) /\
      forall t d, kids !! t = Some d ->
        m_get (r_size R) (r_mem R) (2 * (ms_pts c + 4) + 1 + t) = Some (Z.of_nat d - Z.of_nat j)%Z.

Lemma push_ok size m w j kids stack :
  (forall t d, kids !! t = Some d -> m_get size m (w + t) = Some (Z.of_nat d - Z.of_nat j)%Z) ->
  push_children size m w j (length kids) stack = Some (reverse kids ++ stack).
Proof.
  revert w stack. induction kids as [|d kids IH]; intros w stack H; [done|]. cbn [length push_children].
  pose proof (H 0 d eq_refl) as H0. rewrite Nat.add_0_r in H0. rewrite H0.
  replace (Z.of_nat d - Z.of_nat j + Z.of_nat j)%Z with (Z.of_nat d) by lia. rewrite off_nat. rewrite IH.
  - by rewrite reverse_cons, <-app_assoc.
  - intros t e He. replace (w + 1 + t) with (w + S t) by lia. by apply H.
Qed.

Section dec.
Context (R : mres) (n : nat) (vp : nat -> option nat) (Hvp : forall i j, vp i = Some j -> i < j /\ j < n).
Context (rp : nat -> list (Z * Z)) (kids : nat -> list nat).
Context (Hr : forall j, j < n -> readable R j (rp j) (kids j)) (Hk : forall j, j < n -> kids j ≡ₚ chl vp j).
Notation nodes := (nodes vp).

Lemma bind_perm {X Y} (f : X -> list Y) a b : a ≡ₚ b -> a ≫= f ≡ₚ b ≫= f.
Proof. intros H. by rewrite H. Qed.

Lemma visit_ok fu st : (forall j, j ∈ st -> j < n) -> length (st ≫= nodes) <= fu ->
  exists js, visit fu R st = Some (js ≫= rp, js) /\ js ≡ₚ st ≫= nodes.
Proof.
  revert st. induction fu as [|fu IH]; intros [|j st] Hst Hf.
  - by exists [].
  - cbn in Hf. rewrite app_length in Hf. unfold ExtractAbs.nodes, pts in Hf. cbn in Hf. lia.
  - by exists [].
  - cbn [visit]. destruct (Hr j) as (c & Hc & Hp & Hl); [apply Hst; left|]. rewrite Hc, Hp.
    assert ((if ms_share c then Some st
             else match off (m_get (r_size R) (r_mem R) (2 * (ms_pts c + 4))) with
                  | Some k => push_children (r_size R) (r_mem R) (2 * (ms_pts c + 4) + 1) j k st
                  | None => None
                  end) = Some (reverse (kids j) ++ st)) as ->.
    { destruct (ms_share c); [by rewrite Hl|]. destruct Hl as [H1 H2]. rewrite H1, off_nat. by apply push_ok. }
    assert (j < n) as Hj by (apply Hst; left).
    assert (reverse (kids j) ≡ₚ chl vp j) as Hp2 by (rewrite reverse_Permutation; auto).
    assert ((j :: st) ≫= nodes ≡ₚ j :: ((reverse (kids j) ++ st) ≫= nodes)) as Hperm.
    { rewrite bind_app. cbn [mbind list_bind]. rewrite (nodes_eq n vp Hvp j). cbn [app]. constructor.
      change (list_bind _ _ nodes) with (@mbind list list_bind nat nat nodes). by rewrite (bind_perm nodes _ _ Hp2). }
    destruct (IH (reverse (kids j) ++ st)) as (js & E & Hjs).
    + intros i Hi. apply elem_of_app in Hi as [Hi|Hi]; [|apply Hst; by right].
      rewrite Hp2 in Hi. apply (elem_chl n vp Hvp), Hvp in Hi. lia.
    + rewrite Hperm in Hf. cbn in Hf. lia.
    + rewrite E. exists (j :: js). split; [done|]. rewrite Hperm. by constructor.
Qed.

Lemma visit_one j : j < n -> exists js, visit n R [j] = Some (js ≫= rp, js) /\ js ≡ₚ nodes j.
Proof.
  intros Hj. destruct (visit_ok n [j]) as (js & E & H).
  - intros i ->%elem_of_list_singleton. done.
  - cbn. rewrite app_nil_r. by apply (nodes_len n vp Hvp).
  - exists js. split; auto. rewrite H. cbn. by rewrite app_nil_r.
Qed.
End dec.

(* SPEC: records that can all be read; every listed record comes before the record that
   lists it, and no record is listed twice *)
Record well_formed (R : mres) (rp : nat -> list (Z * Z)) (kids : nat -> list nat) : Prop := {
  wf_read : forall j, j < length (r_ms R) -> readable R j (rp j) (kids j);
  wf_before : forall j c, j < length (r_ms R) -> c ∈ kids j -> c < j;
  wf_once : forall j j' t t' c, j < length (r_ms R) -> j' < length (r_ms R) ->
    kids j !! t = Some c -> kids j' !! t' = Some c -> j = j' /\ t = t'
}.

Lemma decode_ok R rp kids j : well_formed R rp kids -> j < length (r_ms R) ->
  exists js, visit (length (r_ms R)) R [j] = Some (js ≫= rp, js) /\ NoDup js /\
    forall c, c ∈ js <-> rtc (fun a b => b < length (r_ms R) /\ a ∈ kids b) c j.
Proof.
  intros [H1 H2 H3] Hj. set (n := length (r_ms R)) in *.
  set (vp := fun c => (fun t : nat * nat => snd t) <$> list_find (fun b => c ∈ kids b) (seq 0 n)).
  assert (forall c b, vp c = Some b <-> b < n /\ c ∈ kids b) as Hvs.
  { intros c b. unfold vp. rewrite fmap_Some. split.
    - intros ([i b'] & E & ->). apply list_find_Some in E as (E & Hc & _). cbn in *. apply lookup_seq in E as [-> E]. done.
    - intros [Hb Hc]. destruct (list_find (fun b => c ∈ kids b) (seq 0 n)) as [[i b']|] eqn:E.
      + exists (i, b'). split; auto. cbn. apply list_find_Some in E as (E & Hc' & _). apply lookup_seq in E as [-> E].
        apply elem_of_list_lookup in Hc as [t Ht], Hc' as [t' Ht']. by destruct (H3 b (0 + i) t t' c).
      + exfalso. apply list_find_None in E. rewrite Forall_forall in E. apply (E b); auto. apply elem_of_seq. lia. }
  assert (forall c b, vp c = Some b -> c < b /\ b < n) as Hvp.
  { intros c b [Hb Hc]%Hvs. eauto. }
  destruct (visit_one R n vp Hvp rp kids) with j as (js & E & Hjs); auto.
  { intros b Hb. apply NoDup_Permutation.
    - apply NoDup_alt. intros t t' c Ht Ht'. by destruct (H3 b b t t' c).
    - apply procs_NoDup.
    - intros c. rewrite (elem_chl n vp Hvp), Hvs. tauto. }
  exists js. split; auto. split; [rewrite Hjs; by apply (nodes_NoDup n)|]. intros c. rewrite Hjs, (elem_nodes n vp Hvp). split.
  - induction 1 as [|a b d Hab _ IH]; [apply rtc_refl|]. eapply rtc_l; [|by apply IH]. by apply Hvs.
  - induction 1 as [|a b d Hab _ IH]; [apply rtc_refl|]. eapply rtc_l; [|by apply IH]. by apply Hvs.
Qed.

(* ---------- the records of a finished extraction ---------- *)
Section fin.
Context (n : nat) (vp : nat -> option nat) (Hvp : forall i j, vp i = Some j -> i < j /\ j < n).
Context (own : nat -> nat -> list (Z * Z)) (sh : nat -> bool).

(* only the children of records that are not share are listed *)
Definition vpl (c : nat) : option nat := match vp c with Some j => if sh j then None else Some j | None => None end.
Lemma vpl_some c j : vpl c = Some j <-> vp c = Some j /\ sh j = false.
Proof. unfold vpl. destruct (vp c) as [j'|]; [|naive_solver]. destruct (sh j') eqn:E; naive_solver congruence. Qed.
Lemma Hvpl c j : vpl c = Some j -> c < j /\ j < n.
Proof. intros [H _]%vpl_some. by apply Hvp. Qed.
Lemma chl_vpl j : chl vpl j = if sh j then [] else chl vp j.
Proof.
  unfold chl, procs. destruct (sh j) eqn:E.
  - assert (forall a k, filter (fun c => vpl c = Some j) (seq a k) = []) as H; [|apply H].
    intros a k. revert a. induction k as [|k IH]; intros a; [done|]. cbn [seq]. rewrite filter_cons_False; [apply IH|].
    intros [_ ?]%vpl_some. congruence.
  - apply list_filter_iff. intros c. rewrite vpl_some. tauto.
Qed.

Definition shown (j : nat) : list (Z * Z) := if sh j then pts vp own j else own 0 j ++ rest own j.
Lemma shown_pts j : nodes vpl j ≫= shown ≡ₚ pts vp own j.
Proof.
  revert j. apply fdec. intros j IH. rewrite (nodes_eq n vpl Hvpl j). cbn [mbind list_bind].
  change (list_bind _ _ shown) with (@mbind list list_bind nat (Z * Z) shown). rewrite chl_vpl.
  unfold shown at 1. destruct (sh j) eqn:E; [cbn; by rewrite app_nil_r|].
  rewrite (pts_eq n vp Hvp own j). rewrite <-!app_assoc. f_equiv. rewrite (Permutation_app_comm (chl vp j ≫= pts vp own)). f_equiv.
  assert (forall c, c ∈ chl vp j -> nodes vpl c ≫= shown ≡ₚ pts vp own c) as Hc.
  { intros c [H _]%(elem_chl n vp Hvp)%Hvp. by apply IH. }
  revert Hc. induction (chl vp j) as [|c l IHl]; intros Hc; [done|]. cbn [mbind list_bind].
  change (list_bind _ _ (nodes vpl)) with (@mbind list list_bind nat nat (nodes vpl)).
  rewrite bind_app, (Hc c) by left. rewrite IHl; [done|]. intros d Hd. apply Hc. by right.
Qed.

Context (Hsh : forall i j, vp i = Some j -> sh j = true -> sh i = true).
Notation pos := (pos n vp own sh). Notation total := (total n vp own sh). Notation hp := (hp vp own sh).
Notation holds := (ExtractMem.holds n vp own sh). Notation W := (ExtractMem.W n vp own sh).

Lemma read_pts_ok m j s q L : j < n -> okslot s -> holds m j s q L -> read_pts total m (pos j s + q) (length L) = Some L.
Proof.
  intros Hj Hs. revert q. induction L as [|v L IH]; intros q [H1 H2]; [done|]. cbn [length read_pts]. cbn [length] in H1.
  rewrite (ExtractMem.pget_ok n vp own sh m j s q v); [|done|done|lia| |].
  2:{ pose proof (H2 0 v eq_refl 0 ltac:(lia)) as H. by rewrite Nat.add_0_r in H. }
  2:{ pose proof (H2 0 v eq_refl 1 ltac:(lia)) as H. by rewrite Nat.add_0_r in H. }
  rewrite <-Nat.add_assoc, IH; [done|]. split; [lia|]. intros t u Hu e He. replace (q + 1 + t) with (q + S t) by lia. by apply H2.
Qed.

Lemma finished_readable gr sz t j : after7 n vp own sh gr sz n t -> j < n ->
  readable (MRes total (fst t) (snd t)) j (shown j) (chl vpl j).
Proof.
  intros H7 Hj. destruct (a7_ms _ _ _ _ _ _ _ _ H7 j Hj) as (rc & Hms & _). eexists. split; [exact Hms|]. cbn [ms_pts ms_share r_size r_mem].
  assert (procs vp n j = chl vp j) as Epr by (apply (procs_later n vp Hvp); lia).
  assert (forall k L, k < 4 -> L = (if k =? 0 then cont vp own sh n j else own k j) -> read_range total (fst t) (hp j) k = Some L) as HRR.
  { intros k L Hk EL. destruct (a7_hd _ _ _ _ _ _ _ _ H7 j Hj k Hk) as [W0 W1]. unfold read_range.
    rewrite (get_hd0 n vp own sh), (get_hd n vp own sh) by lia. rewrite W0, W1. unfold rng. cbn [fst snd].
    rewrite (proj2 (Nat.ltb_lt j n) Hj).
    assert ((if Nat.eqb k 0 then length (cont vp own sh n j) else nk own k j) = length L) as -> by (subst L; by destruct (k =? 0)).
    destruct (Z.leb_spec (Z.of_nat (pos j (Bk k) + length L) - Z.of_nat (hp j)) (Z.of_nat (pos j (Bk k)) - Z.of_nat (hp j))) as [Hz|Hz].
    { assert (length L = 0) as H0 by lia. by apply nil_length_inv in H0 as ->. }
    replace (Z.of_nat (pos j (Bk k)) - Z.of_nat (hp j) + Z.of_nat (hp j))%Z with (Z.of_nat (pos j (Bk k))) by lia. rewrite off_nat.
    replace (Z.to_nat _) with (length L) by lia. rewrite <-(Nat.add_0_r (pos j (Bk k))). apply read_pts_ok; auto.
    subst L. destruct k as [|k]; cbn [Nat.eqb]; [by apply (a7_b0 _ _ _ _ _ _ _ _ H7)|]. apply (a7_bk _ _ _ _ _ _ _ _ H7); auto. lia. }
  split.
  - unfold read_ranges. rewrite (HRR 0 (cont vp own sh n j)), (HRR 1 (own 1 j)), (HRR 2 (own 2 j)), (HRR 3 (own 3 j)); auto; try lia.
    f_equal. unfold shown, cont, rest. destruct (sh j); rewrite ?app_nil_r; [|done]. rewrite Epr, (pts_eq n vp Hvp own j). by rewrite <-!app_assoc.
  - rewrite chl_vpl. destruct (sh j) eqn:Es; [done|]. destruct (a7_ch _ _ _ _ _ _ _ _ H7 j Hj Es) as [C0 C1]. rewrite Epr in C0, C1.
    pose proof (kn_room vp j) as Hroom.
    assert (forall w, w < 2 * kn vp j -> m_get total (fst t) (2 * (hp j + 4) + w) = CW n vp own sh (fst t) j w) as Hg.
    { intros w Hw. rewrite <-(adr_ch n vp own sh j w). apply ExtractMem.get_ok. by apply ok_ch. }
    split.
    + rewrite <-C0, <-Hg by lia. by rewrite Nat.add_0_r.
    + intros u d Hu. rewrite <-(C1 u d Hu), <-Hg by (apply lookup_lt_Some in Hu; lia). f_equal. lia.
Qed.

Lemma finished_visit gr sz t j : after7 n vp own sh gr sz n t -> j < n ->
  exists ps js, visit n (MRes total (fst t) (snd t)) [j] = Some (ps, js) /\ ps ≡ₚ pts vp own j /\ js ≡ₚ nodes vpl j.
Proof.
  intros H7 Hj. destruct (visit_one (MRes total (fst t) (snd t)) n vpl Hvpl shown (chl vpl)) with j as (js & E & Hjs); auto.
  { intros i Hi. by eapply finished_readable. }
  exists (js ≫= shown), js. split; auto. split; auto. rewrite (bind_perm shown _ _ Hjs). apply shown_pts.
Qed.
Lemma finished_wf gr sz t : after7 n vp own sh gr sz n t -> well_formed (MRes total (fst t) (snd t)) shown (chl vpl).
Proof.
  intros H7. assert (length (r_ms (MRes total (fst t) (snd t))) = n) as El by (cbn; by apply (a7_len _ _ _ _ _ _ _ _ H7)).
  constructor; rewrite El.
  - intros j Hj. by eapply finished_readable.
  - intros j c Hj Hc. apply (elem_chl n vpl Hvpl), Hvpl in Hc. lia.
  - intros j j' u u' c Hj Hj' Hu Hu'. pose proof (elem_of_list_lookup_2 _ _ _ Hu) as E1. pose proof (elem_of_list_lookup_2 _ _ _ Hu') as E2.
    apply (elem_chl n vpl Hvpl) in E1, E2. assert (j = j') as <- by congruence. split; auto.
    eapply NoDup_lookup; [apply (procs_NoDup vpl j j)|exact Hu|exact Hu'].
Qed.
End fin.
