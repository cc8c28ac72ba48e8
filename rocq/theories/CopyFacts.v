(* Proofs about copying results (CopyModel.v). *)
From stdpp Require Import sorting relations functions list_numbers list.
From Coq Require Import ZArith Lia.
From Verif Require Import CopyModel.
Local Open Scope nat_scope.

Lemma read_app m x p n vs : read_at m p n = Some vs -> read_at (m ++ x) p n = Some vs.
Proof.
  unfold read_at. destruct n; [auto|]. destruct p as [[b o]|]; [|discriminate]. destruct (m !! b) as [e|] eqn:E; [|discriminate].
  rewrite (lookup_app_l_Some _ _ _ _ E). auto.
Qed.
Lemma read_len m p n vs : read_at m p n = Some vs -> length vs = n.
Proof.
  unfold read_at. destruct n; [intros [= <-]; reflexivity|]. destruct p as [[b o]|]; [|discriminate]. destruct (m !! b) as [[[k e]|]|]; [|discriminate|discriminate].
  destruct (Nat.leb_spec (o + S n) (length e)); [|discriminate]. intros [= <-]. rewrite take_length, drop_length. lia.
Qed.
Lemma read_new m x vs : read_at (m ++ [Some (true, vs)] ++ x) (Some (length m, 0)) (length vs) = Some vs.
Proof.
  unfold read_at. destruct (length vs) eqn:L; [destruct vs; [reflexivity|discriminate]|].
  rewrite lookup_app_r by lia. rewrite Nat.sub_diag. cbn [app lookup list_lookup]. rewrite L. cbn [Nat.add]. rewrite Nat.leb_refl.
  rewrite drop_0. rewrite <- L. rewrite firstn_all. reflexivity.
Qed.

Lemma new_copy_ok m p n vs : read_at m p n = Some vs -> exists x p', new_copy n p m = Some (p', m ++ x) /\
  (forall y, read_at (m ++ x ++ y) p' n = Some vs) /\ (n = 0 /\ p' = None /\ x = [] \/ 0 < n /\ p' = Some (length m, 0) /\ x = [Some (true, vs)]).
Proof.
  intros R. unfold new_copy. destruct (Nat.eqb_spec n 0) as [->|N].
  - exists [], None. rewrite app_nil_r. split; [reflexivity|]. split; [|auto]. intros y. unfold read_at in *. exact R.
  - rewrite R. exists [Some (true, vs)], (Some (length m, 0)). split; [reflexivity|]. split.
    + intros y. rewrite <- (read_len _ _ _ _ R). apply read_new.
    + right. split; [lia|]. auto.
Qed.

(* SPEC: r' is a copy of r made in the memory m, read in m' *)
Definition rec_copied (m m' : cmemory) (r r' : mrec) : Prop :=
  r_self r' = r_self r /\ r_size r' = r_size r /\ rec_points m' r' = rec_points m r /\
  if r_self r then match r_points r' with None => r_size r = 0 | Some (b, o) => o = 0 /\ length m <= b end else r_points r' = r_points r.

Lemma copied_mono m m1 x r r' : (exists vs, rec_points m r = Some vs) -> rec_copied m m1 r r' -> rec_copied m (m1 ++ x) r r'.
Proof.
  intros (vs & R) (A & B & C & D). split; [exact A|]. split; [exact B|]. split; [|exact D]. rewrite R in C |- *. apply read_app. exact C.
Qed.

Lemma copied_start m x m' r r' : (exists vs, rec_points m r = Some vs) -> rec_copied (m ++ x) m' r r' -> rec_copied m m' r r'.
Proof.
  intros (vs & R) (A & B & C & D). split; [exact A|]. split; [exact B|]. split.
  - rewrite R. unfold rec_points in *. rewrite C. apply read_app. exact R.
  - destruct (r_self r); [|exact D]. destruct (r_points r') as [[b o]|]; [|exact D]. destruct D as (D1 & D2). rewrite app_length in D2. split; [exact D1|lia].
Qed.
Lemma Forall2_more {A B} (P : A -> Prop) (Q Q' : A -> B -> Prop) l k : Forall P l -> Forall2 Q l k -> (forall a b, P a -> Q a b -> Q' a b) -> Forall2 Q' l k.
Proof. intros F F2 I. induction F2; [constructor|]. apply Forall_cons in F. destruct F. constructor; auto. Qed.

Lemma copy_recs_ok rs : forall m, Forall (fun r => exists vs, rec_points m r = Some vs) rs ->
  exists rs' x, copy_recs rs m = Some (rs', m ++ x) /\ Forall2 (rec_copied m (m ++ x)) rs rs'.
Proof.
  induction rs as [|r rs IH]; intros m OK; cbn [copy_recs].
  - exists [], []. rewrite app_nil_r. split; [reflexivity|constructor].
  - apply Forall_cons in OK. destruct OK as ((vs & R) & OK).
    assert (exists r' x, copy_rec r m = Some (r', m ++ x) /\ rec_copied m (m ++ x) r r') as (r' & x & E & C).
    { unfold copy_rec. destruct (r_self r) eqn:SF.
      - destruct (new_copy_ok m (r_points r) (r_size r) vs R) as (x & p' & E & RD & SH). rewrite E.
        eexists _, x. split; [reflexivity|]. unfold rec_copied. cbn [r_self r_size r_points]. rewrite SF. split; [reflexivity|]. split; [reflexivity|].
        split. { unfold rec_points in *. cbn [r_size r_points]. rewrite R. specialize (RD []). rewrite app_nil_r in RD. exact RD. }
        destruct SH as [(Z & -> & _)|(_ & -> & _)]; [exact Z|]. auto.
      - exists r, []. rewrite app_nil_r. split; [reflexivity|]. unfold rec_copied. rewrite SF. auto. }
    rewrite E. destruct (IH (m ++ x)) as (rs' & y & E' & F).
    { eapply Forall_impl; [exact OK|]. intros q (w & RQ). exists w. apply read_app. exact RQ. }
    rewrite E'. exists (r' :: rs'), (x ++ y). rewrite app_assoc. split; [reflexivity|]. constructor.
    + apply copied_mono; eauto.
    + eapply Forall2_more; [exact OK|exact F|]. intros a b RA CA. exact (copied_start _ _ _ _ _ RA CA).
Qed.

Lemma mem_read m c : mem_ok m c -> exists vs, read_at m (c_mem c) (c_size c) = Some vs.
Proof.
  unfold mem_ok, read_at. destruct (c_mem c) as [[b o]|].
  - intros (-> & vs & E & L). destruct (c_size c) as [|n] eqn:SZ; [eauto|]. rewrite E. destruct (Nat.leb_spec (0 + S n) (length vs)); [eauto|lia].
  - intros ->. eauto.
Qed.

Lemma rec_ok_app m x mb r : rec_ok m mb r -> rec_ok (m ++ x) mb r.
Proof.
  intros ((vs & R) & K). split; [exists vs; apply read_app; exact R|]. destruct (r_self r); [|exact K].
  destruct (r_points r) as [[b o]|]; [|exact K]. destruct K as (-> & ws & E). split; [reflexivity|]. exists ws. apply lookup_app_l_Some. exact E.
Qed.
Lemma mem_ok_app m x c : mem_ok m c -> mem_ok (m ++ x) c.
Proof.
  unfold mem_ok. destruct (c_mem c) as [[b o]|]; [|auto]. intros (-> & vs & E & L). split; [reflexivity|]. exists vs. split; [|exact L].
  apply lookup_app_l_Some. exact E.
Qed.
Lemma result_ok_app m x a b : result_ok m a b -> result_ok (m ++ x) a b.
Proof.
  intros (ND & MA & MB & RA & RB). split; [exact ND|]. split; [apply mem_ok_app; exact MA|]. split; [apply mem_ok_app; exact MB|].
  split; (eapply Forall_impl; [eassumption|]); intros r; apply rec_ok_app.
Qed.

(* SPEC: m' is m with the blocks ds released *)
Definition released (ds : list nat) (m m' : cmemory) : Prop :=
  length m' = length m /\ forall d, m' !! d = if decide (d ∈ ds) then Some None else m !! d.
Lemma released_none m : released [] m m.
Proof. split; [reflexivity|]. intros d. rewrite decide_False; [reflexivity|]. apply not_elem_of_nil. Qed.
Lemma released_app ds es m m1 m2 : released ds m m1 -> released es m1 m2 -> released (ds ++ es) m m2.
Proof.
  intros (L1 & R1) (L2 & R2). split; [lia|]. intros d. rewrite R2, R1. destruct (decide (d ∈ es)) as [IN|NI].
  - rewrite decide_True; [reflexivity|]. apply elem_of_app. auto.
  - destruct (decide (d ∈ ds)) as [IN'|NI'].
    + rewrite decide_True; [reflexivity|]. apply elem_of_app. auto.
    + rewrite decide_False; [reflexivity|]. rewrite elem_of_app. tauto.
Qed.
Lemma released_perm ds es m m' : (forall d, d ∈ ds <-> d ∈ es) -> released ds m m' -> released es m m'.
Proof.
  intros P (L & R). split; [exact L|]. intros d. rewrite R. destruct (decide (d ∈ ds)) as [IN|NI].
  - rewrite decide_True; [reflexivity|]. apply P. exact IN.
  - rewrite decide_False; [reflexivity|]. intros IN. apply NI. apply P. exact IN.
Qed.

(* SPEC: the blocks ds are allocated *)
Definition live_rec (m : cmemory) (r : mrec) : Prop :=
  r_self r = true -> match r_points r with None => True | Some (b, o) => o = 0 /\ exists vs, m !! b = Some (Some (true, vs)) end.

Lemma destroy_recs_ok strict rs : forall m, NoDup (concat (map rec_block rs)) -> Forall (live_rec m) rs ->
  exists m', destroy_recs strict rs m = Some m' /\ released (concat (map rec_block rs)) m m'.
Proof.
  induction rs as [|r rs IH]; intros m ND LV; cbn [destroy_recs map concat] in *.
  - exists m. split; [reflexivity|]. apply released_none.
  - apply NoDup_app in ND. destruct ND as (ND1 & DJ & ND2). apply Forall_cons in LV. destruct LV as (LR & LV).
    assert (exists m1, destroy_rec strict r m = Some m1 /\ released (rec_block r) m m1) as (m1 & E & R1).
    { unfold destroy_rec, rec_block, live_rec in *. destruct (r_self r); [|exists m; split; [reflexivity|apply released_none]].
      unfold release. destruct (r_points r) as [[b o]|]; [|exists m; split; [reflexivity|apply released_none]].
      destruct (LR eq_refl) as (-> & vs & E). rewrite E. cbn [Nat.eqb andb Bool.eqb]. rewrite orb_true_r. eexists. split; [reflexivity|].
      split; [apply insert_length|]. intros d. assert (b < length m) by (apply lookup_lt_Some in E; exact E).
      destruct (decide (d = b)) as [->|N].
      - rewrite list_lookup_insert by assumption. rewrite decide_True; [reflexivity|]. apply elem_of_list_singleton. reflexivity.
      - rewrite list_lookup_insert_ne by congruence. rewrite decide_False; [reflexivity|]. rewrite elem_of_list_singleton. exact N. }
    rewrite E. destruct (IH m1 ND2) as (m2 & E2 & R2).
    { apply Forall_forall. intros q IN SF. pose proof (proj1 (Forall_forall _ _) LV q IN SF) as K. destruct (r_points q) as [[b o]|] eqn:PQ; [|exact I].
      destruct K as (-> & vs & EB). split; [reflexivity|]. exists vs. rewrite (proj2 R1). rewrite decide_False; [exact EB|].
      intros INB. apply (DJ b INB). apply elem_of_list_In, in_concat. exists (rec_block q). split.
      - apply in_map. apply elem_of_list_In. exact IN.
      - unfold rec_block. rewrite SF, PQ. left. reflexivity. }
    exists m2. split; [exact E2|]. exact (released_app _ _ _ _ _ R1 R2).
Qed.

Lemma release_mem m c : mem_ok m c -> exists m', release true false (c_mem c) m = Some m' /\ released (mem_block c) m m'.
Proof.
  unfold mem_ok, release, mem_block. destruct (c_mem c) as [[b o]|].
  - intros (-> & vs & E & L). rewrite E. cbn [Nat.eqb andb negb Bool.eqb orb]. eexists. split; [reflexivity|].
    split; [apply insert_length|]. intros d. assert (b < length m) by (apply lookup_lt_Some in E; exact E).
    destruct (decide (d = b)) as [->|N].
    + rewrite list_lookup_insert by assumption. rewrite decide_True; [reflexivity|]. apply elem_of_list_singleton. reflexivity.
    + rewrite list_lookup_insert_ne by congruence. rewrite decide_False; [reflexivity|]. rewrite elem_of_list_singleton. exact N.
  - intros _. exists m. split; [reflexivity|]. apply released_none.
Qed.

Lemma in_blocks r rs b o : r ∈ rs -> r_self r = true -> r_points r = Some (b, o) -> b ∈ concat (map rec_block rs).
Proof.
  intros IN SF PQ. apply elem_of_list_In, in_concat. exists (rec_block r). split.
  - apply in_map. apply elem_of_list_In. exact IN.
  - unfold rec_block. rewrite SF, PQ. left. reflexivity.
Qed.
Lemma live_rel ds m m' mb rs : released ds m m' -> (forall b, b ∈ ds -> b ∉ concat (map rec_block rs)) -> Forall (rec_ok m mb) rs -> Forall (live_rec m') rs.
Proof.
  intros (_ & R) DJ F. apply Forall_forall. intros q IN SF. destruct (proj1 (Forall_forall _ _) F q IN) as (_ & K). rewrite SF in K.
  destruct (r_points q) as [[b o]|] eqn:PQ; [|exact I]. destruct K as (-> & vs & E). split; [reflexivity|]. exists vs. rewrite R.
  rewrite decide_False; [exact E|]. intros IB. exact (DJ b IB (in_blocks _ _ _ _ IN SF PQ)).
Qed.

Lemma destroy_ok m a b : result_ok m a b -> exists m', destroy_result true a b m = Some m' /\ released (owned a b) m m'.
Proof.
  intros (ND & MA & MB & RA & RB). unfold owned in ND. apply NoDup_app in ND. destruct ND as (_ & D1 & ND). apply NoDup_app in ND. destruct ND as (_ & D2 & ND).
  apply NoDup_app in ND. destruct ND as (NA & D3 & NB).
  unfold destroy_result. destruct (release_mem m a MA) as (m1 & E1 & R1). rewrite E1.
  assert (MB1 : mem_ok m1 b).
  { unfold mem_ok in *. destruct (c_mem b) as [[q o]|] eqn:QB; [|exact MB]. destruct MB as (-> & vs & E & L). split; [reflexivity|]. exists vs. split; [|exact L].
    rewrite (proj2 R1). rewrite decide_False; [exact E|]. intros IN. apply (D1 q IN). rewrite !elem_of_app. left. unfold mem_block. rewrite QB. left. }
  destruct (release_mem m1 b MB1) as (m2 & E2 & R2). rewrite E2.
  pose proof (released_app _ _ _ _ _ R1 R2) as R12.
  destruct (destroy_recs_ok true (c_msers b) m2 NB) as (m3 & E3 & R3).
  { eapply live_rel; [exact R12| |exact RB]. intros q IN IN'. apply elem_of_app in IN. destruct IN as [IN|IN].
    - apply (D1 q IN). rewrite !elem_of_app. auto.
    - apply (D2 q IN). rewrite !elem_of_app. auto. }
  rewrite E3. pose proof (released_app _ _ _ _ _ R12 R3) as R123.
  destruct (destroy_recs_ok true (c_msers a) m3 NA) as (m4 & E4 & R4).
  { eapply live_rel; [exact R123| |exact RA]. intros q IN IN'. rewrite !elem_of_app in IN. destruct IN as [[IN|IN]|IN].
    - apply (D1 q IN). rewrite !elem_of_app. auto.
    - apply (D2 q IN). rewrite !elem_of_app. auto.
    - apply (D3 q IN' IN). }
  exists m4. split; [exact E4|]. eapply released_perm; [|exact (released_app _ _ _ _ _ R123 R4)]. intros d. unfold owned. rewrite !elem_of_app. tauto.
Qed.

Lemma read_released ds m m' p n : released ds m m' -> (forall b o, p = Some (b, o) -> b ∉ ds) -> read_at m' p n = read_at m p n.
Proof.
  intros (_ & R) NI. unfold read_at. destruct n; [reflexivity|]. destruct p as [[b o]|]; [|reflexivity]. rewrite R, decide_False; [reflexivity|]. exact (NI b o eq_refl).
Qed.

Lemma owned_lt m a b d : result_ok m a b -> d ∈ owned a b -> d < length m.
Proof.
  intros (_ & MA & MB & RA & RB) IN. unfold owned in IN. rewrite !elem_of_app in IN.
  assert (MEM : forall c, mem_ok m c -> d ∈ mem_block c -> d < length m).
  { intros c M I. unfold mem_ok, mem_block in *. destruct (c_mem c) as [[q o]|]; [|apply elem_of_nil in I; contradiction].
    apply elem_of_list_singleton in I. subst q. destruct M as (_ & vs & E & _). apply lookup_lt_Some in E. exact E. }
  assert (REC : forall mb rs, Forall (rec_ok m mb) rs -> d ∈ concat (map rec_block rs) -> d < length m).
  { intros mb rs F I. apply elem_of_list_In, in_concat in I. destruct I as (l & IL & ID). apply in_map_iff in IL. destruct IL as (r & <- & IR).
    apply elem_of_list_In in IR. destruct (proj1 (Forall_forall _ _) F r IR) as (_ & K). unfold rec_block in ID. destruct (r_self r); [|destruct ID].
    destruct (r_points r) as [[q o]|]; [|destruct ID]. destruct ID as [->|[]]. destruct K as (_ & vs & E). apply lookup_lt_Some in E. exact E. }
  destruct IN as [I|[I|[I|I]]]; eauto.
Qed.

(* the result of a copy, before and after the source is destroyed *)
(* SPEC: what the points of a copied record are after the source was destroyed *)
Definition after_source (m m2 : cmemory) (r r' : mrec) : Prop :=
  rec_points m2 r' = if r_self r || (r_size r =? 0) then rec_points m r else None.

Lemma copy_ok m a b : result_ok m a b ->
  exists a' b' m1, copy_result a b m = Some (a', b', m1) /\
    Forall2 (fun r r' => rec_points m1 r' = rec_points m r) (c_msers a) (c_msers a') /\
    Forall2 (fun r r' => rec_points m1 r' = rec_points m r) (c_msers b) (c_msers b') /\
    read_at m1 (c_mem a') (c_size a') = read_at m (c_mem a) (c_size a) /\ read_at m1 (c_mem b') (c_size b') = read_at m (c_mem b) (c_size b) /\
    exists m2, destroy_result true a b m1 = Some m2 /\
      Forall2 (after_source m m2) (c_msers a) (c_msers a') /\ Forall2 (after_source m m2) (c_msers b) (c_msers b') /\
      (0 < c_size a \/ 0 < c_size b -> forall m', (m' = m1 \/ m' = m2) -> destroy_result true a' b' m' = None).
Proof.
  intros OK. pose proof OK as (ND & MA & MB & RA & RB).
  assert (RDA : Forall (fun r => exists vs, rec_points m r = Some vs) (c_msers a)) by (eapply Forall_impl; [exact RA|]; intros r (R & _); exact R).
  assert (RDB : Forall (fun r => exists vs, rec_points m r = Some vs) (c_msers b)) by (eapply Forall_impl; [exact RB|]; intros r (R & _); exact R).
  destruct (copy_recs_ok (c_msers a) m RDA) as (ra & x & EA & FA).
  destruct (copy_recs_ok (c_msers b) (m ++ x)) as (rb & y & EB & FB).
  { eapply Forall_impl; [exact RDB|]. intros r (vs & R). exists vs. apply read_app. exact R. }
  destruct (mem_read m a MA) as (va & VA). destruct (mem_read m b MB) as (vb & VB).
  destruct (new_copy_ok ((m ++ x) ++ y) (c_mem a) (c_size a) va) as (z & pa & NA & RDPA & SHA). { apply read_app, read_app. exact VA. }
  destruct (new_copy_ok (((m ++ x) ++ y) ++ z) (c_mem b) (c_size b) vb) as (w & pb & NB & RDPB & SHB). { apply read_app, read_app, read_app. exact VB. }
  unfold copy_result. rewrite EA, EB, NA, NB. eexists _, _, _. split; [reflexivity|]. cbn [c_msers c_mem c_size].
  set (m1 := (((m ++ x) ++ y) ++ z) ++ w).
  assert (F1 : Forall2 (rec_copied m m1) (c_msers a) ra).
  { eapply Forall2_more; [exact RDA|exact FA|]. intros r r' RD C. unfold m1. rewrite <- !app_assoc, app_assoc. apply copied_mono; assumption. }
  assert (F2 : Forall2 (rec_copied m m1) (c_msers b) rb).
  { eapply Forall2_more; [exact RDB|exact FB|]. intros r r' RD C. apply (copied_start m x); [exact RD|]. unfold m1. rewrite <- (app_assoc _ z w). apply copied_mono; [|exact C].
    destruct RD as (vs & R). exists vs. apply read_app. exact R. }
  split; [eapply Forall2_impl; [exact F1|]; intros r r' (_ & _ & C & _); exact C|].
  split; [eapply Forall2_impl; [exact F2|]; intros r r' (_ & _ & C & _); exact C|].
  split; [rewrite VA; unfold m1; rewrite <- (app_assoc _ z w); apply RDPA|].
  split; [rewrite VB; unfold m1; specialize (RDPB []); rewrite app_nil_r in RDPB; exact RDPB|].
  assert (OK1 : result_ok m1 a b). { unfold m1. rewrite <- !app_assoc. apply result_ok_app. exact OK. }
  destruct (destroy_ok m1 a b OK1) as (m2 & E2 & R2). exists m2. split; [exact E2|].
  assert (AFT : forall c rs rs', (forall q o, c_mem c = Some (q, o) -> q ∈ owned a b) -> Forall (rec_ok m (c_mem c)) rs -> Forall2 (rec_copied m m1) rs rs' -> Forall2 (after_source m m2) rs rs').
  { intros c rs rs' INC RO F. eapply Forall2_more; [exact RO|exact F|]. intros r r' ((vs & R) & K) (SF & SZ & C & D). unfold after_source.
    destruct (r_size r =? 0) eqn:Z.
    - rewrite orb_true_r. apply Nat.eqb_eq in Z. unfold rec_points. rewrite SZ, Z. reflexivity.
    - apply Nat.eqb_neq in Z. destruct (r_self r); cbn [orb].
      + rewrite <- C. unfold rec_points. apply (read_released _ _ _ _ _ R2). intros q o PQ IN. rewrite PQ in D. destruct D as (_ & D).
        pose proof (owned_lt m a b q OK IN). lia.
      + destruct K as [K|(q & o & o' & CM & PQ)]; [contradiction|]. unfold rec_points. rewrite D, PQ, SZ. unfold read_at.
        destruct (r_size r); [contradiction|]. rewrite (proj2 R2), decide_True; [reflexivity|]. exact (INC q o CM). }
  split; [apply (AFT a); [|exact RA|exact F1]|].
  { intros q o E. unfold owned, mem_block. rewrite E. rewrite !elem_of_app, elem_of_list_singleton. auto. }
  split; [apply (AFT b); [|exact RB|exact F2]|].
  { intros q o E. unfold owned, mem_block. rewrite E. rewrite !elem_of_app, elem_of_list_singleton. auto. }
  intros POS m' M'.
  assert (LIVE : forall q e, m1 !! q = Some e -> length m <= q -> m' !! q = Some e).
  { intros q e E GE. destruct M' as [M'|M']; subst m'; [exact E|]. rewrite (proj2 R2), decide_False; [exact E|]. intros IN. pose proof (owned_lt m a b q OK IN). lia. }
  assert (LM : length m <= length ((m ++ x) ++ y)) by (rewrite !app_length; lia).
  unfold destroy_result. cbn [c_mem c_msers].
  destruct SHA as [(ZA & ZA1 & ZA2) | (PA & ZA1 & ZA2)]; subst.
  - cbn [release]. destruct SHB as [(ZB & ZB1 & ZB2) | (PB & ZB1 & ZB2)]; subst; [lia|].
    cbn [release]. assert (L : m' !! length (((m ++ x) ++ y) ++ []) = Some (Some (true, vb))).
    { apply LIVE; [|rewrite app_nil_r; exact LM]. unfold m1. rewrite list_lookup_middle by reflexivity. reflexivity. }
    rewrite L. reflexivity.
  - cbn [release]. assert (L : m' !! length ((m ++ x) ++ y) = Some (Some (true, va))).
    { apply LIVE; [|exact LM]. unfold m1. apply lookup_app_l_Some. rewrite list_lookup_middle by reflexivity. reflexivity. }
    rewrite L. reflexivity.
Qed.

(* assigning an empty result *)
Lemma release_new_none m c : mem_ok m c -> c_mem c <> None -> release true true (c_mem c) m = None.
Proof.
  unfold mem_ok, release. destruct (c_mem c) as [[b o]|]; [|congruence]. intros (-> & vs & E & _) _. rewrite E. reflexivity.
Qed.
Lemma clear_fails m a b : result_ok m a b -> c_mem a <> None \/ c_mem b <> None -> clear_result true a b m = None.
Proof.
  intros (ND & MA & MB & RA & RB) NN. unfold owned in ND. apply NoDup_app in ND. destruct ND as (_ & D1 & ND). apply NoDup_app in ND. destruct ND as (_ & D2 & ND).
  apply NoDup_app in ND. destruct ND as (NA & D3 & NB). unfold clear_result.
  destruct (destroy_recs_ok true (c_msers a) m NA) as (m1 & E1 & R1).
  { apply (live_rel [] m m (c_mem a)); [apply released_none| |exact RA]. intros q IN. apply elem_of_nil in IN. contradiction. }
  rewrite E1. destruct (destroy_recs_ok true (c_msers b) m1 NB) as (m2 & E2 & R2). { eapply live_rel; [exact R1| |exact RB]. intros q IN IN'. exact (D3 q IN IN'). }
  rewrite E2. pose proof (released_app _ _ _ _ _ R1 R2) as R12.
  assert (KEEP : forall c, mem_ok m c -> (forall q o, c_mem c = Some (q, o) -> q ∉ concat (map rec_block (c_msers a)) ++ concat (map rec_block (c_msers b))) -> mem_ok m2 c).
  { intros c M NI. unfold mem_ok in *. destruct (c_mem c) as [[q o]|]; [|exact M]. destruct M as (-> & vs & E & L). split; [reflexivity|]. exists vs. split; [|exact L].
    rewrite (proj2 R12), decide_False; [exact E|]. exact (NI q 0 eq_refl). }
  assert (MA2 : mem_ok m2 a).
  { apply KEEP; [exact MA|]. intros q o E IN. apply (D1 q). { unfold mem_block. rewrite E. left. } rewrite !elem_of_app in *. tauto. }
  assert (MB2 : mem_ok m2 b).
  { apply KEEP; [exact MB|]. intros q o E IN. apply (D2 q). { unfold mem_block. rewrite E. left. } rewrite !elem_of_app in *. tauto. }
  destruct (c_mem a) eqn:CA.
  - rewrite <- CA. rewrite release_new_none; [reflexivity|exact MA2|congruence].
  - cbn [release]. rewrite release_new_none; [reflexivity|exact MB2|]. destruct NN; [contradiction|assumption].
Qed.

Lemma copy_self m a b : result_ok m a b ->
  exists a' b' m1 m2, copy_result a b m = Some (a', b', m1) /\ destroy_result true a b m1 = Some m2 /\
    forall r r' i, (c_msers a !! i = Some r /\ c_msers a' !! i = Some r' \/ c_msers b !! i = Some r /\ c_msers b' !! i = Some r') ->
      rec_points m1 r' = rec_points m r /\ (r_self r = true -> rec_points m2 r' = rec_points m r).
Proof.
  intros OK. destruct (copy_ok m a b OK) as (a' & b' & m1 & E & FA & FB & _ & _ & m2 & D & AA & AB & _). exists a', b', m1, m2. split; [exact E|]. split; [exact D|].
  intros r r' i [(L & L')|(L & L')].
  - split; [exact (Forall2_lookup_lr _ _ _ _ _ _ FA L L')|]. intros SF. pose proof (Forall2_lookup_lr _ _ _ _ _ _ AA L L') as X. unfold after_source in X. rewrite SF in X. exact X.
  - split; [exact (Forall2_lookup_lr _ _ _ _ _ _ FB L L')|]. intros SF. pose proof (Forall2_lookup_lr _ _ _ _ _ _ AB L L') as X. unfold after_source in X. rewrite SF in X. exact X.
Qed.
Lemma copy_shared m a b : result_ok m a b ->
  exists a' b' m1 m2, copy_result a b m = Some (a', b', m1) /\ destroy_result true a b m1 = Some m2 /\
    length (c_msers a') = length (c_msers a) /\ length (c_msers b') = length (c_msers b) /\
    forall r r' i, (c_msers a !! i = Some r /\ c_msers a' !! i = Some r' \/ c_msers b !! i = Some r /\ c_msers b' !! i = Some r') ->
      r_self r = false -> r_size r <> 0 -> rec_points m2 r' = None.
Proof.
  intros OK. destruct (copy_ok m a b OK) as (a' & b' & m1 & E & FA & FB & _ & _ & m2 & D & AA & AB & _). exists a', b', m1, m2. split; [exact E|]. split; [exact D|].
  split; [symmetry; exact (Forall2_length _ _ _ FA)|]. split; [symmetry; exact (Forall2_length _ _ _ FB)|].
  intros r r' i IN SF NZ. apply Nat.eqb_neq in NZ. destruct IN as [(L & L')|(L & L')].
  - pose proof (Forall2_lookup_lr _ _ _ _ _ _ AA L L') as X. unfold after_source in X. rewrite SF, NZ in X. exact X.
  - pose proof (Forall2_lookup_lr _ _ _ _ _ _ AB L L') as X. unfold after_source in X. rewrite SF, NZ in X. exact X.
Qed.
Lemma copy_destroy m a b : result_ok m a b -> 0 < c_size a \/ 0 < c_size b ->
  exists a' b' m1, copy_result a b m = Some (a', b', m1) /\ destroy_result true a' b' m1 = None.
Proof.
  intros OK POS. destruct (copy_ok m a b OK) as (a' & b' & m1 & E & _ & _ & _ & _ & m2 & _ & _ & _ & X). exists a', b', m1. split; [exact E|]. apply X; auto.
Qed.

(* an example: one shared and one own record *)
Definition ex_mem : cmemory := [Some (false, [1; 2; 3; 4]%Z); Some (true, [7; 8]%Z)].
Definition ex_a : chan := Chan [MRec false 3 (Some (0, 1)); MRec true 2 (Some (1, 0))] (Some (0, 0)) 4.
Lemma ex_result_ok : result_ok ex_mem ex_a chan0.
Proof.
  unfold result_ok, owned, mem_block, rec_block, ex_a, ex_mem, chan0, mem_ok, rec_ok. cbn.
  split. { apply NoDup_cons. split; [rewrite elem_of_list_singleton; discriminate|]. apply NoDup_singleton. }
  split. { split; [reflexivity|]. eexists. split; [reflexivity|]. cbn. lia. }
  split; [reflexivity|]. split; [|constructor]. constructor; [|constructor; [|constructor]]; cbn.
  - split; [eexists; reflexivity|]. right. eexists _, _, _. split; reflexivity.
  - split; [eexists; reflexivity|]. split; [reflexivity|]. eexists. reflexivity.
Qed.
