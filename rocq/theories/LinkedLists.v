(* The linked pixel lists: splicing keeps every list already recorded. *)
From stdpp Require Import sorting relations functions list.
From Coq Require Import NArith ZArith.
From Verif Require Import Spec FloodAbs FloodAbsInv FloodAbsProof FloodModel LinkedModel.
Local Open Scope nat_scope.

(* next pointer and coordinates of the points; m_prev is never followed *)
Definition nview := nat -> option (option nat * Z * Z).
Definition nv (pts : list lpt) : nview :=
  fun i => (fun x => (p_next x, p_x x, p_y x)) <$> pts !! i.

(* a list ending in the null pointer; a list whose end is not looked at *)
Fixpoint lseg (v : nview) (L : list nat) : Prop :=
  match L with [] => True | i :: L' => (exists x y, v i = Some (head L', x, y)) /\ lseg v L' end.
Fixpoint oseg (v : nview) (L : list nat) : Prop :=
  match L with
  | [] => True
  | i :: L' => (exists n x y, v i = Some (n, x, y) /\ (L' = [] \/ n = head L')) /\ oseg v L'
  end.

Lemma lseg_oseg v L : lseg v L -> oseg v L.
Proof.
  induction L as [|i L IH]; cbn [lseg oseg]; auto. intros [(x & y & H) HL].
  split; auto. eexists _, _, _. split; [exact H|]. auto.
Qed.

Definition vext (np : nat) (v v' : nview) : Prop :=
  forall i n x y, i < np -> v i = Some (n, x, y) ->
    exists n', v' i = Some (n', x, y) /\ forall j, n = Some j -> n' = Some j.
Lemma vext_refl np v : vext np v v.
Proof. intros i n x y _ H. eauto. Qed.
Lemma vext_trans np v1 v2 v3 : vext np v1 v2 -> vext np v2 v3 -> vext np v1 v3.
Proof.
  intros H1 H2 i n x y Hi Hv. destruct (H1 _ _ _ _ Hi Hv) as (n' & Hv' & Hn).
  destruct (H2 _ _ _ _ Hi Hv') as (n'' & Hv'' & Hn'). eauto.
Qed.

Lemma oseg_ext np v v' L : vext np v v' -> Forall (fun i => i < np) L -> oseg v L -> oseg v' L.
Proof.
  intros He. induction L as [|i L IH]; cbn [oseg]; auto. intros HF [(n & x & y & Hi & Hn) HL].
  inversion HF as [|? ? Hlt HF']; subst. split; auto.
  destruct (He _ _ _ _ Hlt Hi) as (n' & Hi' & Hn'). exists n', x, y. split; auto.
  destruct Hn as [->|Hn]; auto. destruct L as [|j L]; auto. right. cbn in *. by apply Hn'.
Qed.
Lemma lseg_eq v v' L : (forall i, i ∈ L -> v' i = v i) -> lseg v L -> lseg v' L.
Proof.
  induction L as [|i L IH]; cbn [lseg]; auto. intros He [(x & y & Hi) HL]. split.
  - exists x, y. rewrite He; auto. apply elem_of_cons; auto.
  - apply IH; auto. intros j Hj. apply He. apply elem_of_cons; auto.
Qed.

(* the point i holds the coordinates of pixel p *)
Definition vat (xy : nat -> Z * Z) (v : nview) (i p : nat) : Prop :=
  exists n, v i = Some (n, fst (xy p), snd (xy p)).
Lemma vat_ext xy np v v' L ps : vext np v v' -> Forall (fun i => i < np) L ->
  Forall2 (vat xy v) L ps -> Forall2 (vat xy v') L ps.
Proof.
  intros He HF H. induction H as [|i p L ps (n & Hi) H IH]; constructor.
  - inversion HF as [|? ? Hlt HF']; subst. destruct (He _ _ _ _ Hlt Hi) as (n' & Hn & _). by exists n'.
  - inversion HF; auto.
Qed.

Lemma lwalk_oseg xy pts L ps : oseg (nv pts) L -> Forall2 (vat xy (nv pts)) L ps ->
  lwalk pts (head L) (length L) = Some (map xy ps).
Proof.
  intros HL H. induction H as [|i p L ps (n & Hi) H IH]; [done|].
  cbn [oseg] in HL. destruct HL as [(n' & x & y & Hi' & Hn) HL].
  cbn [head length lwalk map]. unfold nv in Hi, Hi'.
  destruct (pts !! i) as [q|] eqn:Hq; [|done]. cbn in Hi, Hi'.
  injection Hi as Hn1 Hx Hy. injection Hi' as Hn2 _ _.
  assert (lwalk pts (p_next q) (length L) = Some (map xy ps)) as ->.
  { destruct Hn as [->|Hn].
    - inversion H; subst. done.
    - rewrite Hn2, Hn. by apply IH. }
  rewrite Hx, Hy. by destruct (xy p).
Qed.

(* ---------- the setters in terms of the view ---------- *)
Lemma set_prev_ok pts i v : i < length pts -> exists pts', set_prev pts i v = Some pts' /\
  length pts' = length pts /\ forall j, nv pts' j = nv pts j.
Proof.
  intros Hi. destruct (lookup_lt_is_Some_2 pts i Hi) as [p Hp]. unfold set_prev. rewrite Hp.
  eexists. split; [done|]. split; [by rewrite insert_length|]. intros j. unfold nv.
  destruct (decide (i = j)) as [->|]; [|by rewrite list_lookup_insert_ne].
  rewrite list_lookup_insert by auto. by rewrite Hp.
Qed.
Lemma set_next_ok pts i v n x y : nv pts i = Some (n, x, y) -> exists pts', set_next pts i v = Some pts' /\
  length pts' = length pts /\ nv pts' i = Some (v, x, y) /\ forall j, j <> i -> nv pts' j = nv pts j.
Proof.
  unfold nv at 1. intros Hi. destruct (pts !! i) as [p|] eqn:Hp; [|done]. cbn in Hi.
  injection Hi as <- <- <-. unfold set_next. rewrite Hp.
  assert (i < length pts) by (by eapply lookup_lt_Some).
  eexists. split; [done|]. split; [by rewrite insert_length|]. split.
  - unfold nv. by rewrite list_lookup_insert.
  - intros j Hj. unfold nv. by rewrite list_lookup_insert_ne.
Qed.
Lemma set_xy_ok pts i x y : i < length pts -> exists pts' n, set_xy pts i x y = Some pts' /\
  length pts' = length pts /\ nv pts' i = Some (n, x, y) /\ forall j, j <> i -> nv pts' j = nv pts j.
Proof.
  intros Hi. destruct (lookup_lt_is_Some_2 pts i Hi) as [p Hp]. unfold set_xy. rewrite Hp.
  eexists _, (p_next p). split; [done|]. split; [by rewrite insert_length|]. split.
  - unfold nv. by rewrite list_lookup_insert.
  - intros j Hj. unfold nv. by rewrite list_lookup_insert_ne.
Qed.

Lemma nv_lt pts i z : nv pts i = Some z -> i < length pts.
Proof. unfold nv. destruct (pts !! i) eqn:E; [|done]. intros _. by eapply lookup_lt_Some. Qed.

Section rel.
Context (xy : nat -> Z * Z).

(* an open component of the code, its abstract counterpart and its points *)
Record crel (v : nview) (c : acomp) (lc : lcomp) (L : list nat) : Prop := MkCrel {
  cr_gray : q_gray lc = cg c;
  cr_reg : q_reg lc = Some (cr c);
  cr_size : q_size lc = length (cl c);
  cr_pts : Forall2 (vat xy v) L (cl c);
  cr_ends : L <> [] -> q_head lc = head L /\ q_tail lc = last L;
  cr_seg : lseg v L
}.

(* a region of the code: open, or closed with its list *)
Definition rrel (np : nat) (v : nview) (a : areg) (b : lreg) : Prop :=
  n_gray b = rg a /\ n_parent b = rpar a /\ n_flag b = 0 /\
  ((n_size b = None /\ rl a = []) \/
   exists L, n_size b = Some (length (rl a)) /\ n_head b = head L /\ n_tail b = last L /\
     rl a <> [] /\ oseg v L /\ Forall2 (vat xy v) L (rl a) /\ Forall (fun i => i < np) L).

Lemma rrel_ext np np' v v' a b : np <= np' -> vext np v v' -> rrel np v a b -> rrel np' v' a b.
Proof.
  intros Hle He (H1 & H2 & H3 & H4). split; auto. split; auto. split; auto.
  destruct H4 as [H4|(L & K1 & K2 & K3 & K4 & K5 & K6 & K7)]; [by left|right].
  exists L. repeat split; auto.
  - by eapply oseg_ext.
  - by eapply vat_ext.
  - eapply Forall_impl; [exact K7|]. intros; simpl in *; lia.
Qed.
Lemma rrels_ext np np' v v' l l' : np <= np' -> vext np v v' ->
  Forall2 (rrel np v) l l' -> Forall2 (rrel np' v') l l'.
Proof. intros ? ? H. eapply Forall2_impl; [exact H|]. intros. by eapply rrel_ext. Qed.

Lemma crel_eq v v' c lc L : (forall i, i ∈ L -> v' i = v i) -> crel v c lc L -> crel v' c lc L.
Proof.
  intros He [? ? ? Hp ? ?]. constructor; auto.
  - clear - Hp He. induction Hp as [|i p L ps (n & Hi) Hp IH]; constructor.
    + exists n. rewrite He; auto. apply elem_of_cons; auto.
    + apply IH. intros j Hj. apply He. apply elem_of_cons; auto.
  - by eapply lseg_eq.
Qed.

Lemma lset_par_ok np v aregs regs r t : Forall2 (rrel np v) aregs regs -> r < length aregs ->
  exists regs', lset_par regs r t = Some regs' /\ Forall2 (rrel np v) (set_par aregs r t) regs'.
Proof.
  intros HF Hr. destruct (lookup_lt_is_Some_2 _ _ Hr) as [a Ha].
  destruct (Forall2_lookup_l _ _ _ _ _ HF Ha) as (b & Hb & (H1 & H2 & H3 & H4)).
  unfold lset_par, set_par. rewrite Ha, Hb. eexists. split; [done|].
  apply Forall2_insert; auto. repeat split; auto.
Qed.
Lemma lset_child_ok np v aregs regs r : Forall2 (rrel np v) aregs regs -> r < length aregs ->
  exists regs', lset_child regs r = Some regs' /\ Forall2 (rrel np v) aregs regs'.
Proof.
  intros HF Hr. destruct (lookup_lt_is_Some_2 _ _ Hr) as [a Ha].
  destruct (Forall2_lookup_l _ _ _ _ _ HF Ha) as (b & Hb & (H1 & H2 & H3 & H4)).
  unfold lset_child. rewrite Hb. eexists. split; [done|].
  rewrite <-(list_insert_id aregs r a Ha).
  apply Forall2_insert; auto. repeat split; auto.
Qed.
Lemma lclose_ok np v aregs regs r c lc L : Forall2 (rrel np v) aregs regs -> r < length aregs ->
  crel v c lc L -> cl c <> [] -> Forall (fun i => i < np) L ->
  exists regs', lclose regs r lc = Some regs' /\ Forall2 (rrel np v) (set_rl aregs r (cl c)) regs'.
Proof.
  intros HF Hr [C1 C2 C3 C4 C5 C6] Hne HL. destruct (lookup_lt_is_Some_2 _ _ Hr) as [a Ha].
  destruct (Forall2_lookup_l _ _ _ _ _ HF Ha) as (b & Hb & (H1 & H2 & H3 & H4)).
  unfold lclose, set_rl. rewrite Ha, Hb. eexists. split; [done|].
  assert (L <> []) as HLne. { intros ->. inversion C4; congruence. }
  destruct (C5 HLne) as [E1 E2].
  apply Forall2_insert; auto. repeat split; auto. right. exists L. cbn.
  rewrite C3. repeat split; auto. by apply lseg_oseg.
Qed.

Lemma lseg_app v L1 L2 : lseg v (L1 ++ L2) -> lseg v L2.
Proof. induction L1 as [|i L1 IH]; cbn; auto. intros [_ H]. auto. Qed.
Lemma lseg_last v L t : lseg v L -> last L = Some t -> exists x y, v t = Some (None, x, y).
Proof.
  intros HL Ht. apply last_Some in Ht as [L' ->]. apply lseg_app in HL. cbn in HL.
  destruct HL as [(x & y & H) _]. eauto.
Qed.

Lemma lseg_join v v' L2 L1 t h1 : lseg v L2 -> lseg v L1 -> NoDup (L2 ++ L1) ->
  last L2 = Some t -> head L1 = Some h1 ->
  (exists x y, v t = Some (None, x, y) /\ v' t = Some (Some h1, x, y)) ->
  (forall j, j <> t -> v' j = v j) -> lseg v' (L2 ++ L1).
Proof.
  intros H2 H1 Hnd Ht Hh Hvt He. apply last_Some in Ht as [L ->].
  rewrite <-app_assoc in *. cbn [app] in *.
  induction L as [|i L IH]; cbn [app lseg] in *.
  - destruct Hvt as (x & y & Hvt & Hvt'). split.
    + exists x, y. by rewrite Hvt', Hh.
    + apply NoDup_cons in Hnd as [Hni _]. eapply lseg_eq; [|exact H1].
      intros j Hj. apply He. intros ->. done.
  - destruct H2 as [(x & y & Hi) H2]. apply NoDup_cons in Hnd as [Hni Hnd]. split; auto.
    exists x, y. rewrite He.
    + rewrite Hi. f_equal. f_equal. f_equal. by destruct L.
    + intros ->. apply Hni. apply elem_of_app. right. apply elem_of_cons; auto.
Qed.

Lemma merge_comp_ok np pts aregs regs c1 lc1 L1 c2 lc2 L2 Ls rest lrest :
  crel (nv pts) c1 lc1 L1 -> crel (nv pts) c2 lc2 L2 ->
  Forall3 (crel (nv pts)) rest lrest Ls ->
  NoDup (concat (L1 :: L2 :: Ls)) -> Forall (fun i => i < np) (concat (L1 :: L2 :: Ls)) ->
  Forall2 (rrel np (nv pts)) aregs regs -> cr c1 < length aregs -> cr c2 < length aregs ->
  cl c1 <> [] ->
  exists lc' pts' regs', merge_comp lc1 lc2 pts regs = Some (lc', pts', regs') /\
    length pts' = length pts /\ vext np (nv pts) (nv pts') /\
    crel (nv pts') (AComp (cg c2) (cr c2) (cl c2 ++ cl c1)) lc' (L2 ++ L1) /\
    Forall3 (crel (nv pts')) rest lrest Ls /\
    Forall2 (rrel np (nv pts')) (set_par aregs (cr c1) (cr c2)) regs'.
Proof.
  intros C1 C2 HR Hnd Hlt HA Hr1 Hr2 Hne.
  destruct C1 as [G1 E1 Z1 P1 D1 S1], C2 as [G2 E2 Z2 P2 D2 S2].
  unfold merge_comp. rewrite E1, E2.
  destruct (lset_par_ok np _ aregs regs (cr c1) (cr c2) HA Hr1) as (regs1 & -> & HA1).
  destruct (lset_child_ok np _ _ regs1 (cr c2) HA1) as (regs2 & -> & HA2).
  { by rewrite length_set_par. }
  assert (L1 <> []) as HL1. { intros ->. inversion P1; congruence. }
  destruct (D1 HL1) as [Hh1 Ht1].
  destruct (Nat.ltb_spec 0 (q_size lc2)) as [Hpos|Hz].
  - assert (L2 <> []) as HL2. { intros ->. apply Forall2_length in P2. cbn in P2. lia. }
    destruct (D2 HL2) as [Hh2 Ht2]. rewrite Ht2, Ht1, Hh1.
    destruct (last L2) as [t2|] eqn:Et2; [|by apply last_None in Et2].
    destruct (last L1) as [t1|] eqn:Et1; [|by apply last_None in Et1].
    destruct L1 as [|h1 L1']; [done|]. cbn [head].
    destruct (lseg_last _ _ _ S2 Et2) as (x2 & y2 & V2).
    destruct (lseg_last _ _ _ S1 Et1) as (x1 & y1 & V1).
    pose proof V2 as V2'. pose proof V1 as V1'. unfold nv in V2', V1'.
    destruct (pts !! t2) as [q2|] eqn:Q2; [|done]. destruct (pts !! t1) as [q1|] eqn:Q1; [|done].
    cbn in V2', V1'. injection V2' as N2 _ _. injection V1' as N1 _ _. rewrite N2, N1.
    destruct (set_next_ok pts t2 (Some h1) _ _ _ V2) as (pts1 & -> & Hl1 & Hv1 & Hv1').
    assert (exists x y, nv pts h1 = Some (head L1', x, y)) as (xh & yh & Hvh) by (cbn in S1; tauto).
    pose proof (nv_lt _ _ _ Hvh) as Hh1lt.
    destruct (set_prev_ok pts1 h1 (Some t2)) as (pts2 & -> & Hl2 & Hv2); [lia|].
    eexists _, _, _. split; [done|]. split; [congruence|].
    assert (t2 ∈ L2) as Ht2in. { apply last_Some in Et2 as [L0 ->]. apply elem_of_app. right. by apply elem_of_list_singleton. }
    assert (vext np (nv pts) (nv pts2)) as Hext.
    { intros i n x y Hi Hv. rewrite Hv2. destruct (decide (i = t2)) as [->|Hne'].
      - rewrite Hv1. exists (Some h1). rewrite V2 in Hv. injection Hv as <- <- <-. split; auto. done.
      - rewrite Hv1' by auto. eauto. }
    assert (forall j, j <> t2 -> nv pts2 j = nv pts j) as Hsame. { intros j Hj. rewrite Hv2. auto. }
    cbn [concat] in Hnd, Hlt. rewrite app_assoc in Hnd, Hlt.
    apply NoDup_app in Hnd as (Hnd12 & Hdis & Hnd3). apply Forall_app in Hlt as [Hlt12 Hlt3].
    split; auto. split; [constructor|split].
    + done.
    + done.
    + cbn. rewrite Z2, Z1, app_length. done.
    + apply Forall2_app.
      * eapply vat_ext; [exact Hext| |exact P2]. apply Forall_app in Hlt12. tauto.
      * eapply vat_ext; [exact Hext| |exact P1]. apply Forall_app in Hlt12. tauto.
    + intros _. cbn [q_head q_tail]. rewrite Hh2, last_app, Et1. split; [|done]. by destruct L2.
    + eapply (lseg_join (nv pts)); eauto.
      * rewrite (Permutation_app_comm L2). done.
      * exists x2, y2. split; auto. rewrite Hv2. done.
    + clear - HR Hsame Hdis Ht2in. assert (t2 ∉ concat Ls) as Hni.
      { apply Hdis. apply elem_of_app. auto. }
      clear Hdis. induction HR as [|c lc L rest lrest Ls Hc HR IH]; constructor.
      * eapply crel_eq; [|exact Hc]. intros i Hi. apply Hsame. intros ->. apply Hni. cbn. apply elem_of_app; auto.
      * apply IH. intros Hin. apply Hni. cbn. apply elem_of_app; auto.
    + eapply rrels_ext; [|exact Hext|exact HA2]. lia.
  - assert (q_size lc2 = 0) as Hz0 by lia. assert (cl c2 = []) as Hcl. { apply nil_length_inv. lia. }
    assert (L2 = []) as -> by (rewrite Hcl in P2; by inversion P2).
    eexists _, _, _. split; [done|]. split; auto. split; [apply vext_refl|]. split; [constructor|split].
    + done.
    + done.
    + cbn. rewrite Z2, Z1, app_length. done.
    + rewrite Hcl. done.
    + intros _. cbn. rewrite Hh1, Ht1. done.
    + done.
    + done.
    + done.
Qed.

Lemma lraise_ok k np v aregs regs c lc L g : Forall2 (rrel np v) aregs regs -> cr c < length aregs ->
  length aregs < l_w k * l_h k -> g < 256 -> crel v c lc L ->
  exists lc' regs', lraise k g lc regs = Some (lc', regs') /\
    crel v (AComp g (length aregs) (cl c)) lc' L /\
    Forall2 (rrel np v) (set_par aregs (cr c) (length aregs) ++ [AReg g None []]) regs'.
Proof.
  intros HF Hr Hroom Hg [C1 C2 C3 C4 C5 C6]. unfold lraise. rewrite C2.
  rewrite <-(Forall2_length _ _ _ HF).
  destruct (lset_par_ok np v aregs regs (cr c) (length aregs) HF Hr) as (regs1 & -> & HF1).
  unfold lalloc. rewrite <-(Forall2_length _ _ _ HF1), length_set_par.
  destruct (Nat.ltb_spec (length aregs) (l_w k * l_h k)) as [_|]; [|lia].
  eexists _, _. split; [done|]. split; [constructor; auto|].
  apply Forall2_app; auto. constructor; [|constructor]. unfold fresh_lreg. rewrite Nat.mod_small by auto.
  repeat split; auto.
Qed.

(* raising or merging the top component, in the code and abstractly *)
Lemma lup_ok k np g : g < 256 -> forall rest c lc L lrest Ls pts aregs regs comps' aregs',
  crel (nv pts) c lc L -> Forall3 (crel (nv pts)) rest lrest Ls ->
  NoDup (concat (L :: Ls)) -> Forall (fun i => i < np) (concat (L :: Ls)) ->
  Forall2 (rrel np (nv pts)) aregs regs ->
  (forall c0, c0 ∈ c :: rest -> cr c0 < length aregs) -> cl c <> [] ->
  amerge g c rest aregs = Some (comps', aregs') -> length aregs' <= l_w k * l_h k ->
  exists lcomps' pts' regs' Ls',
    lup k g lc (lrest ++ [LComp 257 None 0 None None]) pts regs =
      Some (lcomps' ++ [LComp 257 None 0 None None], pts', regs') /\
    length pts' = length pts /\ vext np (nv pts) (nv pts') /\
    Forall3 (crel (nv pts')) comps' lcomps' Ls' /\
    NoDup (concat Ls') /\ Forall (fun i => i < np) (concat Ls') /\
    Forall2 (rrel np (nv pts')) aregs' regs'.
Proof.
  intros Hg. induction rest as [|c2 rest IH]; intros c lc L lrest Ls pts aregs regs comps' aregs' HC HR Hnd Hlt HA Hcr Hne Hm Hroom.
  - inversion HR; subst. cbn [app lup q_gray amerge] in *.
    destruct (Nat.ltb_spec g 257); [|done]. injection Hm as <- <-.
    destruct (lraise_ok k np (nv pts) aregs regs c lc L g HA) as (lc' & regs' & -> & HC' & HA'); auto.
    { apply Hcr. apply elem_of_cons; auto. }
    { rewrite app_length, length_set_par in Hroom. cbn in Hroom. lia. }
    exists [lc'], pts, regs', [L]. split; [done|]. split; auto. split; [apply vext_refl|].
    split; [constructor; [done|constructor]|]. auto.
  - inversion HR as [|? lc2 L2 ? lrest' Ls' HC2 HR']; subst. cbn [app amerge] in *.
    unfold lup. rewrite (cr_gray _ _ _ _ HC2).
    assert (cr c < length aregs) as Hrc. { apply Hcr. apply elem_of_cons; auto. }
    assert (cr c2 < length aregs) as Hrc2. { apply Hcr. rewrite !elem_of_cons; auto. }
    destruct (Nat.ltb_spec g (cg c2)) as [Hl|Hge].
    + injection Hm as <- <-.
      destruct (lraise_ok k np (nv pts) aregs regs c lc L g HA) as (lc' & regs' & -> & HC' & HA'); auto.
      { rewrite app_length, length_set_par in Hroom. cbn in Hroom. lia. }
      exists (lc' :: lc2 :: lrest'), pts, regs', (L :: L2 :: Ls'). split; [done|]. split; auto.
      split; [apply vext_refl|]. split; [constructor; [done|by constructor]|]. auto.
    + cbn [lmerge].
      destruct (merge_comp_ok np pts aregs regs c lc L c2 lc2 L2 Ls' rest lrest') as
        (lc' & pts' & regs' & -> & Hlen & Hext & HC' & HRest & HA'); auto.
      assert (concat ((L2 ++ L) :: Ls') ≡ₚ concat (L :: L2 :: Ls')) as Hperm.
      { cbn. rewrite !app_assoc. apply Permutation_app; [|done]. apply Permutation_app_comm. }
      rewrite (cr_gray _ _ _ _ HC'). cbn [cg].
      destruct (Nat.leb_spec g (cg c2)) as [Hle|Hgt].
      * injection Hm as <- <-. exists (lc' :: lrest'), pts', regs', ((L2 ++ L) :: Ls').
        split; [done|]. split; auto. split; auto. split; [by constructor|].
        rewrite Hperm. auto.
      * destruct (IH (AComp (cg c2) (cr c2) (cl c2 ++ cl c)) lc' (L2 ++ L) lrest' Ls' pts'
          (set_par aregs (cr c) (cr c2)) regs' comps' aregs') as
          (lcomps' & pts'' & regs'' & Ls'' & Hup & Hlen' & Hext' & HC'' & Hnd' & Hlt' & HA''); auto.
        { by rewrite Hperm. }
        { by rewrite Hperm. }
        { intros c0 Hin. rewrite length_set_par. apply elem_of_cons in Hin as [->|Hin]; cbn [cr]; auto.
          apply Hcr. rewrite !elem_of_cons. auto. }
        { cbn. intros He. apply app_eq_nil in He as [_ He]. done. }
        exists lcomps', pts'', regs'', Ls''. split.
        { rewrite <-Hup. unfold lup. destruct (lrest' ++ [_]) as [|c3 l] eqn:E; auto. }
        split; [congruence|]. split; [by eapply vext_trans|]. auto.
Qed.

(* appending a pixel in front of the list of the top component *)
Lemma accumulate_ok np pts c lc L rest lrest Ls aregs regs p :
  crel (nv pts) c lc L -> Forall3 (crel (nv pts)) rest lrest Ls ->
  NoDup (concat (L :: Ls)) -> Forall (fun i => i < np) (concat (L :: Ls)) ->
  Forall2 (rrel np (nv pts)) aregs regs -> np < length pts ->
  exists pts1 lc' pts', set_xy pts np (fst (xy p)) (snd (xy p)) = Some pts1 /\
    accumulate_comp lc np pts1 = Some (lc', pts') /\
    length pts' = length pts /\
    crel (nv pts') (AComp (cg c) (cr c) (p :: cl c)) lc' (np :: L) /\
    Forall3 (crel (nv pts')) rest lrest Ls /\
    NoDup (concat ((np :: L) :: Ls)) /\ Forall (fun i => i < S np) (concat ((np :: L) :: Ls)) /\
    Forall2 (rrel (S np) (nv pts')) aregs regs.
Proof.
  intros HC HR Hnd Hlt HA Hnp.
  destruct (set_xy_ok pts np (fst (xy p)) (snd (xy p)) Hnp) as (pts1 & n1 & -> & Hl1 & Hv1 & Hv1').
  assert (forall i, i ∈ concat (L :: Ls) -> i < np) as Hlt'. { by apply Forall_forall. }
  destruct HC as [G1 E1 Z1 P1 D1 S1].
  assert (exists pts' lc', accumulate_comp lc np pts1 = Some (lc', pts') /\ length pts' = length pts /\
    nv pts' np = Some (head L, fst (xy p), snd (xy p)) /\ (forall j, j <> np -> nv pts' j = nv pts j) /\
    q_gray lc' = q_gray lc /\ q_reg lc' = q_reg lc /\ q_size lc' = S (q_size lc) /\
    q_head lc' = Some np /\ q_tail lc' = last (np :: L)) as
    (pts' & lc' & Hacc & Hl & Hvn & Hvo & K1 & K2 & K3 & K4 & K5).
  { unfold accumulate_comp. destruct (Nat.ltb_spec 0 (q_size lc)) as [Hpos|Hz].
    - assert (L <> []) as HL. { intros ->. apply Forall2_length in P1. cbn in P1. lia. }
      destruct (D1 HL) as [Hh Ht]. destruct L as [|hh L']; [done|]. cbn [head] in Hh. rewrite Hh.
      destruct (set_next_ok pts1 np (Some hh) _ _ _ Hv1) as (pts2 & -> & Hl2 & Hv2 & Hv2').
      assert (hh < np) as Hhh. { apply Hlt'. cbn. apply elem_of_cons; auto. }
      destruct (set_prev_ok pts2 hh (Some np)) as (pts3 & -> & Hl3 & Hv3); [lia|].
      destruct (set_prev_ok pts3 np None) as (pts4 & -> & Hl4 & Hv4); [lia|].
      eexists _, _. split; [done|]. split; [congruence|]. split.
      { by rewrite Hv4, Hv3, Hv2. }
      split. { intros j Hj. rewrite Hv4, Hv3, Hv2', Hv1'; auto. }
      repeat split; auto.
    - assert (L = []) as ->. { apply nil_length_inv. apply Forall2_length in P1. lia. }
      destruct (set_prev_ok pts1 np None) as (pts2 & -> & Hl2 & Hv2); [lia|].
      rewrite <-Hv2 in Hv1.
      destruct (set_next_ok pts2 np None _ _ _ Hv1) as (pts3 & -> & Hl3 & Hv3 & Hv3').
      eexists _, _. split; [done|]. split; [congruence|]. split; [done|].
      split. { intros j Hj. rewrite Hv3', Hv2, Hv1'; auto. }
      repeat split; auto. }
  exists pts1, lc', pts'. split; auto. split; auto. split; auto.
  assert (vext np (nv pts) (nv pts')) as Hext.
  { intros i n x y Hi Hv. rewrite Hvo by lia. eauto. }
  assert (forall i, i ∈ concat (L :: Ls) -> nv pts' i = nv pts i) as Hsame.
  { intros i Hi. apply Hvo. apply Hlt' in Hi. lia. }
  split; [constructor|].
  { cbn. congruence. }
  { cbn. congruence. }
  { cbn. congruence. }
  { cbn [cl]. constructor; [by eexists|]. eapply vat_ext; [exact Hext| |exact P1].
    cbn in Hlt. apply Forall_app in Hlt. tauto. }
  { intros _. done. }
  { cbn [lseg]. split; [eauto|]. eapply lseg_eq; [|exact S1]. intros i Hi. apply Hsame. cbn. apply elem_of_app; auto. }
  split.
  { clear - HR Hsame. assert (forall i, i ∈ concat Ls -> nv pts' i = nv pts i) as Hs.
    { intros i Hi. apply Hsame. cbn. apply elem_of_app; auto. }
    clear Hsame. induction HR as [|c lc L' rest lrest Ls Hc HR IH]; constructor.
    - eapply crel_eq; [|exact Hc]. intros i Hi. apply Hs. cbn. apply elem_of_app; auto.
    - apply IH. intros i Hi. apply Hs. cbn. apply elem_of_app; auto. }
  split. { cbn [concat app]. constructor; auto. intros Hin. apply Hlt' in Hin. lia. }
  split. { cbn [concat app]. constructor; [lia|]. eapply Forall_impl; [exact Hlt|]. intros; simpl in *; lia. }
  eapply rrels_ext; [|exact Hext|exact HA]. lia.
Qed.
End rel.
