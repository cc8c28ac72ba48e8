(* Flooding a partition in Fast MSER V1: the doubly linked pixel lists and the
   bounding boxes follow the components of the abstract machine. *)
From stdpp Require Import sorting relations functions list.
From Coq Require Import NArith ZArith.
From Verif Require Import Spec FloodAbs FloodAbsInv FloodAbsProof FloodModel FloodInit LinkedModel V1JoinModel V1Model.
Local Open Scope nat_scope.

(* links of the points *)
Definition wview := nat -> option (option rref * option rref).
Definition wvw (pts : list wpt) : wview := fun i => (fun q => (t_next q, t_prev q)) <$> pts !! i.
Lemma wvw_lt pts i z : wvw pts i = Some z -> i < length pts.
Proof. unfold wvw. destruct (pts !! i) eqn:E; [|done]. intros _. by eapply lookup_lt_Some. Qed.

Section rel.
Context (kp : nat) (xy : nat -> nat * nat) (gray : nat -> nat).

(* a doubly linked list, first previous link a; a list linked forward, its end not looked at *)
Fixpoint ldl (v : wview) (a : option nat) (L : list nat) : Prop :=
  match L with
  | [] => True
  | i :: L' => v i = Some (pair kp <$> head L', pair kp <$> a) /\ ldl v (Some i) L'
  end.
Fixpoint fseg (v : wview) (L : list nat) : Prop :=
  match L with
  | [] => True
  | i :: L' => (L' = [] \/ exists p, v i = Some (pair kp <$> head L', p)) /\ fseg v L'
  end.
Lemma ldl_fseg v a L : ldl v a L -> fseg v L.
Proof. revert a. induction L as [|i L IH]; cbn [ldl fseg]; auto. intros a [H HL]. split; eauto. Qed.

Definition wext (np : nat) (v v' : wview) : Prop :=
  forall i n p, i < np -> v i = Some (n, p) ->
    exists n' p', v' i = Some (n', p') /\ forall j, n = Some j -> n' = Some j.
Lemma wext_refl np v : wext np v v.
Proof. intros i n p _ H. eauto. Qed.
Lemma wext_trans np v1 v2 v3 : wext np v1 v2 -> wext np v2 v3 -> wext np v1 v3.
Proof.
  intros H1 H2 i n p Hi Hv. destruct (H1 _ _ _ Hi Hv) as (n' & p' & Hv' & Hn).
  destruct (H2 _ _ _ Hi Hv') as (n'' & p'' & Hv'' & Hn'). eauto 6.
Qed.
Lemma fseg_ext np v v' L : wext np v v' -> Forall (fun i => i < np) L -> fseg v L -> fseg v' L.
Proof.
  intros He. induction L as [|i L IH]; cbn [fseg]; auto. intros HF [Hn HL].
  inversion HF as [|? ? Hlt HF']; subst. split; auto.
  destruct Hn as [->|(p & Hn)]; auto. destruct L as [|j L]; auto. right. cbn [head] in *.
  destruct (He _ _ _ Hlt Hn) as (n' & p' & Hv' & Hn'). exists p'. rewrite Hv'. do 2 f_equal. by apply Hn'.
Qed.
Lemma ldl_eq v v' a L : (forall i, i ∈ L -> v' i = v i) -> ldl v a L -> ldl v' a L.
Proof.
  revert a. induction L as [|i L IH]; intros a; cbn [ldl]; auto. intros He [Hi HL]. split.
  - rewrite He; auto. apply elem_of_cons; auto.
  - apply IH; auto. intros j Hj. apply He. apply elem_of_cons; auto.
Qed.
Lemma ldl_last v a L t : ldl v a L -> last L = Some t -> exists p, v t = Some (None, p).
Proof.
  revert a. induction L as [|i L IH]; intros a; [done|]. cbn [ldl]. intros [Hi HL] Ht.
  rewrite last_cons in Ht. destruct (last L) as [z|] eqn:Hz.
  - injection Ht as ->. eauto.
  - injection Ht as ->. apply last_None in Hz. subst. eauto.
Qed.
Lemma ldl_join v v' L2 L1 t h1 a n0 p0 : ldl v a L2 -> ldl v None (h1 :: L1) -> NoDup (L2 ++ h1 :: L1) ->
  last L2 = Some t -> v t = Some (n0, p0) -> v' t = Some (Some (kp, h1), p0) ->
  (forall n p, v h1 = Some (n, p) -> v' h1 = Some (n, Some (kp, t))) ->
  (forall j, j <> t -> j <> h1 -> v' j = v j) -> ldl v' a (L2 ++ h1 :: L1).
Proof.
  intros H2 H1 Hnd Ht Hvt Hvt' Hvh He. revert a H2 Hnd Ht. induction L2 as [|i L2 IH]; intros a H2 Hnd Ht; [done|].
  cbn [ldl app] in *. destruct H2 as [Hi H2]. apply NoDup_cons in Hnd as [Hni Hnd].
  rewrite last_cons in Ht. destruct (last L2) as [z|] eqn:Hz.
  - injection Ht as ->. split; [|by apply IH].
    assert (t ∈ L2) as Htin by (by apply last_Some_elem_of).
    rewrite He.
    + rewrite Hi. destruct L2; [by apply elem_of_nil in Htin|done].
    + intros ->. apply Hni. apply elem_of_app; auto.
    + intros ->. apply Hni. apply elem_of_app. right. apply elem_of_cons; auto.
  - injection Ht as ->. apply last_None in Hz as ->. cbn [app ldl] in *. destruct H1 as [Hh H1].
    rewrite Hi in Hvt. injection Hvt as <- <-. split; [done|]. split; [by eapply Hvh|].
    apply NoDup_cons in Hnd as [Hnh _]. eapply ldl_eq; [|exact H1]. intros j Hj. apply He.
    + intros ->. apply Hni. apply elem_of_cons; auto.
    + intros ->. done.
Qed.

(* coordinates and references of the used points *)
Definition ptok (dn : list nat) (pts : list wpt) : Prop :=
  forall i p, dn !! i = Some p -> exists q, pts !! i = Some q /\ t_x q = fst (xy p) /\ t_y q = snd (xy p) /\ t_ref q = None.
Definition holds (dn : list nat) (i p : nat) : Prop := dn !! i = Some p.

Lemma holds_lt dn L ps : Forall2 (holds dn) L ps -> Forall (fun i => i < length dn) L.
Proof. intros H. induction H as [|i p L ps Hi H IH]; constructor; auto. by eapply lookup_lt_Some. Qed.
Lemma holds_app dn q L ps : Forall2 (holds dn) L ps -> Forall2 (holds (dn ++ [q])) L ps.
Proof. intros H. eapply Forall2_impl; [exact H|]. intros i p Hi. unfold holds. by apply lookup_app_l_Some. Qed.

(* bounding box of a list of pixels *)
Definition pbox (l r t b : nat) (ps : list nat) : Prop :=
  (forall p, p ∈ ps -> l <= fst (xy p) <= r /\ t <= snd (xy p) <= b) /\
  (exists p, p ∈ ps /\ fst (xy p) = l) /\ (exists p, p ∈ ps /\ fst (xy p) = r) /\
  (exists p, p ∈ ps /\ snd (xy p) = t) /\ (exists p, p ∈ ps /\ snd (xy p) = b).
Lemma pbox_one p : pbox (fst (xy p)) (fst (xy p)) (snd (xy p)) (snd (xy p)) [p].
Proof.
  split; [intros q ->%elem_of_list_singleton; lia|].
  split_and!; exists p; split; auto; by apply elem_of_list_singleton.
Qed.
Lemma pbox_cons l r t b ps p : pbox l r t b ps ->
  pbox (if fst (xy p) <? l then fst (xy p) else l)
       (if fst (xy p) <? l then r else if r <? fst (xy p) then fst (xy p) else r)
       (if snd (xy p) <? t then snd (xy p) else t)
       (if snd (xy p) <? t then b else if b <? snd (xy p) then snd (xy p) else b) (p :: ps).
Proof.
  intros (A0 & (a1 & A1 & B1) & (a2 & A2 & B2) & (a3 & A3 & B3) & (a4 & A4 & B4)).
  pose proof (A0 a1 A1). pose proof (A0 a3 A3).
  split.
  - intros q [->|Hq]%elem_of_cons; [|specialize (A0 q Hq)];
      destruct (Nat.ltb_spec (fst (xy p)) l); destruct (Nat.ltb_spec r (fst (xy p)));
      destruct (Nat.ltb_spec (snd (xy p)) t); destruct (Nat.ltb_spec b (snd (xy p))); lia.
  - setoid_rewrite elem_of_cons.
    destruct (Nat.ltb_spec (fst (xy p)) l); destruct (Nat.ltb_spec r (fst (xy p)));
      destruct (Nat.ltb_spec (snd (xy p)) t); destruct (Nat.ltb_spec b (snd (xy p)));
      split_and!; eauto.
Qed.
Lemma pbox_app l r t b l' r' t' b' ps ps' : pbox l r t b ps -> pbox l' r' t' b' ps' ->
  pbox (if l' <? l then l' else l) (if r <? r' then r' else r)
       (if t' <? t then t' else t) (if b <? b' then b' else b) (ps ++ ps').
Proof.
  intros (A0 & (a1 & A1 & B1) & (a2 & A2 & B2) & (a3 & A3 & B3) & (a4 & A4 & B4))
    (C0 & (c1 & C1 & D1) & (c2 & C2 & D2) & (c3 & C3 & D3) & (c4 & C4 & D4)).
  destruct (Nat.ltb_spec l' l); destruct (Nat.ltb_spec r r');
    destruct (Nat.ltb_spec t' t); destruct (Nat.ltb_spec b b');
    (split; [intros q [Hq|Hq]%elem_of_app; [specialize (A0 q Hq)|specialize (C0 q Hq)]; lia|]);
    setoid_rewrite elem_of_app; split_and!; eauto.
Qed.

(* an open component of the code, its abstract counterpart and its points *)
Record vcrel (dn : list nat) (v : wview) (c : acomp) (lc : vcomp) (L : list nat) : Prop := MkVcrel {
  vc_gray : d_gray lc = cg c;
  vc_reg : d_reg lc = Some (cr c);
  vc_size : d_size lc = length (cl c);
  vc_pts : Forall2 (holds dn) L (cl c);
  vc_head : d_head lc = head L;
  vc_tail : d_tail lc = last L;
  vc_seg : ldl v None L;
  vc_box : cl c <> [] -> pbox (d_left lc) (d_right lc) (d_top lc) (d_bot lc) (cl c)
}.

(* a region of the code: open, or closed with its list *)
Definition vrrel (dn : list nat) (v : wview) (a : areg) (b : wreg) : Prop :=
  w_gray b = rg a /\ w_par b = pair kp <$> rpar a /\ w_flag b = 0 /\ w_patch b = kp /\
  (rl a = [] \/
   exists L, w_size b = Z.of_nat (length (rl a)) /\ w_un b = Z.of_nat (length (rl a)) /\
     w_head b = pair kp <$> head L /\ w_tail b = pair kp <$> last L /\
     (exists p, head (rl a) = Some p /\ gray p = rg a) /\
     fseg v L /\ Forall2 (holds dn) L (rl a) /\
     pbox (w_left b) (w_right b) (w_top b) (w_bot b) (rl a)).

Lemma vrrels_ext dn v v' l l' : wext (length dn) v v' ->
  Forall2 (vrrel dn v) l l' -> Forall2 (vrrel dn v') l l'.
Proof.
  intros He H. eapply Forall2_impl; [exact H|]. intros a b (H1 & H2 & H3 & H4 & H5).
  split_and!; auto. destruct H5 as [?|(L & K1 & K2 & K3 & K4 & K5 & K6 & K7 & K8)]; [by left|right].
  exists L. split_and!; auto. eapply fseg_ext; eauto. by eapply holds_lt.
Qed.
Lemma vrrels_app dn v q l l' : Forall2 (vrrel dn v) l l' -> Forall2 (vrrel (dn ++ [q]) v) l l'.
Proof.
  intros H. eapply Forall2_impl; [exact H|]. intros a b (H1 & H2 & H3 & H4 & H5).
  split_and!; auto. destruct H5 as [?|(L & K1 & K2 & K3 & K4 & K5 & K6 & K7 & K8)]; [by left|right].
  exists L. split_and!; auto. by apply holds_app.
Qed.
Lemma vcrel_eq dn v v' c lc L : (forall i, i ∈ L -> v' i = v i) -> vcrel dn v c lc L -> vcrel dn v' c lc L.
Proof. intros He [? ? ? ? ? ? ? ?]. constructor; auto. by eapply ldl_eq. Qed.
Lemma vcrel_app dn v c lc L q : vcrel dn v c lc L -> vcrel (dn ++ [q]) v c lc L.
Proof. intros [? ? ? ? ? ? ? ?]. constructor; auto. by apply holds_app. Qed.
Lemma vcrels_eq dn v v' rest lrest Ls : (forall i, i ∈ concat Ls -> v' i = v i) ->
  Forall3 (vcrel dn v) rest lrest Ls -> Forall3 (vcrel dn v') rest lrest Ls.
Proof.
  intros He HR. induction HR as [|c lc L rest lrest Ls Hc HR IH]; constructor.
  - eapply vcrel_eq; [|exact Hc]. intros i Hi. apply He. cbn. apply elem_of_app; auto.
  - apply IH. intros i Hi. apply He. cbn. apply elem_of_app; auto.
Qed.
Lemma vcrels_app dn v rest lrest Ls q :
  Forall3 (vcrel dn v) rest lrest Ls -> Forall3 (vcrel (dn ++ [q]) v) rest lrest Ls.
Proof. intros HR. induction HR; constructor; auto. by apply vcrel_app. Qed.

Lemma vset_par_ok dn v aregs regs r t : Forall2 (vrrel dn v) aregs regs -> r < length aregs ->
  exists regs', vset_par kp regs r t = Some regs' /\ Forall2 (vrrel dn v) (set_par aregs r t) regs'.
Proof.
  intros HF Hr. destruct (lookup_lt_is_Some_2 _ _ Hr) as [a Ha].
  destruct (Forall2_lookup_l _ _ _ _ _ HF Ha) as (b & Hb & (H1 & H2 & H3 & H4 & H5)).
  unfold vset_par, set_par. rewrite Ha, Hb. eexists. split; [done|].
  apply Forall2_insert; auto. split_and!; auto.
Qed.
Lemma vset_bnd_ok dn v aregs regs r x : Forall2 (vrrel dn v) aregs regs -> r < length aregs ->
  exists regs', vset_bnd regs r x = Some regs' /\ Forall2 (vrrel dn v) aregs regs'.
Proof.
  intros HF Hr. destruct (lookup_lt_is_Some_2 _ _ Hr) as [a Ha].
  destruct (Forall2_lookup_l _ _ _ _ _ HF Ha) as (b & Hb & (H1 & H2 & H3 & H4 & H5)).
  unfold vset_bnd. rewrite Hb. eexists. split; [done|].
  rewrite <-(list_insert_id aregs r a Ha).
  apply Forall2_insert; auto. split_and!; auto.
Qed.
Lemma vclose_ok dn v aregs regs r a0 c lc L p : Forall2 (vrrel dn v) aregs regs -> aregs !! r = Some a0 ->
  vcrel dn v c lc L -> head (cl c) = Some p -> gray p = rg a0 ->
  exists regs', vclose kp regs r lc = Some regs' /\ Forall2 (vrrel dn v) (set_rl aregs r (cl c)) regs'.
Proof.
  intros HF Ha [C1 C2 C3 C4 C5 C6 C7 C8] Hp Hg.
  destruct (Forall2_lookup_l _ _ _ _ _ HF Ha) as (b & Hb & (H1 & H2 & H3 & H4 & H5)).
  unfold vclose, set_rl. rewrite Ha, Hb. eexists. split; [done|].
  apply Forall2_insert; auto. split_and!; auto. right. exists L. cbn. rewrite C3, C5, C6. split_and!; auto.
  - eauto.
  - by eapply ldl_fseg.
  - apply C8. intros E. by rewrite E in Hp.
Qed.

Lemma vmerge_comp_ok dn pts aregs regs c1 lc1 L1 c2 lc2 L2 Ls rest lrest :
  vcrel dn (wvw pts) c1 lc1 L1 -> vcrel dn (wvw pts) c2 lc2 L2 ->
  Forall3 (vcrel dn (wvw pts)) rest lrest Ls ->
  NoDup (concat (L1 :: L2 :: Ls)) -> ptok dn pts ->
  Forall2 (vrrel dn (wvw pts)) aregs regs -> cr c1 < length aregs -> cr c2 < length aregs ->
  cl c1 <> [] ->
  exists lc' pts' regs', vmerge_comp kp lc1 lc2 pts regs = Some (lc', pts', regs') /\
    length pts' = length pts /\ ptok dn pts' /\
    vcrel dn (wvw pts') (AComp (cg c2) (cr c2) (cl c2 ++ cl c1)) lc' (L2 ++ L1) /\
    Forall3 (vcrel dn (wvw pts')) rest lrest Ls /\
    Forall2 (vrrel dn (wvw pts')) (set_par aregs (cr c1) (cr c2)) regs'.
Proof.
  intros C1 C2 HR Hnd HP HA Hr1 Hr2 Hne.
  destruct C1 as [G1 E1 Z1 P1 D1 D1' S1 B1], C2 as [G2 E2 Z2 P2 D2 D2' S2 B2].
  unfold vmerge_comp. rewrite E1, E2.
  destruct (vset_par_ok dn _ aregs regs (cr c1) (cr c2) HA Hr1) as (regs1 & -> & HA1).
  assert (length regs1 = length aregs) as Hlr. { rewrite <-(Forall2_length _ _ _ HA1). apply length_set_par. }
  destruct (lookup_lt_is_Some_2 regs1 (cr c1)) as [a1 ->]; [lia|].
  destruct (lookup_lt_is_Some_2 regs1 (cr c2)) as [a2 ->]; [lia|].
  destruct (vset_bnd_ok dn _ _ regs1 (cr c2) (Nat.lor (w_bnd a2) (w_bnd a1)) HA1) as (regs2 & -> & HA2).
  { by rewrite length_set_par. }
  assert (L1 <> []) as HL1. { intros ->. inversion P1; congruence. }
  destruct (Nat.ltb_spec 0 (d_size lc2)) as [Hpos|Hz].
  - assert (L2 <> []) as HL2. { intros ->. apply Forall2_length in P2. cbn in P2. lia. }
    assert (cl c2 <> []) as Hne2. { intros E. rewrite E in Z2. cbn in Z2. lia. }
    rewrite D2', D1.
    destruct (last L2) as [t2|] eqn:Et2; [|by apply last_None in Et2].
    destruct L1 as [|h1 L1']; [done|]. cbn [head] in *.
    destruct (ldl_last _ _ _ _ S2 Et2) as (p2 & V2).
    pose proof S1 as S1'. cbn [ldl] in S1'. destruct S1' as [V1 _].
    cbn [concat] in Hnd. rewrite app_assoc in Hnd. apply NoDup_app in Hnd as (Hnd12 & Hdis & Hnd3).
    assert (t2 ∈ L2) as Ht2in by (by apply last_Some_elem_of).
    assert (t2 <> h1) as Hth.
    { intros ->. apply NoDup_app in Hnd12 as (_ & Hd & _). apply (Hd h1); auto. apply elem_of_cons; auto. }
    pose proof (wvw_lt _ _ _ V2) as Lt2. pose proof (wvw_lt _ _ _ V1) as Lh1.
    destruct (pts !! t2) as [q2|] eqn:Q2; [|by apply lookup_ge_None in Q2; lia].
    rewrite list_lookup_insert_ne by auto.
    destruct (pts !! h1) as [q1|] eqn:Q1; [|by apply lookup_ge_None in Q1; lia].
    set (pts' := <[h1 := _]> _).
    assert (length pts' = length pts) as Hlen by (unfold pts'; by rewrite !insert_length).
    assert (wvw pts' t2 = Some (Some (kp, h1), t_prev q2)) as W2.
    { unfold wvw, pts'. rewrite list_lookup_insert_ne by auto. by rewrite list_lookup_insert. }
    assert (wvw pts' h1 = Some (t_next q1, Some (kp, t2))) as W1.
    { unfold wvw, pts'. rewrite list_lookup_insert by (by rewrite insert_length). done. }
    assert (forall j, j <> t2 -> j <> h1 -> wvw pts' j = wvw pts j) as Wo.
    { intros j J1 J2. unfold wvw, pts'. by rewrite !list_lookup_insert_ne by auto. }
    assert (wvw pts t2 = Some (None, t_prev q2)) as V2'.
    { rewrite V2. unfold wvw in V2. rewrite Q2 in V2. cbn in V2. congruence. }
    assert (wvw pts h1 = Some (t_next q1, t_prev q1)) as V1'. { unfold wvw. by rewrite Q1. }
    eexists _, pts', _. split; [done|]. split; auto. split_and!.
    + intros i p Hi. destruct (HP i p Hi) as (q & Hq & X1 & X2 & X3). unfold pts'.
      destruct (decide (i = h1)) as [->|I1].
      { rewrite list_lookup_insert by (by rewrite insert_length). eexists. split; [done|].
        rewrite Q1 in Hq. injection Hq as <-. auto. }
      rewrite list_lookup_insert_ne by auto. destruct (decide (i = t2)) as [->|I2].
      { rewrite list_lookup_insert by auto. eexists. split; [done|]. rewrite Q2 in Hq. injection Hq as <-. auto. }
      rewrite list_lookup_insert_ne by auto. eauto.
    + constructor; cbn [d_gray d_reg d_size d_head d_tail d_left d_right d_top d_bot cg cr cl]; auto.
      * rewrite app_length. lia.
      * by apply Forall2_app.
      * rewrite D2. by destruct L2.
      * rewrite last_app, D1'. destruct (last (h1 :: L1')) eqn:E; [done|]. by apply last_None in E.
      * eapply (ldl_join (wvw pts)); eauto.
        -- rewrite (Permutation_app_comm L2). done.
        -- intros n p. rewrite V1'. intros [= <- <-]. done.
      * intros _. apply pbox_app; auto.
    + eapply vcrels_eq; [|exact HR]. intros i Hi. apply Wo; intros ->.
      * apply (Hdis t2); auto. apply elem_of_app; auto.
      * apply (Hdis h1); auto. apply elem_of_app. left. apply elem_of_cons; auto.
    + eapply vrrels_ext; [|exact HA2]. intros i n p _ Hv.
      destruct (decide (i = t2)) as [->|I2]. { rewrite V2' in Hv. injection Hv as <- <-. rewrite W2. eexists _, _. split; [done|]. done. }
      destruct (decide (i = h1)) as [->|I1]. { rewrite V1' in Hv. injection Hv as <- <-. rewrite W1. eexists _, _. split; [done|]. done. }
      rewrite Wo by auto. eauto.
  - assert (d_size lc2 = 0) as Hz0 by lia. assert (cl c2 = []) as Hcl. { apply nil_length_inv. lia. }
    assert (L2 = []) as -> by (rewrite Hcl in P2; by inversion P2).
    eexists _, _, _. split; [done|]. split; auto. split; auto. split; [constructor|split];
      cbn [d_gray d_reg d_size d_head d_tail d_left d_right d_top d_bot cg cr cl app]; auto.
    + rewrite app_length. lia.
    + by rewrite Hcl.
    + rewrite Hcl. cbn [app]. auto.
Qed.

Lemma vraise_ok dn v aregs regs c lc L g : Forall2 (vrrel dn v) aregs regs -> cr c < length aregs ->
  g < 256 -> vcrel dn v c lc L ->
  exists lc' regs', vraise kp g lc regs = Some (lc', regs') /\
    vcrel dn v (AComp g (length aregs) (cl c)) lc' L /\
    Forall2 (vrrel dn v) (set_par aregs (cr c) (length aregs) ++ [AReg g None []]) regs'.
Proof.
  intros HF Hr Hg [C1 C2 C3 C4 C5 C6 C7 C8]. unfold vraise. rewrite C2.
  rewrite <-(Forall2_length _ _ _ HF).
  destruct (lookup_lt_is_Some_2 regs (cr c)) as [a ->]. { by rewrite <-(Forall2_length _ _ _ HF). }
  destruct (vset_par_ok dn v aregs regs (cr c) (length aregs) HF Hr) as (regs1 & -> & HF1).
  eexists _, _. split; [done|]. split; [constructor; auto|].
  apply Forall2_app; auto. constructor; [|constructor]. unfold fresh_wreg. rewrite Nat.mod_small by auto.
  split_and!; auto.
Qed.

Definition vsent : vcomp := VComp 257 None 0 None None 0 0 0 0.

(* raising or merging the top component, in the code and abstractly *)
Lemma vup_ok dn g : g < 256 -> forall rest c lc L lrest Ls pts aregs regs comps' aregs',
  vcrel dn (wvw pts) c lc L -> Forall3 (vcrel dn (wvw pts)) rest lrest Ls ->
  NoDup (concat (L :: Ls)) -> ptok dn pts ->
  Forall2 (vrrel dn (wvw pts)) aregs regs ->
  (forall c0, c0 ∈ c :: rest -> cr c0 < length aregs) -> cl c <> [] ->
  amerge g c rest aregs = Some (comps', aregs') ->
  exists lcomps' pts' regs' Ls',
    vup_comp kp g lc (lrest ++ [vsent]) pts regs = Some (lcomps' ++ [vsent], pts', regs') /\
    length pts' = length pts /\ ptok dn pts' /\
    Forall3 (vcrel dn (wvw pts')) comps' lcomps' Ls' /\ concat Ls' ≡ₚ concat (L :: Ls) /\
    Forall2 (vrrel dn (wvw pts')) aregs' regs'.
Proof.
  intros Hg. induction rest as [|c2 rest IH]; intros c lc L lrest Ls pts aregs regs comps' aregs' HC HR Hnd HP HA Hcr Hne Hm.
  - inversion HR; subst. cbn [app vup_comp d_gray vsent amerge] in *.
    destruct (Nat.ltb_spec g 257); [|done]. injection Hm as <- <-.
    destruct (vraise_ok dn (wvw pts) aregs regs c lc L g HA) as (lc' & regs' & -> & HC' & HA'); auto.
    { apply Hcr. apply elem_of_cons; auto. }
    exists [lc'], pts, regs', [L]. split; [done|]. split_and!; auto. constructor; [done|constructor].
  - inversion HR as [|? lc2 L2 ? lrest' Ls' HC2 HR']; subst. cbn [app amerge] in *.
    unfold vup_comp. rewrite (vc_gray _ _ _ _ _ HC2).
    assert (cr c < length aregs) as Hrc. { apply Hcr. apply elem_of_cons; auto. }
    assert (cr c2 < length aregs) as Hrc2. { apply Hcr. rewrite !elem_of_cons; auto. }
    destruct (Nat.ltb_spec g (cg c2)) as [Hl|Hge].
    + injection Hm as <- <-.
      destruct (vraise_ok dn (wvw pts) aregs regs c lc L g HA) as (lc' & regs' & -> & HC' & HA'); auto.
      exists (lc' :: lc2 :: lrest'), pts, regs', (L :: L2 :: Ls'). split; [done|]. split_and!; auto.
      constructor; [done|by constructor].
    + cbn [vmerge].
      destruct (vmerge_comp_ok dn pts aregs regs c lc L c2 lc2 L2 Ls' rest lrest') as
        (lc' & pts' & regs' & -> & Hlen & HP' & HC' & HRest & HA'); auto.
      assert (concat ((L2 ++ L) :: Ls') ≡ₚ concat (L :: L2 :: Ls')) as Hperm.
      { cbn. rewrite !app_assoc. apply Permutation_app; [|done]. apply Permutation_app_comm. }
      rewrite (vc_gray _ _ _ _ _ HC'). cbn [cg].
      destruct (Nat.leb_spec g (cg c2)) as [Hle|Hgt].
      * injection Hm as <- <-. exists (lc' :: lrest'), pts', regs', ((L2 ++ L) :: Ls').
        split; [done|]. split_and!; auto. by constructor.
      * destruct (IH (AComp (cg c2) (cr c2) (cl c2 ++ cl c)) lc' (L2 ++ L) lrest' Ls' pts'
          (set_par aregs (cr c) (cr c2)) regs' comps' aregs') as
          (lcomps' & pts'' & regs'' & Ls'' & Hup & Hlen' & HP'' & HC'' & Hperm' & HA''); auto.
        { by rewrite Hperm. }
        { intros c0 Hin. rewrite length_set_par. apply elem_of_cons in Hin as [->|Hin]; cbn [cr]; auto.
          apply Hcr. rewrite !elem_of_cons. auto. }
        { cbn. intros He. apply app_eq_nil in He as [_ He]. done. }
        exists lcomps', pts'', regs'', Ls''. split.
        { rewrite <-Hup. unfold vup_comp. destruct (lrest' ++ [_]) as [|c3 l] eqn:E; auto. }
        split; [congruence|]. split_and!; auto. by rewrite Hperm'.
Qed.

(* putting a pixel in front of the list of the top component *)
Lemma vaccum_ok dn pts c lc L rest lrest Ls aregs regs p :
  vcrel dn (wvw pts) c lc L -> Forall3 (vcrel dn (wvw pts)) rest lrest Ls ->
  NoDup (concat (L :: Ls)) -> (forall i, i ∈ concat (L :: Ls) -> i < length dn) -> ptok dn pts ->
  Forall2 (vrrel dn (wvw pts)) aregs regs -> length dn < length pts ->
  exists lc' pts', vaccum kp lc (length dn) (fst (xy p)) (snd (xy p)) pts = Some (lc', pts') /\
    length pts' = length pts /\ ptok (dn ++ [p]) pts' /\
    vcrel (dn ++ [p]) (wvw pts') (AComp (cg c) (cr c) (p :: cl c)) lc' (length dn :: L) /\
    Forall3 (vcrel (dn ++ [p]) (wvw pts')) rest lrest Ls /\
    Forall2 (vrrel (dn ++ [p]) (wvw pts')) aregs regs.
Proof.
  intros HC HR Hnd Hlt HP HA Hnp.
  destruct HC as [G1 E1 Z1 P1 D1 D2 S1 B1].
  set (np := length dn) in *. unfold vaccum.
  assert ((dn ++ [p]) !! np = Some p) as Hdp. { unfold np. rewrite lookup_app_r by lia. by rewrite Nat.sub_diag. }
  destruct (Nat.ltb_spec 0 (d_size lc)) as [Hpos|Hz].
  - assert (L <> []) as HL. { intros ->. apply Forall2_length in P1. cbn in P1. lia. }
    assert (cl c <> []) as Hcl. { intros E. rewrite E in Z1. cbn in Z1. lia. }
    destruct L as [|hh L']; [done|]. cbn [head] in *. rewrite D1.
    assert (hh < np) as Hhh. { apply Hlt. cbn. apply elem_of_cons; auto. }
    destruct (lookup_lt_is_Some_2 pts hh) as [q Hq]; [lia|]. rewrite Hq.
    rewrite store_ok by (rewrite insert_length; lia).
    set (pts' := <[np := _]> _).
    assert (length pts' = length pts) as Hlen by (unfold pts'; by rewrite !insert_length).
    assert (wvw pts' np = Some (Some (kp, hh), None)) as Wn.
    { unfold wvw, pts'. rewrite list_lookup_insert by (by rewrite insert_length). done. }
    assert (wvw pts' hh = Some (t_next q, Some (kp, np))) as Wh.
    { unfold wvw, pts'. rewrite list_lookup_insert_ne by lia. rewrite list_lookup_insert by lia. done. }
    assert (forall j, j <> np -> j <> hh -> wvw pts' j = wvw pts j) as Wo.
    { intros j J1 J2. unfold wvw, pts'. by rewrite !list_lookup_insert_ne by auto. }
    cbn [ldl] in S1. destruct S1 as [V1 S1]. cbn [concat app] in Hnd. apply NoDup_cons in Hnd as [Hni Hnd].
    eexists _, pts'. split; [done|]. split_and!; auto.
    + intros i p' Hi. apply lookup_app_Some in Hi as [Hi|[Hi1 Hi2]].
      * pose proof (lookup_lt_Some _ _ _ Hi). destruct (HP i p' Hi) as (q' & Hq' & X1 & X2 & X3). unfold pts'.
        rewrite list_lookup_insert_ne by lia. destruct (decide (i = hh)) as [->|].
        -- rewrite list_lookup_insert by lia. eexists. split; [done|]. rewrite Hq in Hq'. injection Hq' as <-. auto.
        -- rewrite list_lookup_insert_ne by auto. eauto.
      * apply list_lookup_singleton_Some in Hi2 as [Hi2 <-]. replace i with np by (unfold np; lia).
        unfold pts'. rewrite list_lookup_insert by (by rewrite insert_length). eexists. split; [done|]. done.
    + constructor; cbn [d_gray d_reg d_size d_head d_tail d_left d_right d_top d_bot cg cr cl]; auto.
      * cbn. lia.
      * constructor; [done|]. by apply holds_app.
      * cbn [ldl head]. split; [done|]. split.
        { rewrite Wh. unfold wvw in V1. rewrite Hq in V1. cbn in V1. injection V1 as -> _. done. }
        eapply ldl_eq; [|exact S1]. intros i Hi. apply Wo.
        -- assert (i < np); [|lia]. apply Hlt. cbn. apply elem_of_cons. right. apply elem_of_app; auto.
        -- intros ->. apply Hni. apply elem_of_app; auto.
      * intros _. apply pbox_cons. auto.
    + apply vcrels_app. eapply vcrels_eq; [|exact HR]. intros i Hi. apply Wo.
      * assert (i < np); [|lia]. apply Hlt. cbn. apply elem_of_cons. right. apply elem_of_app; auto.
      * intros ->. apply Hni. apply elem_of_app; auto.
    + apply vrrels_app. eapply vrrels_ext; [|exact HA]. intros i n p' Hi Hv. fold np in Hi.
      destruct (decide (i = hh)) as [->|I1].
      * rewrite Wh. unfold wvw in Hv. rewrite Hq in Hv. cbn in Hv. injection Hv as <- <-. eauto.
      * rewrite Wo by (auto; lia). eauto.
  - assert (L = []) as ->. { apply nil_length_inv. apply Forall2_length in P1. lia. }
    assert (cl c = []) as Hcl. { apply nil_length_inv. lia. }
    rewrite store_ok by lia. set (pts' := <[np := _]> _).
    assert (length pts' = length pts) as Hlen by (unfold pts'; by rewrite !insert_length).
    assert (wvw pts' np = Some (None, None)) as Wn.
    { unfold wvw, pts'. rewrite list_lookup_insert by lia. done. }
    assert (forall j, j <> np -> wvw pts' j = wvw pts j) as Wo.
    { intros j J1. unfold wvw, pts'. by rewrite !list_lookup_insert_ne by auto. }
    eexists _, pts'. split; [done|]. split_and!; auto.
    + intros i p' Hi. apply lookup_app_Some in Hi as [Hi|[Hi1 Hi2]].
      * pose proof (lookup_lt_Some _ _ _ Hi). destruct (HP i p' Hi) as (q' & Hq' & X1 & X2 & X3). unfold pts'.
        rewrite list_lookup_insert_ne by lia. eauto.
      * apply list_lookup_singleton_Some in Hi2 as [Hi2 <-]. replace i with np by (unfold np; lia).
        unfold pts'. rewrite list_lookup_insert by lia. eexists. split; [done|]. done.
    + constructor; cbn [d_gray d_reg d_size d_head d_tail d_left d_right d_top d_bot cg cr cl]; auto.
      * cbn. lia.
      * constructor; [done|]. by apply holds_app.
      * cbn [ldl head]. done.
      * intros _. rewrite Hcl. apply pbox_one.
    + apply vcrels_app. eapply vcrels_eq; [|exact HR]. intros i Hi. apply Wo.
      assert (i < np); [|lia]. apply Hlt. cbn. auto.
    + apply vrrels_app. eapply vrrels_ext; [|exact HA]. intros i n p' Hi Hv. fold np in Hi.
      rewrite Wo by (auto; lia). eauto.
Qed.
End rel.
