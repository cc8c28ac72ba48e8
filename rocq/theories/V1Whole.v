(* Fast MSER V1: the seams joined one after the other give the tree of the whole image. *)
From stdpp Require Import sorting relations functions list.
From Coq Require Import NArith ZArith.
From Verif Require Import Spec TreeSpec TreeFacts JoinMath Grid FloodAbs FloodModel FloodRefine FloodInit FloodTree FloodCorrect
  ConnectModel ConnectProof PartModel PartProof MergeProof WholeModel WholeProof LinkedHeap LinkedInit
  V1JoinModel V1Heap V1Lists V1Cut V1Connect V1Loop V1Conn V1Model V1FloodLists V1FloodRefine V1FloodInit V1FloodCorrect
  V1BuildModel V1Sort V1Union V1Seams.
Local Open Scope nat_scope.

Lemma real_of_sz R sz sz' x y : real_of (tz R sz) x y -> real_of (tz R sz') x y.
Proof.
  intros (a & b & Ha & Hu & Hb & Hl & Hg). apply get_tz in Ha as (a' & Ha & ->). apply get_tz in Hb as (b' & Hb & ->).
  exists (wv sz' x a'), (wv sz' y b'). split; [by apply tz_get|]. split; [|split_and!; auto; by apply tz_get].
  eapply vunder_same; [|exact Hu]. intros r. unfold tz. destruct (get2 R r); done.
Qed.

Section whole.
Context (hpn vpn cols rows : nat) (Hh : 0 < hpn) (Hv : 0 < vpn) (Hc : hpn <= cols) (Hr : vpn <= rows)
  (gray : nat -> nat) (Hgray : forall p, gray p <= 255).
Notation R := (rects hpn vpn cols rows).
Context (ts : list (list wreg)) (os : list vbuf) (D : list vdata).
Context (Hts : length ts = length R) (Hos : length os = length R) (HD : length D = length R).
Context (Hall : forall k r, R !! k = Some r -> exists regs b d, ts !! k = Some regs /\ os !! k = Some b /\
  D !! k = Some d /\ vpart_ok hpn vpn cols gray k r regs b d).
Context (fuel : nat) (Hf : rows * cols + 514 < fuel) (Hfp : num2 (vb_pts <$> os) <= fuel).
Notation ulab := (ulab hpn vpn cols rows D).
Notation uxy := (uxy cols D).
Notation upin := (upin D).
Notation upix := (upix D).
Notation V0 := (cut_view hpn vpn cols rows gray).

Definition jinv (V : view) (st : jst) : Prop :=
  good V ulab uxy upin upix st /\ wframe ts (e_regs st) /\ psame (vb_pts <$> os) (e_pts st).

Lemma entry_real V st p : jinv V st -> vw_in V p ->
  exists y, wreal fuel (e_regs st) (Some (ulab p)) = Some (Some y) /\
    forall sz, real_of (tz (e_regs st) sz) (ulab p) y.
Proof using All.
  intros ((_ & sz & seg & HT & _) & HF & _) Hp. cbn zeta in HT.
  destruct (ct_lab _ _ _ HT p Hp) as (v & Hv' & Hg). destruct (get_tz _ _ _ _ Hv') as (a & Ha & ->).
  pose proof (wframe_num _ _ HF) as Hn. pose proof (u_num hpn vpn cols rows Hh Hv Hc Hr gray Hgray ts os D Hts Hos HD Hall).
  destruct (wreal_ok (e_regs st) sz (ulab p) a fuel) as (y & d & H1 & H2 & H3 & H4 & H5 & _); [by eapply ctree_wf|done|lia|].
  exists y. split; [done|]. intros sz'. eapply (real_of_sz _ sz). exists (wv sz (ulab p) a), (wv sz y d).
  split_and!; auto; [by apply tz_get|]. cbn. destruct (Nat.eqb_spec (w_flag d) 3); done.
Qed.

Lemma pair_join V st p q split : vsym V -> (forall x, vw_in V x <-> x < rows * cols) -> jinv V st ->
  p < rows * cols -> q < rows * cols ->
  exists st', match wreal fuel (e_regs st) (Some (ulab p)), wreal fuel (e_regs st) (Some (ulab q)) with
              | Some a', Some b' => wconnect fuel split st a' b'
              | _, _ => None
              end = Some st' /\ jinv (add_edge V q p) st'.
Proof using All.
  intros HS HV HJ Hp Hq.
  destruct (entry_real V st p HJ) as (a & Ea & Ra); [by apply HV|].
  destruct (entry_real V st q HJ) as (b & Eb & Rb); [by apply HV|].
  rewrite Ea, Eb. destruct HJ as (HG & HF & HP).
  pose proof (wframe_num _ _ HF) as Hn. pose proof (psame_num _ _ HP) as Hn'.
  pose proof (u_num hpn vpn cols rows Hh Hv Hc Hr gray Hgray ts os D Hts Hos HD Hall).
  destruct (wconnect_ok V ulab uxy upin upix (rows * cols) q p a b fuel split st) as (st' & H1 & H2 & H3 & H4);
    auto; try lia; try (by apply HV).
  - intros x Hx. apply HV. apply (u_pin_in hpn vpn cols rows Hh Hv Hc Hr gray Hgray ts os D Hts Hos HD Hall x Hx).
  - eapply card_ext; [|exact (whole_card hpn vpn cols rows gray)]. intros x. cbn. symmetry. apply HV.
  - eapply wframe_bounded; [exact HF|]. apply (u_bounded hpn vpn cols rows Hh Hv Hc Hr gray Hgray ts os D Hts Hos HD Hall).
  - exists st'. split; [done|]. split; [done|]. split; [by eapply wframe_trans|by eapply psame_trans].
Qed.

Lemma pos_join V st s l i : vsym V -> (forall x, vw_in V x <-> x < rows * cols) -> jinv V st ->
  lane_in hpn vpn l -> lane_ok hpn vpn cols rows s l -> i < lane_len cols rows l ->
  exists st', vjoin_pos fuel (vb_tab <$> os) (fst (fst s)) (snd s) st (Some i) = Some st' /\
    jinv (add_edge V (fst (lane_px hpn vpn cols rows l i)) (snd (lane_px hpn vpn cols rows l i))) st'.
Proof using All.
  intros HS HV HJ Hl (Hlr & Hk & Hs) Hi. pose proof (lane_px_in hpn vpn cols rows Hh Hv Hc Hr l i Hl Hi) as (Hq & Hp & _).
  rewrite Hlr. unfold vjoin_pos.
  assert (forall k, k < vpn * hpn -> exists t, (vb_tab <$> os) !! k = Some t) as Htab.
  { intros k Hk'. apply lookup_lt_is_Some_2. rewrite fmap_length, Hos, rects_length. done. }
  destruct l as [[|] c]; unfold lane_in, lane_len, lane_px in *; cbn [fst snd] in *.
  - destruct Hs as [_ Hs]. destruct (Hs i Hi) as (split & ->).
    destruct (cut_idx_ok vpn rows i Hv Hi) as (Hx & Hx1 & Hx2). set (v := cut_idx vpn rows i) in *.
    assert (v * hpn + c < vpn * hpn /\ v * hpn + c + 1 < vpn * hpn) as [B1 B2] by nia.
    unfold vjoin_at. destruct (Htab _ B1) as [ta Ta]. destruct (Htab _ B2) as [tb Tb]. rewrite Ta, Tb.
    pose proof (rects_at hpn vpn cols rows v c Hx ltac:(lia)) as Ra.
    pose proof (rects_at hpn vpn cols rows v (S c) Hx ltac:(lia)) as Rb.
    replace (v * hpn + S c) with (v * hpn + c + 1) in Rb by lia.
    destruct (u_entry hpn vpn cols rows Hh Hv Hc Hr gray Hgray ts os D Hts Hos HD Hall _ _ _ Ra Ta) as (_ & Ea & _).
    destruct (u_entry hpn vpn cols rows Hh Hv Hc Hr gray Hgray ts os D Hts Hos HD Hall _ _ _ Rb Tb) as (Eb & _).
    cbn [rect_at r_top r_left r_w r_h] in Ea, Eb. pose proof (cut_pos hpn cols c ltac:(lia) Hc) as Hcp.
    pose proof (cut_next hpn cols c Hl) as Hcn.
    rewrite Ea; [|unfold has_right|lia].
    2:{ replace (v * hpn + c) with (c + v * hpn) by lia. rewrite Nat.mod_add, Nat.mod_small by lia.
        destruct (Nat.eqb_spec (S c) hpn); [lia|done]. }
    rewrite Eb; [|unfold has_left|lia].
    2:{ replace (v * hpn + c + 1) with (S c + v * hpn) by lia. rewrite Nat.mod_add, Nat.mod_small by lia. done. }
    replace (cut_start vpn rows v + (i - cut_start vpn rows v)) with i by lia.
    replace (cut_start hpn cols c + (cut_size hpn cols c - 1)) with (cut_start hpn cols (S c) - 1) by lia.
    rewrite Nat.add_0_r. by apply pair_join.
  - destruct Hs as [_ Hs]. destruct (Hs i Hi) as (split & ->).
    destruct (cut_idx_ok hpn cols i Hh Hi) as (Hx & Hx1 & Hx2). set (h := cut_idx hpn cols i) in *.
    assert (c * hpn + h < vpn * hpn /\ c * hpn + h + hpn < vpn * hpn) as [B1 B2] by nia.
    unfold vjoin_at. destruct (Htab _ B1) as [ta Ta]. destruct (Htab _ B2) as [tb Tb]. rewrite Ta, Tb.
    pose proof (rects_at hpn vpn cols rows c h ltac:(lia) Hx) as Ra.
    pose proof (rects_at hpn vpn cols rows (S c) h ltac:(lia) Hx) as Rb.
    replace (S c * hpn + h) with (c * hpn + h + hpn) in Rb by lia.
    destruct (u_entry hpn vpn cols rows Hh Hv Hc Hr gray Hgray ts os D Hts Hos HD Hall _ _ _ Ra Ta) as (_ & _ & _ & Ea).
    destruct (u_entry hpn vpn cols rows Hh Hv Hc Hr gray Hgray ts os D Hts Hos HD Hall _ _ _ Rb Tb) as (_ & _ & Eb & _).
    cbn [rect_at r_top r_left r_w r_h] in Ea, Eb. pose proof (cut_pos vpn rows c ltac:(lia) Hr) as Hcp.
    pose proof (cut_next vpn rows c Hl) as Hcn.
    rewrite Ea; [|unfold has_bot|lia].
    2:{ apply Nat.ltb_lt. lia. }
    rewrite Eb; [|unfold has_top|lia].
    2:{ apply Nat.leb_le. lia. }
    replace (cut_start hpn cols h + (i - cut_start hpn cols h)) with i by lia.
    replace (cut_start vpn rows c + (cut_size vpn rows c - 1)) with (cut_start vpn rows (S c) - 1) by lia.
    rewrite Nat.add_0_r. by apply pair_join.
Qed.

Lemma add_edges_sym V l : vsym V -> vsym (add_edges V l).
Proof. clear. intros HS p q. rewrite !add_edges_adj. intros [H|[H|H]]; auto. Qed.
Lemma add_edges_app V l k : add_edges V (l ++ k) = add_edges (add_edges V l) k.
Proof. clear. unfold add_edges. by rewrite fold_left_app. Qed.

Lemma add_edges_gray_fun V l : vw_gray (add_edges V l) = vw_gray V.
Proof. clear. revert V. induction l as [|[a b] l IH]; intros V; [done|]. unfold add_edges in *. cbn [fold_left]. by rewrite IH. Qed.

Lemma seam_join img gm ps st s l : rows * cols <= length img -> (forall j v, img !! j = Some v -> (v < 256)%N) ->
  lane_in hpn vpn l -> lane_ok hpn vpn cols rows s l -> jinv (add_edges V0 ps) st ->
  exists ord st', ord ≡ₚ seq 0 (lane_len cols rows l) /\
    vjoin_seam fuel img gm cols rows R (vb_tab <$> os) st s = Some st' /\
    jinv (add_edges V0 (ps ++ (lane_px hpn vpn cols rows l <$> ord))) st'.
Proof using All.
  intros Hlen Hbyte Hl Hok HJ. pose proof Hok as (Hlr & Hk & _).
  destruct (lookup_lt_is_Some_2 R (snd (fst s))) as [r Hr']. { rewrite rects_length. done. }
  destruct (seam_order_ok (seam_key img gm cols (fst (fst s)) r) (lane_len cols rows l)) as (ord & Eo & Hperm).
  { intros i Hi. exact (lane_key hpn vpn cols rows Hh Hv Hc Hr img gm s l r i Hlen Hbyte Hl Hok Hr' Hi). }
  assert (exists st', sweep (vjoin_pos fuel (vb_tab <$> os) (fst (fst s)) (snd s)) (Some <$> ord) st = Some st' /\
    jinv (add_edges V0 (ps ++ (lane_px hpn vpn cols rows l <$> ord))) st') as (st' & Es & HJ').
  { assert (forall i, i ∈ ord -> i < lane_len cols rows l) as Hin.
    { intros i Hi. rewrite Hperm in Hi. apply elem_of_seq in Hi. lia. }
    clear Hperm Eo. revert ps st HJ Hin. induction ord as [|i ord IH]; intros ps st HJ Hin.
    - exists st. split; [done|]. by rewrite app_nil_r.
    - cbn [fmap list_fmap sweep]. destruct (pos_join (add_edges V0 ps) st s l i) as (st1 & E1 & J1); auto.
      + apply add_edges_sym, cut_vsym.
      + intros x. rewrite add_edges_in. done.
      + apply Hin. constructor.
      + rewrite E1. destruct (IH (ps ++ [lane_px hpn vpn cols rows l i]) st1) as (st' & E' & J').
        * by rewrite add_edges_app.
        * intros j Hj. apply Hin. by constructor.
        * exists st'. split; [done|]. by rewrite <-app_assoc in J'. }
  exists ord, st'. split; [done|]. split; [|done]. destruct s as [[lr k0] pick]. cbn [fst snd] in *.
  unfold vjoin_seam. rewrite Hr'. replace (if lr then rows else cols) with (lane_len cols rows l).
  - rewrite Eo. done.
  - unfold lane_len. rewrite <-Hlr. done.
Qed.

Definition plan_px (ls : list (bool * nat)) (ps : list (nat * nat)) : Prop :=
  forall p q, (p, q) ∈ ps <-> exists l i, l ∈ ls /\ i < lane_len cols rows l /\ lane_px hpn vpn cols rows l i = (p, q).
Lemma plan_join img gm plan ls : rows * cols <= length img -> (forall j v, img !! j = Some v -> (v < 256)%N) ->
  Forall2 (lane_ok hpn vpn cols rows) plan ls -> Forall (lane_in hpn vpn) ls -> forall l0 ps st, plan_px l0 ps -> jinv (add_edges V0 ps) st ->
  exists ps' st', sweep (vjoin_seam fuel img gm cols rows R (vb_tab <$> os)) plan st = Some st' /\
    plan_px (l0 ++ ls) ps' /\ jinv (add_edges V0 ps') st'.
Proof using All.
  intros Hlen Hbyte. revert ls. induction plan as [|s plan IH]; intros ls HF Hin l0 ps st Hps HJ.
  - apply Forall2_nil_inv_l in HF as ->. exists ps, st. split; [done|]. by rewrite app_nil_r.
  - apply Forall2_cons_inv_l in HF as (l & ls' & Hok & HF & ->). apply Forall_cons in Hin as [Hl Hin]. cbn [sweep].
    destruct (seam_join img gm ps st s l Hlen Hbyte Hl Hok HJ) as (ord & st1 & Hperm & E1 & J1). rewrite E1.
    destruct (IH ls' HF Hin (l0 ++ [l]) (ps ++ (lane_px hpn vpn cols rows l <$> ord)) st1) as (ps' & st' & E' & Hp & HJ').
    + intros p q. rewrite elem_of_app, (Hps p q), elem_of_list_fmap. split.
      * intros [(l' & i & H1 & H2)|(i & H1 & H2)].
        -- exists l', i. rewrite elem_of_app. auto.
        -- exists l, i. rewrite Hperm, elem_of_seq in H2. rewrite elem_of_app, elem_of_list_singleton. split_and!; auto; lia.
      * intros (l' & i & [H1|H1%elem_of_list_singleton]%elem_of_app & H2 & H3); [left; eauto|right].
        subst l'. exists i. split; [done|]. rewrite Hperm, elem_of_seq. lia.
    + done.
    + exists ps', st'. split; [done|]. split; [|done]. by rewrite <-app_assoc in Hp.
Qed.

(* when every lane is joined, what is joined is the neighbourhood of the image *)
Lemma plan_adj ls ps x y : Forall (lane_in hpn vpn) ls -> (forall l, lane_in hpn vpn l -> l ∈ ls) -> plan_px ls ps ->
  x < rows * cols -> y < rows * cols -> vw_adj (add_edges V0 ps) x y <-> adj4 cols x y.
Proof using All.
  intros Hin Hcov Hps Hx Hy. rewrite add_edges_adj. cbn [cut_view vw_adj].
  assert (forall p q, p < rows * cols -> q < rows * cols -> (q, p) ∈ ps -> next_px cols p q) as Hnx.
  { intros p q Hp Hq Hpq. apply Hps in Hpq as (l & i & H1 & H2 & H3). rewrite Forall_forall in Hin.
    destruct (lane_px_in hpn vpn cols rows Hh Hv Hc Hr l i (Hin _ H1) H2) as (_ & _ & H4). by rewrite H3 in H4. }
  split.
  - intros [[H _]|[H|H]]; [done| |]; apply Hnx in H; auto; unfold next_px, adj4 in *; lia.
  - intros H. destruct (decide (partf hpn vpn cols rows x = partf hpn vpn cols rows y)) as [He|Hne]; [auto|]. right.
    assert (next_px cols x y \/ next_px cols y x) as [Hn|Hn] by (unfold adj4, next_px in *; lia).
    + right. apply Hps. destruct (lane_find hpn vpn cols rows Hh Hv Hc Hr x y Hx Hy Hn Hne) as (l & i & H1 & H2 & H3). exists l, i. split_and!; auto.
    + left. apply Hps. destruct (lane_find hpn vpn cols rows Hh Hv Hc Hr y x Hy Hx Hn) as (l & i & H1 & H2 & H3); auto. exists l, i. split_and!; auto.
Qed.

Theorem build_good img gm threads : v1_grid threads = Some (hpn, vpn) ->
  rows * cols <= length img -> (forall j v, img !! j = Some v -> (v < 256)%N) ->
  exists plan st, vplan_of threads R = Some plan /\
    sweep (vjoin_seam fuel img gm cols rows R (vb_tab <$> os)) plan (JSt ts (vb_pts <$> os) []) = Some st /\
    good (whole_view cols rows gray) ulab uxy upin upix st /\ wframe ts (e_regs st) /\ psame (vb_pts <$> os) (e_pts st).
Proof using All.
  intros Hg Hlen Hbyte. destruct (plan_ok threads hpn vpn cols rows Hg Hc Hr) as (_ & _ & _ & plan & Ep & HF & Hin & Hcov).
  destruct (plan_join img gm plan (lanes_of threads) Hlen Hbyte HF Hin [] [] (JSt ts (vb_pts <$> os) []))
    as (ps & st & Es & Hps & HG & HW & HP).
  - intros p q. rewrite elem_of_nil. split; [done|]. intros (l & i & H%elem_of_nil & _). done.
  - split; [|split; [apply wframe_refl|apply psame_refl]].
    apply (u_good hpn vpn cols rows Hh Hv Hc Hr gray Hgray ts os D Hts Hos HD Hall).
  - exists plan, st. split; [done|]. split; [done|]. split; [|done].
    destruct HG as (HM & sz & seg & HT & Hz & HL). split; [done|]. exists sz, seg. cbn zeta in *. split_and!; auto.
    + eapply ctree_ext; [exact HT| | |].
      * intros x. rewrite add_edges_in. cbn. symmetry. apply (whole_in hpn vpn cols rows Hh Hv Hc Hr gray).
      * intros x y Hx Hy. rewrite add_edges_in in Hx, Hy. cbn [cut_view vw_in] in Hx, Hy.
        rewrite (plan_adj (lanes_of threads) ps x y) by auto. done.
      * intros x _. by rewrite add_edges_gray.
    + assert (vw_gray (add_edges V0 ps) = vw_gray (whole_view cols rows gray)) as <-; [|done]. rewrite add_edges_gray_fun. done.
Qed.
End whole.
