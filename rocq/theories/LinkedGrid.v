(* The pixel graph of an image with four or eight neighbours, and that the offsets
   in m_dir lead to the neighbours of this graph or to the border. *)
From stdpp Require Import sorting relations functions list.
From Coq Require Import NArith ZArith.
From Verif Require Import Spec TreeSpec FloodAbs Grid FloodModel FloodRefine FloodTree
  LinkedModel LinkedRefine.
Local Open Scope nat_scope.

(* SPEC: two different pixels whose rows and columns differ by at most one *)
Definition adj8 (cols p q : nat) : Prop :=
  p <> q /\ p / cols <= S (q / cols) /\ q / cols <= S (p / cols) /\
  p mod cols <= S (q mod cols) /\ q mod cols <= S (p mod cols).

(* SPEC: the picture of width w and height h stored in rows of [step] samples, with
   eight (true) or four (false) neighbours *)
Definition lview (e : bool) (step w h : nat) (gray : nat -> nat) : view :=
  View (in_rect step 0 0 w h) (if e then adj8 step else adj4 step) gray.

(* img_linked_linear_mser.cpp:255-276: the configuration for either connectivity *)
Definition lcfgn (e : bool) : nat -> nat -> lcfg := if e then lcfg8 else lcfg4.

(* row and column steps of the directions *)
Definition ldirs (e : bool) : list (Z * Z) :=
  if e then [(0, 1); (-1, 1); (-1, 0); (-1, -1); (0, -1); (1, -1); (1, 0); (1, 1)]%Z
  else [(0, 1); (-1, 0); (0, -1); (1, 0)]%Z.
Definition ldeg (e : bool) : nat := if e then 8 else 4.
Lemma ldeg_length e : length (ldirs e) = ldeg e.
Proof. by destruct e. Qed.

Lemma elem_ldirs e a b : (a, b) ∈ ldirs e <->
  if e then (a <> 0 \/ b <> 0)%Z /\ (-1 <= a <= 1)%Z /\ (-1 <= b <= 1)%Z
  else (a = 0%Z /\ (b = 1 \/ b = -1)%Z) \/ (b = 0%Z /\ (a = 1 \/ a = -1)%Z).
Proof.
  destruct e; cbn [ldirs]; rewrite !elem_of_cons, elem_of_nil, !pair_equal_spec; lia.
Qed.

Section lg.
Context (e : bool) (step w h : nat) (gray : nat -> nat).
Context (Hfit : w <= step).
Notation gid := (gid step 0 0).

Definition dnbr (p d : nat) : option nat :=
  match ldirs e !! d with
  | None => None
  | Some (dr, dc) =>
      let r := (Z.of_nat (p / step) + dr)%Z in
      let c := (Z.of_nat (p mod step) + dc)%Z in
      if ((0 <=? r) && (r <? Z.of_nat h) && (0 <=? c) && (c <? Z.of_nat w))%Z
      then Some (gid (Z.to_nat r) (Z.to_nat c)) else None
  end.
Notation G := (lgraph step w h (ldeg e) dnbr gray).

Lemma dnbr_gid r c d q : r < h -> c < w -> dnbr (gid r c) d = Some q <->
  exists r' c', r' < h /\ c' < w /\ q = gid r' c' /\
    ldirs e !! d = Some (Z.of_nat r' - Z.of_nat r, Z.of_nat c' - Z.of_nat c)%Z.
Proof.
  intros Hr Hc. unfold dnbr. destruct (gid_dm step w Hfit r c Hc) as [-> ->].
  destruct (ldirs e !! d) as [[dr dc]|]; [|split; [done|intros (? & ? & _ & _ & _ & H); done]].
  set (b := ((0 <=? Z.of_nat r + dr) && (Z.of_nat r + dr <? Z.of_nat h) &&
    (0 <=? Z.of_nat c + dc) && (Z.of_nat c + dc <? Z.of_nat w))%Z). destruct b eqn:E; unfold b in E; clear b.
  - rewrite !andb_true_iff, !Z.leb_le, !Z.ltb_lt in E. destruct E as [[[E1 E2] E3] E4]. split.
    + intros [= <-]. exists (Z.to_nat (Z.of_nat r + dr)), (Z.to_nat (Z.of_nat c + dc)).
      split; [lia|]. split; [lia|]. split; [done|]. f_equal. f_equal; lia.
    + intros (r' & c' & Hr' & Hc' & -> & [= -> ->]). f_equal. f_equal; lia.
  - split; [done|]. intros (r' & c' & Hr' & Hc' & -> & [= -> ->]).
    rewrite !andb_false_iff, !Z.leb_gt, !Z.ltb_ge in E. lia.
Qed.

Lemma ladj_gid r c q : r < h -> c < w -> adj G (gid r c) q <->
  exists r' c', r' < h /\ c' < w /\ q = gid r' c' /\
    (Z.of_nat r' - Z.of_nat r, Z.of_nat c' - Z.of_nat c)%Z ∈ ldirs e.
Proof.
  intros Hr Hc. unfold adj. cbn [g_deg g_nbr lgraph]. split.
  - intros (d & Hd & Hq). apply dnbr_gid in Hq as (r' & c' & ? & ? & ? & Hl); auto.
    exists r', c'. split; auto. split; auto. split; auto. by eapply elem_of_list_lookup_2.
  - intros (r' & c' & Hr' & Hc' & -> & Hin). apply elem_of_list_lookup in Hin as [d Hd].
    exists d. split. { rewrite <-ldeg_length. by eapply lookup_lt_Some. }
    apply dnbr_gid; eauto 8.
Qed.

Lemma lgraph_ok : graph_ok G.
Proof.
  constructor.
  - apply NoDup_rect. lia.
  - intros p q Hp Ha. cbn [g_nodes lgraph] in *. apply elem_rect in Hp as (r & c & Hr & Hc & ->).
    apply ladj_gid in Ha as (r' & c' & ? & ? & -> & _); auto. apply elem_rect. eauto 6.
  - intros p q Hp Ha. cbn [g_nodes lgraph] in *. apply elem_rect in Hp as (r & c & Hr & Hc & ->).
    apply ladj_gid in Ha as (r' & c' & ? & ? & -> & Hx); auto.
    apply ladj_gid; auto. exists r, c. split; auto. split; auto. split; auto.
    rewrite elem_ldirs in *. destruct e; lia.
  - intros p Hp Ha. cbn [g_nodes lgraph] in *. apply elem_rect in Hp as (r & c & Hr & Hc & ->).
    apply ladj_gid in Ha as (r' & c' & ? & ? & He & Hx); auto.
    apply (gid_inj _ _ _ w) in He as [<- <-]; auto. rewrite elem_ldirs in *. destruct e; lia.
Qed.

Lemma lreach r c : r < h -> c < w -> rtc (adj G) (gid 0 0) (gid r c).
Proof.
  intros Hr Hc. induction r as [|r IH].
  - induction c as [|c IHc]; [apply rtc_refl|].
    eapply rtc_r; [apply IHc; lia|]. apply ladj_gid; try lia. exists 0, (S c).
    split; auto. split; auto. split; auto. rewrite elem_ldirs. destruct e; lia.
  - eapply rtc_r; [apply IH; lia|]. apply ladj_gid; try lia. exists (S r), c.
    split; auto. split; auto. split; auto. rewrite elem_ldirs. destruct e; lia.
Qed.
Lemma lconnected : graph_connected G.
Proof.
  intros p q Hp Hq. cbn [g_nodes lgraph] in *.
  apply elem_rect in Hp as (r & c & Hr & Hc & ->), Hq as (r' & c' & Hr' & Hc' & ->).
  assert (forall x y, x ∈ g_nodes G -> rtc (adj G) x y -> rtc (adj G) y x) as Hsym.
  { intros x y Hx H. revert Hx. induction H as [|x z y Hxz Hzy IH]; intros Hx; [apply rtc_refl|].
    eapply rtc_r; [apply IH; by eapply (gok_closed _ lgraph_ok)|]. by apply (gok_sym _ lgraph_ok). }
  transitivity (gid 0 0); [|by apply lreach].
  apply Hsym; [|by apply lreach]. cbn [g_nodes lgraph]. apply elem_rect. exists 0, 0. lia.
Qed.

(* the graph in terms of the view *)
Lemma lin_rect p : in_rect step 0 0 w h p <-> p ∈ g_nodes G.
Proof. apply (in_rect_nodes step 0 0 w h gray). lia. Qed.

Lemma ladj_view p q : p ∈ g_nodes G ->
  (adj G p q <-> q ∈ g_nodes G /\ vw_adj (lview e step w h gray) p q).
Proof.
  intros Hp. cbn [g_nodes lgraph] in *. apply elem_rect in Hp as (r & c & Hr & Hc & ->).
  rewrite ladj_gid by auto. unfold lview. cbn [vw_adj]. split.
  - intros (r' & c' & Hr' & Hc' & -> & Ha). split. { apply elem_rect. eauto 6. }
    rewrite elem_ldirs in Ha.
    assert (e = true -> gid r c <> gid r' c') as Hne.
    { intros -> Heq. apply (gid_inj _ _ _ w) in Heq as [-> ->]; auto. lia. }
    unfold adj4, adj8. destruct (gid_dm step w Hfit r c Hc) as [E1 E2], (gid_dm step w Hfit r' c' Hc') as [E3 E4].
    rewrite ?E1, ?E2, ?E3, ?E4. destruct e; rewrite ?E1, ?E2, ?E3, ?E4; [|lia]. split; [auto|]. lia.
  - intros [Hq Ha]. apply elem_rect in Hq as (r' & c' & Hr' & Hc' & ->). exists r', c'.
    split; auto. split; auto. split; auto. rewrite elem_ldirs. unfold adj4, adj8 in Ha.
    destruct (gid_dm step w Hfit r c Hc) as [E1 E2], (gid_dm step w Hfit r' c' Hc') as [E3 E4].
    destruct e; rewrite ?E1, ?E2, ?E3, ?E4 in Ha; [|lia]. destruct Ha as [Hne Ha]. split; [|lia].
    destruct (decide (r = r')) as [->|]; [|lia]. destruct (decide (c = c')) as [->|]; [done|lia].
Qed.

Lemma lconn_view l p q : conn G l p q <-> vconn (lview e step w h gray) l p q.
Proof.
  unfold conn, vconn. cbn [vw_in vw_gray lview]. rewrite !lin_rect. cbn [g_gray lgraph].
  assert (forall x y, lstep G l x y <-> vstep (lview e step w h gray) l x y) as Hs.
  { intros x y. unfold lstep, vstep. cbn [vw_in vw_gray lview]. rewrite !lin_rect. cbn [g_gray lgraph]. split.
    - intros (Hp & Ha & H1 & H2). apply ladj_view in Ha as [? ?]; auto.
    - intros (Hp & Hq & Ha & H1 & H2). split; auto. split; auto. by apply ladj_view. }
  assert (forall x y, rtc (lstep G l) x y <-> rtc (vstep (lview e step w h gray) l) x y) as Hr.
  { intros x y. split; apply rtc_subrel; intros ? ?; by rewrite Hs. }
  by rewrite Hr.
Qed.

(* the offsets of the code *)
Lemma ldirs_cfg d : l_dirs (lcfgn e w h) !! d =
  (fun x => fst x * Z.of_nat (w + 2) + snd x)%Z <$> ldirs e !! d.
Proof.
  unfold lcfgn, lcfg8, lcfg4, ldirs. destruct e;
  destruct d as [|[|[|[|[|[|[|[|d]]]]]]]]; cbn [l_dirs lookup list_lookup fmap option_fmap option_map fst snd]; try done; f_equal; lia.
Qed.

Lemma lnbr_ok (img : list N) p d : length img = plen w h -> p ∈ rect_nodes step 0 0 w h -> d < ldeg e ->
  exists x, lnbr (lcfgn e w h) img (lphi step w p) d = Some x /\
    match dnbr p d with Some q => x = lphi step w q | None => border w h x end.
Proof.
  intros Hl Hp Hd. apply elem_rect in Hp as (r & c & Hr & Hc & ->). unfold lnbr.
  rewrite ldirs_cfg. rewrite <-ldeg_length in Hd.
  destruct (lookup_lt_is_Some_2 _ _ Hd) as [[dr dc] Hdd]. rewrite Hdd. cbn [fmap option_fmap option_map fst snd].
  assert (-1 <= dr <= 1 /\ -1 <= dc <= 1)%Z as [B1 B2].
  { pose proof (elem_of_list_lookup_2 _ _ _ Hdd) as Hin. rewrite elem_ldirs in Hin. destruct e; lia. }
  rewrite (lphi_gid step w) by auto. rewrite Hl.
  assert (Z.of_nat (pid w r c) + (dr * Z.of_nat (w + 2) + dc) =
    Z.of_nat (Z.to_nat (Z.of_nat (r + 1) + dr) * (w + 2) + Z.to_nat (Z.of_nat (c + 1) + dc)))%Z as ->.
  { unfold pid. rewrite !Nat2Z.inj_add, !Nat2Z.inj_mul, !Z2Nat.id by lia. lia. }
  set (R := Z.to_nat (Z.of_nat (r + 1) + dr)). set (C := Z.to_nat (Z.of_nat (c + 1) + dc)).
  assert (R < h + 2 /\ C < w + 2) as [HR HC] by (unfold R, C; lia).
  destruct (Z.leb_spec 0 (Z.of_nat (R * (w + 2) + C))) as [_|]; [|lia].
  destruct (Z.ltb_spec (Z.of_nat (R * (w + 2) + C)) (Z.of_nat (plen w h))) as [_|Hbad].
  2:{ exfalso. apply Nat2Z.inj_le in Hbad. unfold plen in Hbad. nia. }
  cbn [andb]. rewrite Nat2Z.id. eexists. split; [done|]. unfold dnbr. rewrite Hdd.
  destruct (gid_dm step w Hfit r c Hc) as [-> ->].
  destruct (Z.leb_spec 0 (Z.of_nat r + dr)) as [Z1|Z1].
  2:{ cbn [andb]. apply border_row; lia. }
  destruct (Z.ltb_spec (Z.of_nat r + dr) (Z.of_nat h)) as [Z2|Z2].
  2:{ cbn [andb]. apply border_row; lia. }
  destruct (Z.leb_spec 0 (Z.of_nat c + dc)) as [Z3|Z3].
  2:{ cbn [andb]. apply border_col; lia. }
  destruct (Z.ltb_spec (Z.of_nat c + dc) (Z.of_nat w)) as [Z4|Z4].
  2:{ cbn [andb]. apply border_col; lia. }
  cbn [andb]. rewrite (lphi_gid step w) by (auto; lia). unfold pid, R, C.
  replace (Z.to_nat (Z.of_nat (r + 1) + dr)) with (Z.to_nat (Z.of_nat r + dr) + 1) by lia.
  replace (Z.to_nat (Z.of_nat (c + 1) + dc)) with (Z.to_nat (Z.of_nat c + dc) + 1) by lia. lia.
Qed.

Lemma lmask_ok d g : d <= ldeg e -> g < 256 ->
  N.land (wenc d g) (l_mask (lcfgn e w h)) = (N.of_nat d * 512)%N.
Proof.
  intros Hd Hg. destruct (word_facts d g) as (_ & _ & _ & _ & _ & H6 & H7); auto.
  { destruct e; cbn in Hd; lia. }
  destruct e; cbn [lcfgn l_mask lcfg8 lcfg4 ldeg] in *; auto.
Qed.
Lemma lmax_ok : l_max (lcfgn e w h) = (N.of_nat (ldeg e) * 512)%N.
Proof. by destruct e. Qed.
End lg.
