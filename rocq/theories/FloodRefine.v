(* The word-level flooding loop refines the abstract flooding machine. *)
From stdpp Require Import sorting relations functions list.
From Coq Require Import NArith ZArith.
From Verif Require Import Spec FloodAbs FloodAbsInv FloodAbsProof Grid FloodModel WordBits.

(* offset of pixel (r, c) of the partition inside the bordered array *)
Definition pid (w r c : nat) : nat := (r + 1) * (w + 2) + (c + 1).

Lemma pair_unique m a b a' b' : b < m -> b' < m -> a * m + b = a' * m + b' -> a = a' /\ b = b'.
Proof.
  intros H1 H2 He. destruct (Nat.div_mod_unique m a a' b b') as [? ?]; auto.
  rewrite (Nat.mul_comm m a), (Nat.mul_comm m a'). auto.
Qed.

Lemma insert_imap {A B} (f : nat -> A -> B) l i x :
  imap f (<[i := x]> l) = <[i := f i x]> (imap f l).
Proof.
  apply list_eq. intros j. rewrite list_lookup_imap.
  destruct (decide (i = j)) as [->|Hne].
  - destruct (decide (j < length l)).
    + rewrite !list_lookup_insert; rewrite ?imap_length; auto.
    + rewrite !list_insert_ge by (rewrite ?imap_length; lia). by rewrite list_lookup_imap.
  - rewrite !list_lookup_insert_ne by auto. by rewrite list_lookup_imap.
Qed.

Section refine.
Context (ms : bool) (cols top left w h : nat) (gm : N) (pt : nat) (ext : list N) (gray : nat -> nat).
Context (Hw : 0 < w) (Hh : 0 < h) (Hfit : left + w <= cols).
Notation G := (dgraph ms cols top left w h gray).
Notation k := (cfgd ms w h gm pt).
Notation gid := (gid cols top left).
Notation pid := (pid w).
Context (Hext : forall r c, r < h -> c < w -> get_gray k ext (pid r c) = Some (gray (gid r c))).
Context (Hgb : gray_bound G).
Context (Hsmall : (N.of_nat (w * h) < 2 ^ 29)%N).
Context (L : list nat) (HL : length L <= 255) (HLg : forall p, p ∈ g_nodes G -> gray p ∈ L).
Context (cap base : nat -> nat).
Context (Hbase : forall g, base (S g) = base g + cap g + 1).
Context (Hcap : forall g, length (filter (fun p => gray p = g) (g_nodes G)) <= cap g).

Definition phi (p : nat) : nat := pid (grow cols top p) (gcol cols left p).

Lemma phi_gid r c : c < w -> phi (gid r c) = pid r c.
Proof. clear - Hfit. intros Hc. unfold phi. by rewrite (gid_row _ _ _ w), (gid_col _ _ _ w). Qed.

Lemma gid_node r c : r < h -> c < w -> gid r c ∈ g_nodes G.
Proof. intros ? ?. simpl. apply elem_rect. eauto 6. Qed.

Lemma pid_inj r c r' c' : c < w -> c' < w -> pid r c = pid r' c' -> r = r' /\ c = c'.
Proof.
  clear.
  intros H1 H2 He. apply pair_unique in He as [? ?]; lia.
Qed.

Lemma phi_inj p q : p ∈ g_nodes G -> q ∈ g_nodes G -> phi p = phi q -> p = q.
Proof.
  intros Hp Hq He. apply elem_rect in Hp as (r & c & ? & ? & ->), Hq as (r' & c' & ? & ? & ->).
  rewrite !phi_gid in He by auto. apply pid_inj in He as [-> ->]; auto.
Qed.

Definition plen : nat := (w + 2) * (h + 2).
Definition border (x : nat) : Prop := x < plen /\ forall r c, r < h -> c < w -> x <> pid r c.

Lemma phi_lt p : p ∈ g_nodes G -> phi p < plen.
Proof.
  intros Hp. apply elem_rect in Hp as (r & c & ? & ? & ->). rewrite phi_gid by auto.
  unfold FloodRefine.pid, plen. nia.
Qed.

Lemma border_row x c : x = 0 \/ x = h + 1 -> c < w + 2 -> border (x * (w + 2) + c).
Proof.
  clear.
  intros Hx Hc. split; [unfold plen; nia|]. intros r c' Hr Hc' He.
  apply pair_unique in He as [? ?]; lia.
Qed.
Lemma border_col x c : x < h + 2 -> c = 0 \/ c = w + 1 -> border (x * (w + 2) + c).
Proof.
  clear.
  intros Hx Hc. split; [unfold plen; nia|]. intros r c' Hr Hc' He.
  apply pair_unique in He as [? ?]; lia.
Qed.

Lemma nbr_spec (pts : list N) p d : length pts = plen -> p ∈ g_nodes G -> d < 4 ->
  exists x, nbr_of k pts (phi p) (S d) = Some x /\
    match g_nbr G p d with Some q => q ∈ g_nodes G /\ x = phi q | None => border x end.
Proof.
  intros Hlen Hp Hd. apply elem_rect in Hp as (r & c & Hr & Hc & ->).
  rewrite phi_gid by auto. unfold nbr_of. cbn [g_nbr dgraph].
  assert (forall e o, e < 4 -> o = match e with 0 => 1%Z | 1 => (- Z.of_nat (w + 2))%Z | 2 => (-1)%Z | _ => Z.of_nat (w + 2) end ->
    exists x, (let q := (Z.of_nat (pid r c) + o)%Z in
      if ((0 <=? q) && (q <? Z.of_nat (length pts)))%Z then Some (Z.to_nat q) else None) = Some x /\
    match rect_nbr cols top left w h (gid r c) e with Some q => q ∈ g_nodes G /\ x = phi q | None => border x end) as Hall.
  2:{ destruct ms, d as [|[|[|[|d]]]]; try lia; cbn [k_dirs cfgd lookup list_lookup dperm]; apply Hall; auto with arith. }
  clear d Hd. intros d o Hd ->. unfold rect_nbr. cbv zeta.
  rewrite (gid_row _ _ _ w), (gid_col _ _ _ w) by auto.
  assert (forall z : Z, (0 <= z < Z.of_nat plen)%Z ->
    (((0 <=? z) && (z <? Z.of_nat (length pts)))%Z) = true) as Hin.
  { intros z Hz. rewrite Hlen. destruct (Z.leb_spec 0 z), (Z.ltb_spec z (Z.of_nat plen)); simpl; lia. }
  assert (pid r c = (r + 1) * (w + 2) + (c + 1)) as Hpid by done.
  assert (pid r c + (w + 2) + 1 < plen) as Hlt. { rewrite Hpid. unfold plen. nia. }
  assert (w + 2 < pid r c) as Hgt. { rewrite Hpid. nia. }
  destruct d as [|[|[|[|d]]]]; [| | | |lia].
  - rewrite Hin by lia. eexists; split; [done|].
    replace (Z.to_nat (Z.of_nat (pid r c) + 1)) with (pid r c + 1) by lia.
    destruct (Nat.ltb_spec (S c) w).
    + split. { apply gid_node; lia. } rewrite phi_gid by auto. unfold FloodRefine.pid. lia.
    + replace (pid r c + 1) with ((r + 1) * (w + 2) + (w + 1)) by (rewrite Hpid; lia). apply border_col; lia.
  - rewrite Hin by lia. eexists; split; [done|].
    replace (Z.to_nat (Z.of_nat (pid r c) + - Z.of_nat (w + 2))) with (pid r c - (w + 2)) by lia.
    destruct r as [|r].
    + replace (pid 0 c - (w + 2)) with (0 * (w + 2) + (c + 1)) by (rewrite Hpid; lia). apply border_row; lia.
    + split. { apply gid_node; lia. } rewrite phi_gid by auto. unfold FloodRefine.pid. nia.
  - rewrite Hin by lia. eexists; split; [done|].
    replace (Z.to_nat (Z.of_nat (pid r c) + -1)) with (pid r c - 1) by lia.
    destruct c as [|c].
    + replace (pid r 0 - 1) with ((r + 1) * (w + 2) + 0) by (rewrite Hpid; lia). apply border_col; lia.
    + split. { apply gid_node; lia. } rewrite phi_gid by lia. unfold FloodRefine.pid. lia.
  - rewrite Hin by lia. eexists; split; [done|].
    replace (Z.to_nat (Z.of_nat (pid r c) + Z.of_nat (w + 2))) with (pid r c + (w + 2)) by lia.
    destruct (Nat.ltb_spec (S r) h).
    + split. { apply gid_node; lia. } rewrite phi_gid by auto. unfold FloodRefine.pid. nia.
    + replace (pid r c + (w + 2)) with ((h + 1) * (w + 2) + (c + 1)) by (rewrite Hpid; nia). apply border_row; lia.
Qed.

Lemma get_gray_phi p : p ∈ g_nodes G -> get_gray k ext (phi p) = Some (gray p).
Proof. intros Hp. apply elem_rect in Hp as (r & c & ? & ? & ->). rewrite phi_gid by auto. auto. Qed.

(* ---------- boundary stacks ---------- *)
Definition heapR (heap : list (option nat)) (hs : list nat) (ah : nat -> list nat) : Prop :=
  length hs = 257 /\ length heap = base 256 + 1 /\
  forall g, g <= 256 ->
    hs !! g = Some (base g + length (ah g)) /\
    heap !! base g = Some None /\
    forall i x, rev (ah g) !! i = Some x -> heap !! (base g + 1 + i) = Some (Some (phi x)).

Lemma base_mono g g' : g < g' -> base g + cap g < base g'.
Proof.
  intros H. induction g' as [|g' IH]; [lia|]. rewrite Hbase.
  destruct (decide (g = g')) as [->|]; [lia|]. pose proof (IH ltac:(lia)). lia.
Qed.
Lemma base_disj g g' i j : i <= cap g -> j <= cap g' -> base g + i = base g' + j -> g = g'.
Proof.
  intros Hi Hj He. destruct (lt_eq_lt_dec g g') as [[H|H]|H]; auto; exfalso.
  - apply base_mono in H. lia.
  - apply base_mono in H. lia.
Qed.

Lemma heap_top_spec heap hs ah g : heapR heap hs ah -> g <= 256 ->
  heap_top heap hs g = Some (match ah g with [] => None | p :: _ => Some (phi p) end).
Proof.
  intros (_ & _ & H) Hg. destruct (H g Hg) as (H1 & H2 & H3). unfold heap_top. rewrite H1.
  destruct (ah g) as [|p l] eqn:E; simpl.
  - by rewrite Nat.add_0_r.
  - replace (base g + S (length l)) with (base g + 1 + length l) by lia.
    apply H3. simpl. rewrite lookup_app_r by (rewrite rev_length; lia).
    rewrite rev_length. by rewrite Nat.sub_diag.
Qed.

Lemma heap_push_spec heap hs ah g p :
  heapR heap hs ah -> g <= 255 -> (forall g', length (ah g') <= cap g') -> S (length (ah g)) <= cap g ->
  exists heap' hs', heap_push heap hs g (phi p) = Some (heap', hs') /\
    heapR heap' hs' (<[g := p :: ah g]> ah).
Proof.
  intros (HH1 & HH2 & H) Hg Hc Hcg. destruct (H g ltac:(lia)) as (H1 & H2 & H3). unfold heap_push. rewrite H1.
  assert (S (base g + length (ah g)) < length heap) as Hlt.
  { rewrite HH2. pose proof (base_mono g 256). lia. }
  unfold store. destruct (Nat.ltb_spec (S (base g + length (ah g))) (length heap)) as [_|]; [|lia].
  eexists _, _. split; [done|]. split; [by rewrite insert_length|]. split; [by rewrite insert_length|].
  intros g' Hg'. destruct (H g' Hg') as (K1 & K2 & K3). destruct (decide (g = g')) as [<-|Hne].
  - rewrite fn_lookup_insert. rewrite list_lookup_insert by lia. split; [f_equal; simpl; lia|]. split.
    + rewrite list_lookup_insert_ne by lia. auto.
    + intros i x Hx. simpl in Hx. apply lookup_app_Some in Hx as [Hx|[Hx1 Hx2]].
      * pose proof (lookup_lt_Some _ _ _ Hx). rewrite rev_length in *.
        rewrite list_lookup_insert_ne by lia. auto.
      * rewrite rev_length in *. apply list_lookup_singleton_Some in Hx2 as [Hx2 <-].
        replace (base g + 1 + i) with (S (base g + length (ah g))) by lia.
        by rewrite list_lookup_insert.
  - rewrite fn_lookup_insert_ne by auto. rewrite list_lookup_insert_ne by auto. split; auto. split.
    + rewrite list_lookup_insert_ne; auto. intros He. apply Hne.
      apply (base_disj g g' (S (length (ah g))) 0); lia.
    + intros i x Hx. pose proof (lookup_lt_Some _ _ _ Hx). rewrite rev_length in *.
      rewrite list_lookup_insert_ne; auto. intros He. apply Hne.
      pose proof (Hc g').
      apply (base_disj g g' (S (length (ah g))) (1 + i)); lia.
Qed.

Lemma heap_pop_spec heap hs ah g p l :
  heapR heap hs ah -> g <= 256 -> ah g = p :: l ->
  exists hs', heap_pop hs g = Some hs' /\ heapR heap hs' (<[g := l]> ah).
Proof.
  intros (HH1 & HH2 & H) Hg He. destruct (H g Hg) as (H1 & H2 & H3). unfold heap_pop. rewrite H1, He.
  simpl. rewrite <-plus_n_Sm. eexists. split; [done|].
  split; [by rewrite insert_length|]. split; [done|].
  intros g' Hg'. destruct (H g' Hg') as (K1 & K2 & K3). destruct (decide (g = g')) as [<-|Hne].
  - rewrite fn_lookup_insert. rewrite list_lookup_insert by lia. split; auto. split; auto.
    intros i x Hx. apply K3. rewrite He. simpl. by apply lookup_app_l_Some.
  - rewrite fn_lookup_insert_ne by auto. rewrite list_lookup_insert_ne by auto. auto.
Qed.

Lemma cfind_spec heap hs ah g n : heapR heap hs ah -> g + n <= 257 ->
  cfind heap hs g n = Some (find_level ah g n).
Proof.
  intros H. revert g. induction n as [|n IH]; intros g Hg; simpl; auto.
  rewrite (heap_top_spec heap hs ah) by (auto; lia).
  destruct (ah g); auto. apply IH. lia.
Qed.

(* ---------- regions and components ---------- *)
Definition conv (r : nat) (a : areg) : creg :=
  CReg (rg a) 0 (length (rl a)) (rpar a) r pt.
Definition convr (regs : list areg) : list creg := imap conv regs.
Definition convc (c : acomp) : ccomp := CComp (cg c) (Some (cr c)) (length (cl c)).
Definition sentinel : ccomp := CComp 257 None 0.

Lemma convr_lookup regs r : convr regs !! r = conv r <$> regs !! r.
Proof. unfold convr. apply list_lookup_imap. Qed.
Lemma convr_length regs : length (convr regs) = length regs.
Proof. apply imap_length. Qed.
Lemma convr_snoc regs g : g < 256 ->
  convr (regs ++ [AReg g None []]) = convr regs ++ [fresh_reg k g (length regs)].
Proof.
  intros Hg. unfold convr. rewrite imap_app. f_equal. unfold fresh_reg.
  rewrite Nat.mod_small by auto. cbn [imap]. unfold conv. simpl. by rewrite Nat.add_0_r.
Qed.
Lemma cset_par_spec regs r t : r < length regs ->
  cset_par (convr regs) r t = Some (convr (set_par regs r t)).
Proof.
  intros Hr. unfold cset_par, set_par. rewrite convr_lookup.
  destruct (lookup_lt_is_Some_2 regs r Hr) as [a Ha]. rewrite Ha. simpl.
  unfold convr. by rewrite insert_imap.
Qed.
Lemma cset_size_spec regs r l : r < length regs ->
  cset_size (convr regs) r (length l) = Some (convr (set_rl regs r l)).
Proof.
  intros Hr. unfold cset_size, set_rl. rewrite convr_lookup.
  destruct (lookup_lt_is_Some_2 regs r Hr) as [a Ha]. rewrite Ha. simpl.
  unfold convr. by rewrite insert_imap.
Qed.

Lemma craise_spec g c rest regs : g < 256 -> cr c < length regs ->
  craise k g (convc c) rest (convr regs) =
  Some (convc (AComp g (length regs) (cl c)) :: rest,
        convr (set_par regs (cr c) (length regs) ++ [AReg g None []])).
Proof.
  intros Hg Hr. unfold craise. cbn [cc_reg convc].
  rewrite convr_length, cset_par_spec by auto. f_equal. f_equal.
  rewrite convr_snoc by auto. by rewrite length_set_par.
Qed.

Lemma cup_spec g c rest regs comps' regs' : g < 256 ->
  amerge g c rest regs = Some (comps', regs') ->
  (forall c0, c0 ∈ c :: rest -> cr c0 < length regs) ->
  cup k g (convc c) (map convc rest ++ [sentinel]) (convr regs) =
  Some (map convc comps' ++ [sentinel], convr regs').
Proof.
  intros Hg. revert c regs. induction rest as [|c2 rest IH]; intros c regs; simpl.
  - destruct (Nat.ltb_spec g 257); [|done]. intros [= <- <-] Hr.
    destruct (Nat.ltb_spec g 257); [|lia].
    rewrite craise_spec; auto. apply Hr. apply elem_of_cons; auto.
  - intros Hm Hr. destruct (Nat.ltb_spec g (cg c2)).
    + injection Hm as <- <-. rewrite craise_spec; auto. apply Hr. apply elem_of_cons; auto.
    + rewrite cset_par_spec by (apply Hr; apply elem_of_cons; auto).
      destruct (Nat.leb_spec g (cg c2)).
      * injection Hm as <- <-. simpl. unfold convc. simpl. by rewrite app_length.
      * rewrite <-(IH _ _ Hm).
        2: { intros c0 Hin. rewrite length_set_par. apply elem_of_cons in Hin as [->|Hin]; simpl.
             - apply Hr. rewrite !elem_of_cons; auto.
             - apply Hr. rewrite !elem_of_cons; auto. }
        assert (convc (AComp (cg c2) (cr c2) (cl c2 ++ cl c)) =
                CComp (cg c2) (Some (cr c2)) (length (cl c2) + length (cl c))) as ->
          by (unfold convc; simpl; by rewrite app_length).
        unfold cup. destruct (map convc rest ++ [sentinel]) as [|c3 l]; auto.
Qed.

(* ---------- the relation ---------- *)
Definition enc (x : pst) : N :=
  match x with
  | PU => 0
  | PW d => N.of_nat (S d) * 2 ^ 29
  | PD r => 5 * 2 ^ 29 + N.of_nat r
  end.

Record R (s : cst) (a : ast) : Prop := MkR {
  r_cur : c_cur s = phi (a_cur a);
  r_ni : c_ni s = S (a_d a);
  r_gray : c_gray s = gray (a_cur a);
  r_len : length (c_pts s) = plen;
  r_px : forall p, p ∈ g_nodes G -> c_pts s !! phi p = Some (enc (a_px a p));
  r_bd : forall x, border x -> c_pts s !! x = Some (5 * 2 ^ 29)%N;
  r_heap : heapR (c_heap s) (c_hs s) (a_heap a);
  r_comps : c_comps s = map convc (a_comps a) ++ [sentinel];
  r_regs : c_regs s = convr (a_regs a)
}.

Lemma px_insert pts (px : nat -> pst) p x :
  p ∈ g_nodes G ->
  length pts = plen ->
  (forall q, q ∈ g_nodes G -> pts !! phi q = Some (enc (px q))) ->
  (forall q, q ∈ g_nodes G -> <[phi p := enc x]> pts !! phi q = Some (enc ((<[p := x]> px) q))).
Proof.
  intros Hp Hl H q Hq. destruct (decide (p = q)) as [->|Hne].
  - rewrite fn_lookup_insert, list_lookup_insert; auto. rewrite Hl. by apply phi_lt.
  - rewrite fn_lookup_insert_ne by auto. rewrite list_lookup_insert_ne; auto.
    intros He. by apply phi_inj in He.
Qed.
Lemma bd_insert (pts : list N) p v : p ∈ g_nodes G ->
  (forall x, border x -> pts !! x = Some (5 * 2 ^ 29)%N) ->
  (forall x, border x -> <[phi p := v]> pts !! x = Some (5 * 2 ^ 29)%N).
Proof.
  intros Hp H x Hx. rewrite list_lookup_insert_ne; auto. intros <-.
  apply elem_rect in Hp as (r & c & Hr & Hc & ->). rewrite phi_gid in Hx by auto.
  destruct Hx as [_ Hx]. by eapply Hx.
Qed.

(* ---------- counting ---------- *)
Lemma heap_cap px cur d heap g : InvA G px cur d heap -> length (heap g) <= cap g.
Proof.
  intros HA. etrans; [|apply Hcap]. apply submseteq_length, NoDup_submseteq.
  { apply (i_hnd _ _ _ _ _ HA). }
  intros p Hp. destruct (i_heap _ _ _ _ _ HA g p Hp) as (Hg & _ & (d0 & Hd & _)).
  apply elem_of_list_filter. split; auto. apply (i_dom _ _ _ _ _ HA). congruence.
Qed.

Lemma comps_bound s : Inv G s -> length (a_comps s) <= 255.
Proof.
  intros [HA HB HC]. etrans; [|exact HL].
  rewrite <-(map_length cg). apply submseteq_length, NoDup_submseteq.
  - pose proof (i_sorted _ _ _ _ _ HB) as Hs. clear - Hs. induction Hs as [|x l Hs IH HF]; constructor; auto.
    intros Hin. rewrite Forall_forall in HF. apply HF in Hin. lia.
  - intros g Hg. apply elem_of_list_fmap in Hg as (c & -> & Hc).
    destruct HC as (c0 & rest & He & Hcg & Hb). rewrite He in Hc. apply elem_of_cons in Hc as [->|Hc].
    + rewrite Hcg. simpl. apply HLg. apply (i_cur _ _ _ _ _ HA).
    + pose proof (Hb c Hc) as Hne. destruct (a_heap s (cg c)) as [|p l] eqn:E; [done|].
      destruct (i_heap _ _ _ _ _ HA (cg c) p) as (Hg & _ & (d0 & Hd & _)).
      { rewrite E. apply elem_of_cons; auto. }
      rewrite <-Hg. simpl. apply HLg. apply (i_dom _ _ _ _ _ HA). congruence.
Qed.

Definition owner (s : ast) (p r : nat) : Prop :=
  a_px s p = PD r \/ exists c d, c ∈ a_comps s /\ cr c = r /\ a_px s p = PW d /\ gray p = cg c.

Lemma owner_fun s p r r' : Inv G s -> owner s p r -> owner s p r' -> r = r'.
Proof.
  intros [HA HB HC] [H|(c & d & Hc & <- & Hd & Hg)] [H'|(c' & d' & Hc' & <- & Hd' & Hg')]; try congruence.
  f_equal. pose proof (i_sorted _ _ _ _ _ HB) as Hs.
  apply elem_of_list_lookup in Hc as [i Hi]. apply elem_of_list_lookup in Hc' as [j Hj].
  destruct (lt_eq_lt_dec i j) as [[H|H]|H].
  - exfalso. assert (cg c < cg c'); [|lia].
    eapply (elem_of_StronglySorted_app lt (take (S i) (map cg (a_comps s))) (drop (S i) (map cg (a_comps s)))).
    + by rewrite take_drop.
    + eapply elem_of_list_lookup. exists i. rewrite lookup_take by lia. rewrite list_lookup_fmap, Hi. done.
    + eapply elem_of_list_lookup. exists (j - S i). rewrite lookup_drop. replace (S i + (j - S i)) with j by lia.
      rewrite list_lookup_fmap, Hj. done.
  - subst. congruence.
  - exfalso. assert (cg c' < cg c); [|lia].
    eapply (elem_of_StronglySorted_app lt (take (S j) (map cg (a_comps s))) (drop (S j) (map cg (a_comps s)))).
    + by rewrite take_drop.
    + eapply elem_of_list_lookup. exists j. rewrite lookup_take by lia. rewrite list_lookup_fmap, Hj. done.
    + eapply elem_of_list_lookup. exists (i - S j). rewrite lookup_drop. replace (S j + (i - S j)) with i by lia.
      rewrite list_lookup_fmap, Hi. done.
Qed.

Lemma owner_exists s r : Inv G s -> r < length (a_regs s) -> exists p, p ∈ g_nodes G /\ owner s p r.
Proof.
  intros [HA HB HC] Hr. destruct (lookup_lt_is_Some_2 _ _ Hr) as [a Ha].
  destruct (decide (r ∈ map cr (a_comps s))) as [Hin|Hni].
  - apply elem_of_list_fmap in Hin as (c & -> & Hc).
    destruct HC as (c0 & rest & He & Hcg & Hb). rewrite He in Hc. apply elem_of_cons in Hc as [->|Hc].
    + destruct (i_cur _ _ _ _ _ HA) as (Hn & (d & Hd) & _). exists (a_cur s). split; auto.
      right. exists c0, d. rewrite He. rewrite elem_of_cons. auto.
    + pose proof (Hb c Hc) as Hne. destruct (a_heap s (cg c)) as [|p l] eqn:E; [done|].
      destruct (i_heap _ _ _ _ _ HA (cg c) p) as (Hg & _ & (d0 & Hd & _)).
      { rewrite E. apply elem_of_cons; auto. }
      exists p. split; [apply (i_dom _ _ _ _ _ HA); congruence|].
      right. exists c, d0. rewrite He. rewrite elem_of_cons. auto.
  - destruct (i_closed _ _ _ _ _ HB r a Ha Hni) as [[(p & Hp) _ _] _]. exists p.
    split; [apply (i_dom _ _ _ _ _ HA); congruence|]. by left.
Qed.

Lemma regs_bound s : Inv G s -> length (a_regs s) <= w * h.
Proof.
  intros HI. rewrite <-(length_rect cols top left w h).
  assert (forall n, n <= length (a_regs s) -> exists l, length l = n /\
    forall i p, l !! i = Some p -> p ∈ g_nodes G /\ owner s p i) as Hl.
  { induction n as [|n IH]; intros Hn.
    - exists []. split; auto. intros i p H. done.
    - destruct IH as (l & Hlen & Hown); [lia|].
      destruct (owner_exists s n HI) as (p & Hp & Ho); [lia|].
      exists (l ++ [p]). rewrite app_length. split; [simpl; lia|].
      intros i q Hq. apply lookup_app_Some in Hq as [Hq|[Hi Hq]]; auto.
      apply list_lookup_singleton_Some in Hq as [Hi' <-].
      replace i with n by lia. auto. }
  destruct (Hl _ (le_n _)) as (l & Hlen & Hown). rewrite <-Hlen.
  apply submseteq_length, NoDup_submseteq.
  - apply NoDup_alt. intros i j p Hi Hj. apply Hown in Hi as [_ Hi], Hj as [_ Hj].
    by eapply owner_fun.
  - intros p Hp. apply elem_of_list_lookup in Hp as [i Hi]. apply Hown in Hi as [? _]. auto.
Qed.

Lemma word_nz x r : match x with PU => False | PW d => d <= 4 | PD r' => r' = r end ->
  (N.of_nat r < 2 ^ 29)%N -> (N.land (enc x) (k_mask k) =? 0)%N = false.
Proof.
  intros Hx Hr. apply N.eqb_neq. rewrite mask4. destruct x as [|d|r']; [done| |].
  - rewrite <-(N.add_0_r (enc _)). apply land_top_nz; lia.
  - subst. apply land_top_nz; lia.
Qed.

(* ---------- taking the next pixel ---------- *)
Lemma ctake_spec pts px' px cur d heap ah hs g p l d1 acomps aregs :
  InvA G px cur d ah ->
  length pts = plen ->
  (forall q, q ∈ g_nodes G -> pts !! phi q = Some (enc (px' q))) ->
  (forall x, border x -> pts !! x = Some (5 * 2 ^ 29)%N) ->
  (forall q, q <> cur -> px' q = px q) ->
  heapR heap hs ah -> g <= 255 -> ah g = p :: l -> px p = PW d1 ->
  exists s', ctake k pts heap hs g (map convc acomps ++ [sentinel]) (convr aregs) = CNext s' /\
    R s' (ASt px' p d1 (<[g := l]> ah) acomps aregs).
Proof.
  intros HA Hlen Hpx Hbd Hpx' HR Hg Hhp Hp. unfold ctake.
  rewrite (heap_top_spec heap hs ah) by (auto; lia). rewrite Hhp.
  destruct (heap_pop_spec heap hs ah g p l HR ltac:(lia) Hhp) as (hs' & Hpop & HR'). rewrite Hpop.
  destruct (i_heap _ _ _ _ _ HA g p) as (Hgp & Hpc & (d2 & Hd2 & Hd2le)).
  { rewrite Hhp. apply elem_of_cons; auto. }
  assert (d2 = d1) as -> by congruence.
  assert (p ∈ g_nodes G) as Hpn. { apply (i_dom _ _ _ _ _ HA). congruence. }
  rewrite (Hpx p Hpn), (Hpx' p Hpc), Hp.
  eexists. split; [done|]. constructor; cbn [c_cur c_ni c_gray c_pts c_heap c_hs c_comps c_regs a_px a_cur a_d a_heap a_comps a_regs]; auto.
  cbn [enc k_shift cfgd]. rewrite <-(N.add_0_r (_ * _)), shiftr_top by lia. by rewrite Nat2N.id.
Qed.

(* ---------- simulation of one step ---------- *)
Theorem step_refine s a : R s a -> Inv G a ->
  match astep G a with
  | ANext a' => exists s', cstep k ext s = CNext s' /\ R s' a'
  | AHalt a' => exists s', cstep k ext s = CHalt s' /\ R s' a'
  | AStuck => True
  end.
Proof.
  intros [R1 R2 R3 R4 R5 R6 R7 R8 R9] HI.
  pose proof (astep_inv G (dgraph_ok _ _ _ _ _ _ _ Hfit) a Hgb HI) as HI'.
  pose proof (regs_bound a HI) as Hrb. pose proof (comps_bound a HI) as Hcb.
  pose proof HI as [HA HB HC].
  destruct a as [px cur d ah comps regs], s as [pts ccur ni cgr heap hs ccomps cregs]. simpl in *. subst.
  destruct (i_cur _ _ _ _ _ HA) as (Hcn & (d0 & Hcur) & Hd4). simpl in Hd4.
  assert (gray cur <= 255) as Hcg255 by (by apply Hgb).
  assert (forall r, r < length regs -> (N.of_nat r < 2 ^ 29)%N) as Hrsmall. { intros r Hr. lia. }
  assert (forall g, length (ah g) <= cap g) as Hcapg. { intros g. eapply heap_cap; eauto. }
  unfold cstep, astep in *. cbn [c_ni c_pts c_cur c_gray c_heap c_hs c_comps c_regs a_px a_cur a_d a_heap a_comps a_regs g_deg g_gray dgraph] in *.
  destruct (Nat.ltb_spec d 4) as [Hd|Hd].
  - destruct (Nat.leb_spec (S d) 4) as [_|]; [|lia].
    destruct (nbr_spec pts cur d R4 Hcn Hd) as (x & Hx & Hxq). rewrite Hx.
    simpl g_nbr in *. destruct (rect_nbr cols top left w h cur (dperm ms d)) as [q|] eqn:Hq.
    + destruct Hxq as [Hqn ->]. rewrite (R5 q Hqn).
      destruct (px q) as [|d1|r1] eqn:Hpq.
      * simpl enc. rewrite N.land_0_l. simpl. rewrite get_gray_phi by auto.
        assert (gray q <= 255) as Hqg by (by apply Hgb).
        assert (q <> cur) as Hqc by congruence.
        destruct (Nat.ltb_spec (gray q) (gray cur)) as [Hlt|Hge].
        -- pose proof (comps_bound _ HI') as Hcb'. simpl in Hcb'.
           pose proof HI' as [HA' _ _]. cbn [a_px a_cur a_d a_heap] in HA'.
           pose proof (heap_cap _ _ _ _ (gray cur) HA') as Hc'. rewrite fn_lookup_insert in Hc'. simpl in Hc'.
           destruct (heap_push_spec heap hs ah (gray cur) cur) as (heap' & hs' & Hpush & HR'); auto.
           rewrite Hpush. rewrite app_length, map_length. simpl length.
           destruct (Nat.ltb_spec (length comps + 1) 256) as [_|]; [|lia].
           eexists. split; [done|]. constructor; cbn [c_cur c_ni c_gray c_pts c_heap c_hs c_comps c_regs a_px a_cur a_d a_heap a_comps a_regs]; auto.
           ++ by rewrite !insert_length.
           ++ rewrite (list_insert_commute pts) by (intros He; apply Hqc; symmetry; by apply phi_inj).
              rewrite (dword4 ms w h gm pt 1), (dword4 ms w h gm pt (S (S d))) by lia.
              apply (px_insert _ _ q (PW 0)); auto; [by rewrite insert_length|].
              intros q' Hq'. apply (px_insert _ _ cur (PW (S d))); auto.
           ++ apply bd_insert; auto. apply bd_insert; auto.
           ++ rewrite convr_length. done.
           ++ rewrite convr_length, convr_snoc; auto. lia.
        -- pose proof HI' as [HA' _ _]. cbn [a_px a_cur a_d a_heap] in HA'.
           pose proof (heap_cap _ _ _ _ (gray q) HA') as Hc'. rewrite fn_lookup_insert in Hc'. simpl in Hc'.
           destruct (heap_push_spec heap hs ah (gray q) q) as (heap' & hs' & Hpush & HR'); auto.
           rewrite Hpush.
           eexists. split; [done|]. constructor; cbn [c_cur c_ni c_gray c_pts c_heap c_hs c_comps c_regs a_px a_cur a_d a_heap a_comps a_regs]; auto.
           ++ by rewrite !insert_length.
           ++ rewrite (dword4 ms w h gm pt 1) by lia. apply (px_insert _ _ q (PW 0)); auto.
           ++ apply bd_insert; auto.
      * rewrite (word_nz (PW d1) 0); [|simpl|lia].
        { eexists. split; [done|]. constructor; auto. }
        destruct (decide (q = cur)) as [->|Hqc].
        { exfalso. apply (gok_irrefl _ (dgraph_ok ms cols top left w h gray Hfit) cur); auto. exists d. split; auto. }
        destruct (i_wait _ _ _ _ _ HA q d1 Hpq) as [?|Hin]; [done|].
        destruct (i_heap _ _ _ _ _ HA _ _ Hin) as (_ & _ & (d2 & Hd2 & Hd2le)).
        simpl in Hd2le. assert (d2 = d1) by congruence. lia.
      * destruct (i_lab _ _ _ _ _ HB q r1 Hpq) as [(a1 & Ha1 & _) _].
        rewrite (word_nz (PD r1) r1); auto.
        { eexists. split; [done|]. constructor; auto. }
        apply Hrsmall. by eapply lookup_lt_Some.
    + rewrite (R6 x Hxq).
      match goal with |- context [if (N.land ?a ?b =? 0)%N then _ else _] =>
        change (N.land a b =? 0)%N with false end.
      eexists. split; [done|]. constructor; auto.
  - destruct (Nat.leb_spec (S d) 4) as [|_]; [lia|]. assert (d = 4) as -> by lia.
    destruct HC as (c & rest & -> & Hcg & Hbelow). cbn [map app] in *.
    cbn [cc_reg convc].
    destruct (i_creg _ _ _ _ _ HB c) as (a0 & Ha0 & Hp0 & Hg0). { apply elem_of_cons; auto. }
    pose proof (lookup_lt_Some _ _ _ Ha0) as Hcr.
    rewrite convr_lookup, Ha0. cbn [fmap option_fmap option_map m_er_index conv].
    rewrite dword4, lor_disjoint by (auto; lia). change (N.of_nat 5) with 5%N.
    unfold store. rewrite R4. pose proof (phi_lt cur Hcn) as Hpl.
    destruct (Nat.ltb_spec (phi cur) plen) as [_|]; [|lia].
    rewrite bnd4, decode_done by auto. rewrite N.eqb_refl.
    set (pts' := <[phi cur:=(5 * 2 ^ 29 + N.of_nat (cr c))%N]> pts).
    set (px' := <[cur := PD (cr c)]> px) in *.
    assert (length pts' = plen) as Hlen' by (unfold pts'; by rewrite insert_length).
    assert (forall q, q ∈ g_nodes G -> pts' !! phi q = Some (enc (px' q))) as Hpx'.
    { apply (px_insert pts px cur (PD (cr c))); auto. }
    assert (forall x, border x -> pts' !! x = Some (5 * 2 ^ 29)%N) as Hbd' by (by apply bd_insert).
    assert (forall q, q <> cur -> px' q = px q) as Hne. { intros q Hq. unfold px'. by rewrite fn_lookup_insert_ne. }
    set (c' := AComp (cg c) (cr c) (cur :: cl c)) in *.
    change (CComp (cc_gray (convc c)) (Some (cr c)) (S (cc_size (convc c)))) with (convc c').
    rewrite (heap_top_spec heap hs ah) by (auto; lia).
    destruct (ah (gray cur)) as [|p l] eqn:Hah.
    + change (cc_size (convc c')) with (length (cl c')).
      rewrite cset_size_spec by auto.
      rewrite (cfind_spec heap hs ah) by (auto; lia).
      destruct (find_level ah (S (gray cur)) (256 - gray cur)) as [g'|] eqn:Hf.
      * apply find_level_some in Hf as (Hr & Hnn & _).
        destruct (ah g') as [|p l] eqn:Hg'; [done|].
        destruct (i_heap _ _ _ _ _ HA g' p) as (Hgp & Hpc & (d2 & Hd2 & Hd2le)).
        { rewrite Hg'. apply elem_of_cons; auto. }
        assert (g' <= 255). { rewrite <-Hgp. apply Hgb. apply (i_dom _ _ _ _ _ HA). congruence. }
        destruct (amerge g' c' rest (set_rl regs (cr c) (cl c'))) as [[comps' regs']|] eqn:Hm; [|done].
        rewrite (cup_spec g' c' rest (set_rl regs (cr c) (cl c')) comps' regs'); auto; [|lia|].
        -- rewrite Hd2. eapply ctake_spec; eauto.
        -- intros c0 H0. rewrite length_set_rl.
           assert (cr c0 ∈ map cr (c :: rest)) as Hin.
           { apply elem_of_cons in H0 as [->|H0]; simpl; apply elem_of_cons; [by left|right].
             apply elem_of_list_fmap; eauto. }
           apply elem_of_list_fmap in Hin as (c1 & -> & H1).
           destruct (i_creg _ _ _ _ _ HB c1 H1) as (a1 & Ha1 & _). by eapply lookup_lt_Some.
      * eexists. split; [done|]. constructor; auto.
    + destruct (i_heap _ _ _ _ _ HA (gray cur) p) as (Hgp & Hpc & (d2 & Hd2 & Hd2le)).
      { rewrite Hah. apply elem_of_cons; auto. }
      rewrite Hd2. eapply (ctake_spec pts' px' px cur 4 heap ah hs (gray cur) p l d2 (c' :: rest)); eauto.
Qed.

(* ---------- whole runs ---------- *)
Lemma run_refine n s a : R s a -> Inv G a ->
  match arun G n a with
  | ANext a' => exists s', crun k ext n s = CNext s' /\ R s' a'
  | AHalt a' => exists s', crun k ext n s = CHalt s' /\ R s' a'
  | AStuck => True
  end.
Proof.
  revert s a. induction n as [|n IH]; intros s a HR HI; simpl; [eauto|].
  pose proof (step_refine s a HR HI) as Hs.
  pose proof (astep_inv G (dgraph_ok _ _ _ _ _ _ _ Hfit) a Hgb HI) as HI'.
  destruct (astep G a) as [a'|a'|]; auto.
  - destruct Hs as (s' & -> & HR'). by apply IH.
  - destruct Hs as (s' & -> & HR'). eauto.
Qed.

(* in every reachable state each stack pointer is inside its own slots and every
   bottom sentinel is intact *)
Lemma run_slots n s a s' : R s a -> Inv G a -> crun k ext n s = CNext s' ->
  (forall g, g <= 256 -> exists m, m <= cap g /\ c_hs s' !! g = Some (base g + m) /\
     c_heap s' !! base g = Some None) /\
  length (c_comps s') <= 256.
Proof.
  revert s a. induction n as [|n IH]; intros s a HR HI Hr; simpl in Hr.
  - injection Hr as <-. split.
    + intros g Hg. destruct HR. destruct r_heap0 as (_ & _ & K). destruct (K g Hg) as (K1 & K2 & _).
      exists (length (a_heap a g)). split; auto. destruct HI as [HA _ _]. eapply heap_cap; eauto.
    + destruct HR. rewrite r_comps0, app_length, map_length. simpl.
      pose proof (comps_bound a HI). lia.
  - pose proof (step_refine s a HR HI) as Hs.
    pose proof (astep_inv G (dgraph_ok _ _ _ _ _ _ _ Hfit) a Hgb HI) as HI'.
    destruct (astep G a) as [a'|a'|]; [| |done].
    + destruct Hs as (s1 & Hs1 & HR'). rewrite Hs1 in Hr. eauto.
    + destruct Hs as (s1 & Hs1 & HR'). by rewrite Hs1 in Hr.
Qed.

(* the buffers with which the loop is entered *)
Definition buf_ready (b : fbuf) : Prop :=
  length (b_pts b) = plen /\
  (forall p, p ∈ g_nodes G -> b_pts b !! phi p = Some 0%N) /\
  (forall x, border x -> b_pts b !! x = Some (5 * 2 ^ 29)%N) /\
  heapR (b_heap b) (b_hs b) (fun _ => []).

Lemma init_refine b : buf_ready b -> exists s, cinit k ext b = CNext s /\ R s (ainit G (gid 0 0)).
Proof.
  intros (Hl & Hz & Hb & HR). unfold cinit.
  assert (1 + k_w2 k = pid 0 0) as -> by (unfold k_w2, FloodRefine.pid; simpl; lia).
  rewrite Hext by auto.
  assert (gid 0 0 ∈ g_nodes G) as H0. { apply gid_node; auto. }
  assert (phi (gid 0 0) = pid 0 0) as Hphi by (by apply phi_gid).
  unfold store. rewrite Hl. pose proof (phi_lt _ H0) as Hlt. rewrite Hphi in Hlt.
  destruct (Nat.ltb_spec (pid 0 0) plen) as [_|]; [|lia].
  eexists. split; [done|]. unfold ainit. constructor; cbn [c_cur c_ni c_gray c_pts c_heap c_hs c_comps c_regs a_px a_cur a_d a_heap a_comps a_regs]; auto.
  - by rewrite insert_length.
  - rewrite <-Hphi, dword4 by lia. apply (px_insert _ (fun _ => PU) (gid 0 0) (PW 0)); auto.
  - rewrite <-Hphi. apply bd_insert; auto.
  - unfold fresh_reg. rewrite Nat.mod_small; auto.
    apply (Hgb (gid 0 0)) in H0. simpl in H0. lia.
Qed.

(* flooding from ready buffers ends in the component tree, with empty boundary stacks *)
Theorem flood_refined b n : buf_ready b -> 6 * (w * h) < n ->
  exists s s' aregs lab,
    cinit k ext b = CNext s /\ crun k ext n s = CHalt s' /\
    (exists a, arun G n (ainit G (gid 0 0)) = AHalt a /\ aregs = a_regs a /\ lab = labof (a_px a)) /\
    tree_of G lab aregs /\
    c_regs s' = convr aregs /\
    length aregs <= w * h /\
    (forall p, p ∈ g_nodes G -> c_pts s' !! phi p = Some (5 * 2 ^ 29 + N.of_nat (lab p))%N) /\
    (forall x, border x -> c_pts s' !! x = Some (5 * 2 ^ 29)%N) /\
    length (c_pts s') = plen /\
    heapR (c_heap s') (c_hs s') (fun _ => []).
Proof.
  intros Hb Hn. destruct (init_refine b Hb) as (s & Hs & HR).
  pose proof (dgraph_ok ms cols top left w h gray Hfit) as HG.
  assert (gid 0 0 ∈ g_nodes G) as H0. { apply gid_node; auto. }
  destruct (flood_abs_correct G HG (gid 0 0) n) as (a & Ha & Hf); auto.
  { by apply dgraph_connected. }
  { simpl. rewrite length_rect. lia. }
  pose proof (run_refine n s _ HR (ainit_inv G (gid 0 0) H0)) as Hrun. rewrite Ha in Hrun.
  destruct Hrun as (s' & Hs' & HR'). destruct HR' as [R1 R2 R3 R4 R5 R6 R7 R8 R9].
  destruct Hf as [F1 F2 F3 F4 F5].
  exists s, s', (a_regs a), (labof (a_px a)). split; auto. split; auto. split; eauto. split; auto. split; auto.
  split.
  { (* every region owns a distinct pixel *)
    assert (forall n, n <= length (a_regs a) -> exists l, length l = n /\
      forall i p, l !! i = Some p -> p ∈ g_nodes G /\ labof (a_px a) p = i) as Hl.
    { induction n0 as [|m IH]; intros Hm.
      - exists []. split; auto. intros i p H. done.
      - destruct IH as (l & Hlen & Hown); [lia|].
        destruct (lookup_lt_is_Some_2 (a_regs a) m) as [x Hx]; [lia|].
        destruct (to_own _ _ _ F5 m x Hx) as (p & Hp & Ho).
        exists (l ++ [p]). rewrite app_length. split; [simpl; lia|].
        intros i q Hq. apply lookup_app_Some in Hq as [Hq|[Hi Hq]]; auto.
        apply list_lookup_singleton_Some in Hq as [Hi' <-]. split; auto. lia. }
    destruct (Hl _ (le_n _)) as (l & Hlen & Hown). rewrite <-Hlen.
    rewrite <-(length_rect cols top left w h). apply submseteq_length, NoDup_submseteq.
    - apply NoDup_alt. intros i j p Hi Hj. apply Hown in Hi as [_ Hi], Hj as [_ Hj]. congruence.
    - intros p Hp. apply elem_of_list_lookup in Hp as [i Hi]. apply Hown in Hi as [? _]. auto. }
  split.
  { intros p Hp. rewrite (R5 p Hp). destruct (F1 p Hp) as [r Hr]. unfold labof. by rewrite Hr. }
  split; auto. split; auto.
  destruct R7 as (K1 & K2 & K3). split; auto. split; auto.
  intros g Hg. destruct (K3 g Hg) as (K4 & K5 & K6). rewrite F3 in *. auto.
Qed.
End refine.
