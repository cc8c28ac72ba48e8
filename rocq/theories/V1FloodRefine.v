(* The flooding loop of Fast MSER V1 refines the abstract flooding machine; its
   lists, boxes and seam tables follow that machine. *)
From stdpp Require Import sorting relations functions list.
From Coq Require Import NArith ZArith.
From Verif Require Import Spec FloodAbs FloodAbsInv FloodAbsProof Grid FloodModel FloodInit FloodRefine
  LinkedModel LinkedHeap LinkedRefine V1JoinModel V1Model V1FloodLists.
Local Open Scope nat_scope.

(* word of a pixel: unvisited, or visited with next direction d; s: seam pixel *)
Definition sbit (s : bool) : N := if s then 0x4000%N else 0%N.
Definition vun (s : bool) (g : nat) : N := (N.of_nat g + sbit s)%N.
Definition venc (s : bool) (d g : nat) : N := (wenc d g + sbit s)%N.

Definition vword_checks (s : bool) (d g : nat) : bool :=
  (lgray (venc s d g) =? g) && (lgray (vun s g) =? g) &&
  (N.lor (vun s g) 0x8000 =? venc s 0 g)%N &&
  ((4 <=? d) || ((venc s d g + 0x200) mod 2 ^ 16 =? venc s (S d) g)%N) &&
  (N.to_nat (N.shiftr (N.of_nat d * 512) 9) =? d) &&
  (N.land (venc s d g) 0x0e00 =? N.of_nat d * 512)%N &&
  eqb (N.land (venc s d g) 0x4000 =? 0)%N (negb s).

Lemma vword_checks_ok s d g : d <= 4 -> g < 256 -> vword_checks s d g = true.
Proof.
  intros Hd Hg.
  assert (Forall (fun s => Forall (fun d => Forall (fun g => vword_checks s d g = true) (seq 0 256)) (seq 0 5)) [true; false]) as H.
  { apply (bool_decide_unpack _). vm_compute. done. }
  rewrite Forall_forall in H. specialize (H s ltac:(destruct s; rewrite !elem_of_cons; auto)).
  rewrite Forall_forall in H. specialize (H d ltac:(apply elem_of_seq; lia)).
  rewrite Forall_forall in H. apply H. apply elem_of_seq. lia.
Qed.
Lemma vword_facts s d g : d <= 4 -> g < 256 ->
  lgray (venc s d g) = g /\ lgray (vun s g) = g /\ N.lor (vun s g) 0x8000 = venc s 0 g /\
  (d < 4 -> ((venc s d g + 0x200) mod 2 ^ 16)%N = venc s (S d) g) /\
  N.to_nat (N.shiftr (N.of_nat d * 512) 9) = d /\
  N.land (venc s d g) 0x0e00 = (N.of_nat d * 512)%N /\
  (N.land (venc s d g) 0x4000 =? 0)%N = negb s.
Proof.
  intros Hd Hg. pose proof (vword_checks_ok s d g Hd Hg) as H. unfold vword_checks in H.
  rewrite !andb_true_iff, !Nat.eqb_eq, !N.eqb_eq, orb_true_iff, N.eqb_eq, eqb_true_iff in H.
  destruct H as [[[[[[H1 H2] H3] H4] H5] H6] H7]. split_and!; auto.
  intros Hd4. destruct H4 as [H4|]; auto. apply Nat.leb_le in H4. lia.
Qed.

Section vr.
Context (cols top left w h kp : nat) (gray : nat -> nat).
Context (Hw : 0 < w) (Hh : 0 < h) (Hfit : left + w <= cols).
Context (H16w : left + w <= 2 ^ 16) (H16h : top + h <= 2 ^ 16).
Context (hl hr ht hb : bool).
Notation gid := (gid cols top left).
Notation pid := (pid w).
Notation plen := (plen w h).
Notation border := (border w h).
Notation phi := (phi cols top left w).
Notation G := (rect_graph cols top left w h gray).
Notation k := (vcfg4 kp left top w h).
Context (Hgb : gray_bound G).
Context (Lv : list nat) (HLv : length Lv <= 255) (HLg : forall p, p ∈ g_nodes G -> gray p ∈ Lv).
Context (cap base : nat -> nat).
Context (Hbase : forall g, base (S g) = base g + cap g + 1).
Context (Hcap : forall g, length (filter (fun p => gray p = g) (g_nodes G)) <= cap g).

Definition vxy (p : nat) : nat * nat := (p mod cols, p / cols).
Definition seamrc (r c : nat) : bool :=
  (hl && (c =? 0)) || (hr && (S c =? w)) || (ht && (r =? 0)) || (hb && (S r =? h)).
Definition seam (p : nat) : bool := seamrc (grow cols top p) (gcol cols left p).
Lemma seam_gid r c : c < w -> seam (gid r c) = seamrc r c.
Proof using All. intros Hc. unfold seam. by rewrite (gid_row _ _ _ w), (gid_col _ _ _ w). Qed.

Lemma vphi_inj p q : p ∈ g_nodes G -> q ∈ g_nodes G -> phi p = phi q -> p = q.
Proof using All.
  intros Hp Hq He. apply elem_rect in Hp as (r & c & ? & ? & ->), Hq as (r' & c' & ? & ? & ->).
  rewrite !(phi_gid cols top left w Hfit) in He by auto. apply pid_inj in He as [-> ->]; auto.
Qed.
Lemma vphi_lt p : p ∈ g_nodes G -> phi p < plen.
Proof using All.
  intros Hp. apply elem_rect in Hp as (r & c & ? & ? & ->). rewrite (phi_gid cols top left w Hfit) by auto.
  unfold FloodRefine.pid, FloodRefine.plen. nia.
Qed.
Lemma vphi_nb p x : p ∈ g_nodes G -> border x -> phi p <> x.
Proof using All.
  intros Hp [_ Hx] <-. apply elem_rect in Hp as (r & c & ? & ? & ->).
  rewrite (phi_gid cols top left w Hfit) in Hx by auto. by eapply Hx.
Qed.
Lemma vnbr_ok (img : list N) p d : length img = plen -> p ∈ g_nodes G -> d < 4 ->
  exists x, lnbr (v_lc k) img (phi p) d = Some x /\
    match g_nbr G p d with Some q => x = phi q | None => border x end.
Proof using All.
  intros Hlen Hp Hd. apply elem_rect in Hp as (r & c & Hr & Hc & ->).
  pose proof (phi_gid cols top left w Hfit) as Hphi.
  rewrite Hphi by auto. unfold lnbr. cbn [g_nbr rect_graph]. unfold rect_nbr.
  rewrite (gid_row _ _ _ w), (gid_col _ _ _ w) by auto.
  assert (forall z : Z, (0 <= z < Z.of_nat plen)%Z ->
    (((0 <=? z) && (z <? Z.of_nat (length img)))%Z) = true) as Hin.
  { intros z Hz. rewrite Hlen. destruct (Z.leb_spec 0 z), (Z.ltb_spec z (Z.of_nat plen)); simpl; lia. }
  assert (pid r c = (r + 1) * (w + 2) + (c + 1)) as Hpid by done.
  assert (pid r c + (w + 2) + 1 < plen) as Hlt. { rewrite Hpid. unfold FloodRefine.plen. nia. }
  assert (w + 2 < pid r c) as Hgt. { rewrite Hpid. nia. }
  destruct d as [|[|[|[|d]]]]; [| | | |lia]; cbn [v_lc vcfg4 l_dirs lcfg4 lookup list_lookup].
  - rewrite Hin by lia. eexists; split; [done|].
    replace (Z.to_nat (Z.of_nat (pid r c) + 1)) with (pid r c + 1) by lia.
    destruct (Nat.ltb_spec (S c) w).
    + rewrite Hphi by auto. unfold FloodRefine.pid. lia.
    + replace (pid r c + 1) with ((r + 1) * (w + 2) + (w + 1)) by (rewrite Hpid; lia). apply border_col; lia.
  - rewrite Hin by lia. eexists; split; [done|].
    replace (Z.to_nat (Z.of_nat (pid r c) + - Z.of_nat (w + 2))) with (pid r c - (w + 2)) by lia.
    destruct r as [|r].
    + replace (pid 0 c - (w + 2)) with (0 * (w + 2) + (c + 1)) by (rewrite Hpid; lia). apply border_row; lia.
    + rewrite Hphi by auto. unfold FloodRefine.pid. nia.
  - rewrite Hin by lia. eexists; split; [done|].
    replace (Z.to_nat (Z.of_nat (pid r c) + -1)) with (pid r c - 1) by lia.
    destruct c as [|c].
    + replace (pid r 0 - 1) with ((r + 1) * (w + 2) + 0) by (rewrite Hpid; lia). apply border_col; lia.
    + rewrite Hphi by lia. unfold FloodRefine.pid. lia.
  - rewrite Hin by lia. eexists; split; [done|].
    replace (Z.to_nat (Z.of_nat (pid r c) + Z.of_nat (w + 2))) with (pid r c + (w + 2)) by lia.
    destruct (Nat.ltb_spec (S r) h).
    + rewrite Hphi by auto. unfold FloodRefine.pid. nia.
    + replace (pid r c + (w + 2)) with ((h + 1) * (w + 2) + (c + 1)) by (rewrite Hpid; nia). apply border_row; lia.
Qed.

Definition vencp (p : nat) (x : pst) : N :=
  match x with PU => vun (seam p) (gray p) | PW d => venc (seam p) d (gray p) | PD _ => venc (seam p) 4 (gray p) end.

(* one table: where it exists it holds the region of every finished pixel of its side *)
Definition sideok (px : nat -> pst) (has : bool) (n : nat) (f : nat -> nat) (t : option (list (option rref))) : Prop :=
  match t with
  | None => has = false
  | Some l => has = true /\ length l = n /\ forall i r, i < n -> px (f i) = PD r -> l !! i = Some (Some (kp, r))
  end.
Record tabok (px : nat -> pst) (t : vtab) : Prop := MkTab {
  to_l : sideok px hl h (fun y => gid y 0) (tb_l t);
  to_r : sideok px hr h (fun y => gid y (w - 1)) (tb_r t);
  to_t : sideok px ht w (fun x => gid 0 x) (tb_t t);
  to_b : sideok px hb w (fun x => gid (h - 1) x) (tb_b t)
}.

Lemma tput_ok px p rr has n f t cond i :
  sideok px has n f t -> (forall i j, i < n -> j < n -> f i = f j -> i = j) ->
  (cond = true -> i < n /\ f i = p) -> (forall j, j < n -> f j = p -> cond = true) ->
  exists t', tput cond t i (kp, rr) = Some t' /\ sideok (<[p := PD rr]> px) has n f t'.
Proof using All.
  intros HS Hinj Hc Hc'. unfold tput. destruct cond.
  - destruct (Hc eq_refl) as [Hi Hf]. destruct t as [l|]; cbn [sideok] in HS.
    + destruct HS as (Hhas & Hl & Hv). rewrite store_ok by lia. eexists. split; [done|]. cbn [sideok].
      split; [done|]. split; [by rewrite insert_length|]. intros j r Hj Hr.
      destruct (decide (j = i)) as [->|Hne].
      * rewrite Hf, fn_lookup_insert in Hr. injection Hr as ->. by rewrite list_lookup_insert by lia.
      * rewrite list_lookup_insert_ne by auto. rewrite fn_lookup_insert_ne in Hr; [auto|].
        intros E. apply Hne. apply Hinj; congruence.
    + eexists. split; [done|]. done.
  - eexists. split; [done|]. destruct t as [l|]; cbn [sideok] in *; [|done].
    destruct HS as (Hhas & Hl & Hv). split; [done|]. split; [done|]. intros j r Hj Hr.
    rewrite fn_lookup_insert_ne in Hr; [auto|]. intros E. by specialize (Hc' j Hj (eq_sym E)).
Qed.
Lemma record_ok px t r c rr : tabok px t -> r < h -> c < w ->
  exists t', record_seam w h t c r (kp, rr) = Some t' /\ tabok (<[gid r c := PD rr]> px) t'.
Proof using All.
  intros [T1 T2 T3 T4] Hr Hc. unfold record_seam.
  pose proof (gid_inj cols top left w Hfit) as Hinj.
  destruct (tput_ok px (gid r c) rr _ _ _ _ (c =? 0) r T1) as (t1 & -> & U1).
  { intros i j _ _ E. apply Hinj in E; lia. }
  { intros E%Nat.eqb_eq. subst. auto. }
  { intros j Hj E. apply Hinj in E; lia. }
  destruct (tput_ok px (gid r c) rr _ _ _ _ (S c =? w) r T2) as (t2 & -> & U2).
  { intros i j _ _ E. apply Hinj in E; lia. }
  { intros E%Nat.eqb_eq. split; auto. f_equal. lia. }
  { intros j Hj E. apply Hinj in E; lia. }
  destruct (tput_ok px (gid r c) rr _ _ _ _ (r =? 0) c T3) as (t3 & -> & U3).
  { intros i j Hi Hj E. apply Hinj in E; lia. }
  { intros E%Nat.eqb_eq. subst. auto. }
  { intros j Hj E. apply Hinj in E; lia. }
  destruct (tput_ok px (gid r c) rr _ _ _ _ (S r =? h) c T4) as (t4 & -> & U4).
  { intros i j Hi Hj E. apply Hinj in E; lia. }
  { intros E%Nat.eqb_eq. split; auto. f_equal. lia. }
  { intros j Hj E. apply Hinj in E; lia. }
  eexists. split; [done|]. by constructor.
Qed.
Lemma tabok_noseam px t r c rr : tabok px t -> r < h -> c < w -> seamrc r c = false ->
  tabok (<[gid r c := PD rr]> px) t.
Proof using All.
  intros [T1 T2 T3 T4] Hr Hc Hs. unfold seamrc in Hs.
  apply orb_false_iff in Hs as [Hs S4]. apply orb_false_iff in Hs as [Hs S3]. apply orb_false_iff in Hs as [S1 S2].
  pose proof (gid_inj cols top left w Hfit) as Hinj.
  assert (forall has n f x, sideok px has n f x -> (has = true -> forall i, i < n -> f i <> gid r c) ->
    sideok (<[gid r c := PD rr]> px) has n f x) as Hgen.
  { intros has n f [l|] HS Hne; cbn [sideok] in *; [|done]. destruct HS as (-> & Hl & Hv).
    split; [done|]. split; [done|]. intros i q Hi Hq. rewrite fn_lookup_insert_ne in Hq; [auto|].
    intros E. by apply (Hne eq_refl i Hi). }
  constructor; (eapply Hgen; [eassumption|]); intros -> i Hi E; cbn [andb] in *.
  - apply Hinj in E; lia.
  - apply Hinj in E; lia.
  - apply Hinj in E; lia.
  - apply Hinj in E; lia.
Qed.
Lemma tabok_same px px' t : (forall p r, px' p = PD r -> px p = PD r) -> tabok px t -> tabok px' t.
Proof using All.
  intros He [T1 T2 T3 T4].
  assert (forall has n f x, sideok px has n f x -> sideok px' has n f x) as Hgen.
  { intros has n f [l|] HS; cbn [sideok] in *; [|done]. destruct HS as (-> & Hl & Hv). split_and!; auto. }
  constructor; auto.
Qed.

Notation crels dn v := (Forall3 (vcrel kp vxy dn v)).
Notation rrels dn v := (Forall2 (vrrel kp vxy gray dn v)).

Record VR (s : vst) (a : ast) (Ls : list (list nat)) (dn : list nat) : Prop := MkVR {
  vr_cur : z_cur s = phi (a_cur a);
  vr_hc : z_hc s = gray (a_cur a);
  vr_len : length (z_img s) = plen;
  vr_cw : z_img s !! phi (a_cur a) = Some (venc (seam (a_cur a)) (a_d a) (gray (a_cur a)));
  vr_px : forall p, p ∈ g_nodes G -> p <> a_cur a -> z_img s !! phi p = Some (vencp p (a_px a p));
  vr_bd : forall x, border x -> z_img s !! x = Some 0xffff%N;
  vr_heap : heapL phi base (z_heap s) (z_hs s) (a_heap a);
  vr_plen : w * h <= length (z_pts s);
  vr_comps : exists lcs, z_comps s = lcs ++ [vsent] /\ crels dn (wvw (z_pts s)) (a_comps a) lcs Ls;
  vr_perm : concat Ls ≡ₚ seq 0 (length dn);
  vr_regs : rrels dn (wvw (z_pts s)) (a_regs a) (z_regs s);
  vr_pt : ptok vxy dn (z_pts s);
  vr_np : z_np s = length dn;
  vr_dn : NoDup dn /\ forall p, p ∈ dn <-> exists r, a_px a p = PD r;
  vr_tab : tabok (a_px a) (z_tab s)
}.

Lemma vbump_ok img p d : p ∈ g_nodes G -> d < 4 ->
  img !! phi p = Some (venc (seam p) d (gray p)) ->
  bump img (phi p) = Some (<[phi p := venc (seam p) (S d) (gray p)]> img).
Proof using All.
  intros Hp Hd He. unfold bump. rewrite He. pose proof (Hgb p Hp) as Hg. cbn [g_gray rect_graph] in Hg.
  destruct (vword_facts (seam p) d (gray p)) as (_ & _ & _ & E & _); [lia|lia|]. by rewrite E.
Qed.
Lemma vcomps_bound s : Inv G s -> length (a_comps s) <= 255.
Proof using All. apply (comps_bound false cols top left w h gray Lv HLv HLg). Qed.

Lemma vtake_ok img heap hs ah g pts np lcs acomps aregs regs Ls dn px' cur d p l d1 tab :
  InvA G px' cur d ah ->
  forall px'', (forall q, q <> cur -> px'' q = px' q) -> (exists r, px'' cur = PD r) ->
  length img = plen -> img !! phi cur = Some (venc (seam cur) 4 (gray cur)) ->
  (forall q, q ∈ g_nodes G -> q <> cur -> img !! phi q = Some (vencp q (px' q))) ->
  (forall x, border x -> img !! x = Some 0xffff%N) ->
  heapL phi base heap hs ah -> g <= 255 -> ah g = p :: l -> px' p = PW d1 ->
  w * h <= length pts -> crels dn (wvw pts) acomps lcs Ls -> concat Ls ≡ₚ seq 0 (length dn) ->
  rrels dn (wvw pts) aregs regs -> ptok vxy dn pts -> np = length dn ->
  NoDup dn -> (forall q, q ∈ dn <-> exists r, px'' q = PD r) -> tabok px'' tab ->
  exists s', vtake img heap hs g pts np (lcs ++ [vsent]) regs tab = VNext s' /\
    VR s' (ASt px'' p d1 (<[g := l]> ah) acomps aregs) Ls dn.
Proof using All.
  intros HA px'' Hpx (rc & Hrc) Hlen Hcw Hw' Hbd HH Hg Hhp Hp Hpl HC Hnd HR HP Hnp D1 D2 HT.
  unfold vtake. rewrite (ltop_spec phi base heap hs ah) by (auto; lia). rewrite Hhp.
  destruct (lpop_spec phi base heap hs ah g p l HH ltac:(lia) Hhp) as (hs' & -> & HH').
  destruct (i_heap _ _ _ _ _ HA g p) as (Hgp & Hpc & _). { rewrite Hhp. apply elem_of_cons; auto. }
  cbn [g_gray rect_graph] in Hgp.
  assert (p ∈ g_nodes G) as Hpn. { apply (i_dom _ _ _ _ _ HA). congruence. }
  eexists. split; [done|].
  constructor; cbn [z_cur z_hc z_img z_heap z_hs z_pts z_np z_comps z_regs z_tab a_px a_cur a_d a_heap a_comps a_regs]; auto.
  - rewrite (Hw' p Hpn Hpc), Hp. done.
  - intros q Hq Hqp. destruct (decide (q = cur)) as [->|Hqc].
    + rewrite Hcw, Hrc. done.
    + rewrite Hw', Hpx by auto. done.
  - eauto.
Qed.

Theorem vstep_refine s a Ls dn : VR s a Ls dn -> Inv G a ->
  match astep G a with
  | ANext a' => exists s' Ls' dn', vkstep k s = VNext s' /\ VR s' a' Ls' dn'
  | AHalt a' => exists s' Ls' dn', vkstep k s = VHalt s' /\ VR s' a' Ls' dn' /\ a_d a' = 4
  | AStuck => True
  end.
Proof using All.
  intros [R1 R2 R3 R4 R5 R6 R7 R8 (lcs & R9 & R10) R11 R12 R13 R14 R15 R16] HI.
  pose proof (rect_graph_ok cols top left w h gray Hfit) as HG.
  pose proof (astep_inv G HG a Hgb HI) as HI'.
  pose proof HI as [HA HB HC].
  destruct a as [px cur d ah comps regs], s as [img scur hc heap hs pts np scomps sregs tab].
  cbn [z_cur z_hc z_img z_heap z_hs z_pts z_np z_comps z_regs z_tab a_px a_cur a_d a_heap a_comps a_regs] in *. subst scur hc scomps np.
  destruct (i_cur _ _ _ _ _ HA) as (Hcn & (d0 & Hcur) & Hdd). cbn [g_deg rect_graph] in Hdd.
  assert (gray cur <= 255) as Hcg255 by (by apply Hgb).
  assert (forall g, length (ah g) <= cap g) as Hcapg. { intros g. eapply (lheap_cap G cap); eauto. }
  assert (length (g_nodes G) = w * h) as Hcount by apply length_rect.
  unfold vkstep. cbn [z_img z_cur v_lc vcfg4 l_mask l_max lcfg4]. rewrite R4.
  destruct (vword_facts (seam cur) d (gray cur)) as (F1 & _ & _ & _ & F5 & F6 & F7); [lia|lia|].
  rewrite F6.
  unfold astep in *. cbn [a_px a_cur a_d a_heap a_comps a_regs g_deg g_gray g_nbr rect_graph] in *.
  destruct (Nat.ltb_spec d 4) as [Hd|Hd].
  - destruct (N.ltb_spec (N.of_nat d * 512) 0x800) as [_|]; [|lia].
    unfold vtour. cbn [z_cur z_hc z_img z_heap z_hs z_pts z_np z_comps z_regs z_tab].
    change (l_mask (v_lc k)) with 0x0e00%N. rewrite F6, F5.
    destruct (vnbr_ok img cur d R3 Hcn Hd) as (x & -> & Hx). cbn [g_nbr rect_graph] in Hx.
    pose proof (vbump_ok img cur d Hcn Hd R4) as Hbump.
    assert (forall q v, q ∈ g_nodes G -> length (<[phi q := v]> img) = plen) as Hlen.
    { intros q v Hq. by rewrite insert_length. }
    assert (VR (VSt (<[phi cur:=venc (seam cur) (S d) (gray cur)]> img) (phi cur) (gray cur) heap hs pts (length dn)
        (lcs ++ [vsent]) sregs tab) (ASt px cur (S d) ah comps regs) Ls dn) as Hskip.
    { constructor; cbn [z_cur z_hc z_img z_heap z_hs z_pts z_np z_comps z_regs z_tab a_px a_cur a_d a_heap a_comps a_regs]; auto.
      - rewrite list_lookup_insert; auto. rewrite R3. by apply vphi_lt.
      - intros p Hp Hpc. rewrite list_lookup_insert_ne; auto. intros He. apply Hpc. by apply vphi_inj.
      - intros y Hy. rewrite list_lookup_insert_ne; auto. by apply vphi_nb.
      - eauto. }
    destruct (rect_nbr cols top left w h cur d) as [q|] eqn:Hq.
    + subst x. assert (q ∈ g_nodes G) as Hqn. { eapply (gok_closed _ HG cur); auto. exists d. auto. }
      assert (q <> cur) as Hqc. { intros ->. apply (gok_irrefl _ HG cur); auto. exists d. auto. }
      assert (gray q <= 255) as Hqg by (by apply Hgb).
      rewrite (R5 q Hqn Hqc). destruct (px q) as [|d1|r1] eqn:Hpq; cbn [vencp].
      * destruct (N.ltb_spec (vun (seam q) (gray q)) 0x8000) as [_|Hx]; [|unfold vun, sbit in Hx; destruct (seam q); lia].
        destruct (vword_facts (seam q) 0 (gray q)) as (Q1 & Q2 & Q3 & _); [lia|lia|]. rewrite Q3.
        assert (phi q <> phi cur) as Hne. { intros He. apply Hqc. by apply vphi_inj. }
        rewrite list_lookup_insert_ne by auto. rewrite R4.
        assert (<[phi q:=venc (seam q) 0 (gray q)]> img !! phi cur = Some (venc (seam cur) d (gray cur))) as Hcw'.
        { rewrite list_lookup_insert_ne; auto. }
        rewrite (vbump_ok _ cur d Hcn Hd Hcw').
        rewrite Q1, F1. unfold hmove.
        replace (Z.of_nat (gray cur) + (Z.of_nat (gray q) - Z.of_nat (gray cur)))%Z with (Z.of_nat (gray q)) by lia.
        destruct (Z.leb_spec 0 (Z.of_nat (gray q))) as [_|]; [|lia].
        destruct (Z.ltb_spec (Z.of_nat (gray q)) 257) as [_|]; [|lia]. cbn [andb]. rewrite Nat2Z.id.
        set (img2 := <[phi cur:=venc (seam cur) (S d) (gray cur)]> (<[phi q:=venc (seam q) 0 (gray q)]> img)).
        assert (length img2 = plen) as Hlen2. { unfold img2. by rewrite !insert_length. }
        assert (img2 !! phi q = Some (venc (seam q) 0 (gray q))) as Hi2q.
        { unfold img2. rewrite list_lookup_insert_ne by auto. rewrite list_lookup_insert; auto.
          rewrite R3. by apply vphi_lt. }
        assert (img2 !! phi cur = Some (venc (seam cur) (S d) (gray cur))) as Hi2c.
        { unfold img2. rewrite list_lookup_insert; auto. rewrite insert_length, R3. by apply vphi_lt. }
        assert (forall p, p ∈ g_nodes G -> p <> q -> p <> cur -> img2 !! phi p = img !! phi p) as Hi2.
        { intros p Hp H1 H2. unfold img2.
          rewrite !list_lookup_insert_ne; auto; intros He; [apply H1|apply H2]; by apply vphi_inj. }
        assert (forall y, border y -> img2 !! y = Some 0xffff%N) as Hi2b.
        { intros y Hy. unfold img2. rewrite !list_lookup_insert_ne by (by apply vphi_nb). auto. }
        assert (forall px2, (forall p, p <> q -> p <> cur -> px2 p = px p) -> (exists e, px2 q = PW e) ->
          (exists e, px2 cur = PW e) -> (forall p, p ∈ dn <-> exists r, px2 p = PD r) /\ tabok px2 tab) as Hdt.
        { intros px2 He (e1 & E1) (e2 & E2).
          assert (forall p r, px2 p = PD r <-> px p = PD r) as Hiff.
          { intros p r. destruct (decide (p = q)) as [->|]; [rewrite E1, Hpq; done|].
            destruct (decide (p = cur)) as [->|]; [rewrite E2, Hcur; done|]. by rewrite He. }
          split; [|by eapply tabok_same; [|exact R16]; intros; apply Hiff].
          intros p. destruct R15 as [_ D2]. rewrite D2. by setoid_rewrite Hiff. }
        destruct (Nat.ltb_spec (gray q) (gray cur)) as [Hlt|Hge].
        -- destruct (Z.ltb_spec (Z.of_nat (gray q) - Z.of_nat (gray cur)) 0) as [_|]; [|lia].
           pose proof (vcomps_bound _ HI') as Hcb. cbn [a_comps length] in Hcb.
           pose proof HI' as [HA' _ _]. cbn [a_px a_cur a_d a_heap] in HA'.
           pose proof (lheap_cap G cap _ _ _ _ (gray cur) Hcap HA') as Hc'. rewrite fn_lookup_insert in Hc'. cbn [length] in Hc'.
           destruct (lpush_spec phi cap base Hbase heap hs ah (gray cur) cur) as (heap' & hs' & -> & HH'); auto.
           rewrite Hi2q.
           rewrite app_length, <-(Forall3_length_lm _ _ _ _ R10). cbn [length].
           destruct (Nat.ltb_spec (length comps + 1) 256) as [_|]; [|lia].
           rewrite Q1. eexists _, ([] :: Ls), dn. split; [done|].
           destruct (Hdt (<[q := PW 0]> (<[cur := PW (S d)]> px))) as [Hd1 Hd2].
           { intros p P1 P2. by rewrite !fn_lookup_insert_ne by auto. }
           { exists 0. by rewrite fn_lookup_insert. }
           { exists (S d). rewrite fn_lookup_insert_ne by auto. by rewrite fn_lookup_insert. }
           destruct R15 as [R15 _].
           constructor; cbn [z_cur z_hc z_img z_heap z_hs z_pts z_np z_comps z_regs z_tab a_px a_cur a_d a_heap a_comps a_regs]; auto.
           ++ intros p Hp Hpq'. rewrite fn_lookup_insert_ne by auto. destruct (decide (p = cur)) as [->|Hpc].
              ** rewrite fn_lookup_insert. done.
              ** rewrite fn_lookup_insert_ne by auto. rewrite Hi2; auto.
           ++ exists (fresh_vcomp (gray q) (length sregs) :: lcs). split; [done|].
              constructor; [|done]. constructor; try done; cbn; auto.
              by rewrite (Forall2_length _ _ _ R12).
           ++ apply Forall2_app; auto. constructor; [|constructor]. unfold fresh_wreg.
              cbn [v_part vcfg4]. rewrite Nat.mod_small by lia. split_and!; auto.
        -- destruct (Z.ltb_spec (Z.of_nat (gray q) - Z.of_nat (gray cur)) 0) as [|_]; [lia|].
           pose proof HI' as [HA' _ _]. cbn [a_px a_cur a_d a_heap] in HA'.
           pose proof (lheap_cap G cap _ _ _ _ (gray q) Hcap HA') as Hc'. rewrite fn_lookup_insert in Hc'. cbn [length] in Hc'.
           destruct (lpush_spec phi cap base Hbase heap hs ah (gray q) q) as (heap' & hs' & -> & HH'); auto.
           destruct (Hdt (<[q := PW 0]> px)) as [Hd1 Hd2].
           { intros p P1 P2. by rewrite !fn_lookup_insert_ne by auto. }
           { exists 0. by rewrite fn_lookup_insert. }
           { exists d0. by rewrite fn_lookup_insert_ne by auto. }
           destruct R15 as [R15 _].
           eexists _, Ls, dn. split; [done|].
           constructor; cbn [z_cur z_hc z_img z_heap z_hs z_pts z_np z_comps z_regs z_tab a_px a_cur a_d a_heap a_comps a_regs]; auto.
           ++ intros p Hp Hpc. destruct (decide (p = q)) as [->|Hpq'].
              ** rewrite fn_lookup_insert. done.
              ** rewrite fn_lookup_insert_ne by auto. rewrite Hi2; auto.
           ++ eauto.
      * destruct (N.ltb_spec (venc (seam q) d1 (gray q)) 0x8000) as [Hx|_]; [unfold venc, wenc in Hx; lia|].
        rewrite Hbump. eauto.
      * destruct (N.ltb_spec (venc (seam q) 4 (gray q)) 0x8000) as [Hx|_]; [unfold venc, wenc in Hx; lia|].
        rewrite Hbump. eauto.
    + rewrite (R6 x Hx). change (0xffff <? 0x8000)%N with false. cbn match. rewrite Hbump. eauto.
  - assert (d = 4) as -> by lia.
    destruct (N.ltb_spec (N.of_nat 4 * 512) 0x800) as [|_]; [lia|].
    destruct HC as (c & rest & -> & Hcg & Hbelow). cbn [g_gray rect_graph] in Hcg.
    inversion R10 as [|? lc L ? lrest Ls' HC1 HR1]; subst. cbn [app].
    unfold vfinish. cbn [z_cur z_hc z_img z_heap z_hs z_pts z_np z_comps z_regs z_tab v_lc vcfg4 l_w l_h lcfg4 v_left v_top v_part].
    destruct R15 as (D1 & D2).
    assert (cur ∉ dn) as Hcdn. { intros Hin. apply D2 in Hin as (r & Hr). congruence. }
    assert (length dn < length pts) as Hnp.
    { eapply Nat.lt_le_trans; [|exact R8]. rewrite <-Hcount.
      assert (length (cur :: dn) <= length (g_nodes G)) as Hle; [|cbn [length] in Hle; unfold lt; exact Hle].
      apply submseteq_length, NoDup_submseteq; [by constructor|].
      intros p Hp. apply elem_of_cons in Hp as [->|Hp]; auto. apply D2 in Hp as (r & Hr). apply (i_dom _ _ _ _ _ HA). congruence. }
    pose proof Hcn as Hcn'. apply elem_rect in Hcn' as (r0 & c0 & Hr0 & Hc0 & Ecur).
    assert (Z.quot (Z.of_nat (phi cur) - (Z.of_nat (w + 2) + 1)) (Z.of_nat (w + 2)) = Z.of_nat r0) as Hy.
    { rewrite Ecur, (phi_gid cols top left w Hfit) by auto. symmetry. unfold FloodRefine.pid.
      apply Z.quot_unique with (r := Z.of_nat c0); lia. }
    rewrite Hy. rewrite (Z.mod_small (Z.of_nat r0)) by lia. rewrite Nat2Z.id.
    assert (Z.of_nat (phi cur) - (Z.of_nat (w + 2) + 1) - Z.of_nat r0 * Z.of_nat (w + 2) = Z.of_nat c0)%Z as Hx.
    { rewrite Ecur, (phi_gid cols top left w Hfit) by auto. unfold FloodRefine.pid. lia. }
    rewrite Hx. rewrite (Z.mod_small (Z.of_nat c0)) by lia. rewrite Nat2Z.id.
    assert ((c0 + left) mod 2 ^ 16 = fst (vxy cur)) as ->.
    { rewrite Nat.mod_small by lia. unfold vxy. cbn [fst]. rewrite Ecur. unfold Grid.gid.
      apply (Nat.mod_unique _ _ (top + r0)); lia. }
    assert ((r0 + top) mod 2 ^ 16 = snd (vxy cur)) as ->.
    { rewrite Nat.mod_small by lia. unfold vxy. cbn [snd]. rewrite Ecur. unfold Grid.gid.
      apply (Nat.div_unique _ _ _ (left + c0)); lia. }
    rewrite (vc_reg _ _ _ _ _ _ _ HC1).
    destruct (i_creg _ _ _ _ _ HB c) as (a0 & Ha0 & Hp0 & Hg0). { apply elem_of_cons; auto. }
    pose proof (lookup_lt_Some _ _ _ Ha0) as Hcr.
    set (c' := AComp (cg c) (cr c) (cur :: cl c)) in *. set (px' := <[cur := PD (cr c)]> px) in *.
    assert (exists tab' sregs', (if (N.land (venc (seam cur) 4 (gray cur)) 0x4000 =? 0)%N then Some (tab, sregs)
       else match record_seam w h tab c0 r0 (kp, cr c), vset_bnd sregs (cr c) 1 with
            | Some t', Some regs' => Some (t', regs') | _, _ => None end) = Some (tab', sregs') /\
       tabok px' tab' /\ rrels dn (wvw pts) regs sregs') as (tab' & sregs' & -> & HT' & R12').
    { rewrite F7. assert (seam cur = seamrc r0 c0) as Hse by (rewrite Ecur; by apply seam_gid).
      unfold px'. rewrite Hse. rewrite Ecur. destruct (seamrc r0 c0) eqn:Hsc; cbn [negb].
      - destruct (record_ok px tab r0 c0 (cr c) R16 Hr0 Hc0) as (t' & -> & HT').
        destruct (vset_bnd_ok kp vxy gray dn (wvw pts) regs sregs (cr c) 1 R12 Hcr) as (sregs' & -> & HR').
        eexists _, _. split; [done|]. auto.
      - eexists _, _. split; [done|]. split; [|done]. by apply tabok_noseam. }
    assert (NoDup (concat (L :: Ls'))) as Hnd by (rewrite R11; apply NoDup_seq).
    assert (forall i, i ∈ concat (L :: Ls') -> i < length dn) as Hlt.
    { intros i. rewrite R11. rewrite elem_of_seq. lia. }
    destruct (vaccum_ok kp vxy gray dn pts c lc L rest lrest Ls' regs sregs' cur HC1 HR1 Hnd Hlt R13 R12' Hnp)
      as (lc' & pts2 & -> & Hl2 & HP2 & HC2 & HR2 & Hrg2).
    fold c' in HC2.
    assert (forall q, q <> cur -> px' q = px q) as Hpx'. { intros q Hq. unfold px'. by rewrite fn_lookup_insert_ne. }
    assert (px' cur = PD (cr c)) as Hpxc. { unfold px'. by rewrite fn_lookup_insert. }
    assert (NoDup (dn ++ [cur])) as E1.
    { apply NoDup_app. split; auto. split; [|apply NoDup_singleton]. intros q Hq ->%elem_of_list_singleton. done. }
    assert (forall p, p ∈ dn ++ [cur] <-> exists r, px' p = PD r) as E3.
    { intros p. rewrite elem_of_app, elem_of_list_singleton, D2. destruct (decide (p = cur)) as [->|Hpc].
      - rewrite Hpxc. split; eauto.
      - rewrite Hpx' by auto. split; [intros [?|?]; [done|done]|auto]. }
    assert (S (length dn) = length (dn ++ [cur])) as E2 by (rewrite app_length; cbn; lia).
    assert (concat ((length dn :: L) :: Ls') ≡ₚ seq 0 (length (dn ++ [cur]))) as E4.
    { rewrite <-E2, seq_S. cbn [concat app]. cbn [concat] in R11. rewrite R11. rewrite Nat.add_0_l.
      symmetry. apply Permutation_app_comm. }
    rewrite (ltop_spec phi base heap hs ah) by (auto; lia).
    destruct (ah (gray cur)) as [|p l] eqn:Hah.
    + destruct (vclose_ok kp vxy gray (dn ++ [cur]) (wvw pts2) regs sregs' (cr c) a0 c' lc' (length dn :: L) cur) as (regs1 & -> & Hrg3); auto.
      { congruence. }
      rewrite F1. rewrite (lfind_spec phi base heap hs ah) by (auto; lia).
      destruct (find_level ah (S (gray cur)) (256 - gray cur)) as [g'|] eqn:Hf; cbn [fmap option_fmap option_map].
      * apply find_level_some in Hf as (Hr & Hnn & _).
        destruct (ah g') as [|p l] eqn:Hg'; [done|].
        destruct (i_heap _ _ _ _ _ HA g' p) as (Hgp & Hpc & (d2 & Hd2 & Hd2le)).
        { rewrite Hg'. apply elem_of_cons; auto. }
        assert (g' <= 255). { rewrite <-Hgp. apply Hgb. apply (i_dom _ _ _ _ _ HA). congruence. }
        destruct (amerge g' c' rest (set_rl regs (cr c) (cl c'))) as [[comps' regs']|] eqn:Hm; [|done].
        rewrite Hd2 in *.
        destruct (vup_ok kp vxy gray (dn ++ [cur]) g' ltac:(lia) rest c' lc' (length dn :: L) lrest Ls' pts2
          (set_rl regs (cr c) (cl c')) regs1 comps' regs') as
          (lcomps' & pts3 & regs2 & Ls3 & Hup & Hl3 & HP3 & HC3 & Hperm3 & Hrg4); auto.
        { rewrite E4. apply NoDup_seq. }
        { intros c1 H0. rewrite length_set_rl.
          assert (cr c1 ∈ map cr (c :: rest)) as Hin.
          { apply elem_of_cons in H0 as [->|H0]; simpl; apply elem_of_cons; [by left|right].
            apply elem_of_list_fmap; eauto. }
          apply elem_of_list_fmap in Hin as (c2 & -> & H1).
          destruct (i_creg _ _ _ _ _ HB c2 H1) as (a1 & Ha1 & _). by eapply lookup_lt_Some. }
        rewrite Hup.
        destruct (vtake_ok img heap hs ah g' pts3 (S (length dn)) lcomps' comps' regs' regs2 Ls3 (dn ++ [cur]) px cur 4 p l d2 tab' HA px')
          as (s' & Hs' & HLR); eauto.
        { lia. }
        { by rewrite Hperm3. }
      * eexists _, _, _. split; [done|]. split; [|done].
        apply (MkVR _ _ ((length dn :: L) :: Ls') (dn ++ [cur]));
          cbn [z_cur z_hc z_img z_heap z_hs z_pts z_np z_comps z_regs z_tab a_px a_cur a_d a_heap a_comps a_regs]; auto.
        -- intros p Hp Hpc. rewrite Hpx'; auto.
        -- lia.
        -- exists (lc' :: lrest). split; [done|]. by constructor.
    + destruct (i_heap _ _ _ _ _ HA (gray cur) p) as (Hgp & Hpc & (d2 & Hd2 & Hd2le)).
      { rewrite Hah. apply elem_of_cons; auto. }
      rewrite Hd2.
      destruct (vtake_ok img heap hs ah (gray cur) pts2 (S (length dn)) (lc' :: lrest) (c' :: rest) regs sregs'
        ((length dn :: L) :: Ls') (dn ++ [cur]) px cur 4 p l d2 tab' HA px') as (s' & Hs' & HLR); eauto.
      * lia.
      * by constructor.
Qed.

Lemma vrun_refine n s a Ls dn : VR s a Ls dn -> Inv G a ->
  match arun G n a with
  | ANext a' => exists s' Ls' dn', vkrun k n s = VNext s' /\ VR s' a' Ls' dn'
  | AHalt a' => exists s' Ls' dn', vkrun k n s = VHalt s' /\ VR s' a' Ls' dn' /\ a_d a' = 4
  | AStuck => True
  end.
Proof using All.
  revert s a Ls dn. induction n as [|n IH]; intros s a Ls dn HR HI; cbn [arun vkrun]; [eauto 6|].
  pose proof (vstep_refine s a Ls dn HR HI) as Hs.
  pose proof (astep_inv G (rect_graph_ok cols top left w h gray Hfit) a Hgb HI) as HI'.
  destruct (astep G a) as [a'|a'|]; auto.
  - destruct Hs as (s' & Ls' & dn' & -> & HR'). by eapply IH.
  - destruct Hs as (s' & Ls' & dn' & -> & HR' & Hd'). eauto 7.
Qed.

(* the buffers with which the loop is entered *)
Definition vready (b : vbuf) : Prop :=
  length (vb_img b) = plen /\
  (forall p, p ∈ g_nodes G -> vb_img b !! phi p = Some (vun (seam p) (gray p))) /\
  (forall x, border x -> vb_img b !! x = Some 0xffff%N) /\
  heapL phi base (vb_heap b) (vb_hs b) (fun _ => []) /\
  w * h <= length (vb_pts b) /\
  tabok (fun _ => PU) (vb_tab b).

Lemma vinit_refine b : vready b -> exists s, vkinit k b = VNext s /\ VR s (ainit G (gid 0 0)) [[]] [].
Proof using All.
  intros (Hl & Hz & Hb & HH & Hp & HT). unfold vkinit. cbn [v_lc vcfg4 l_w lcfg4 v_part].
  assert (gid 0 0 ∈ g_nodes G) as H0. { apply elem_rect. exists 0, 0. split; auto. }
  assert (phi (gid 0 0) = w + 2 + 1) as Hphi.
  { rewrite (phi_gid cols top left w Hfit) by auto. unfold FloodRefine.pid. lia. }
  assert (gray (gid 0 0) <= 255) as Hg0 by (by apply Hgb).
  rewrite <-Hphi, (Hz _ H0). set (p0 := gid 0 0) in *.
  destruct (vword_facts (seam p0) 0 (gray p0)) as (_ & W2 & W3 & _); [lia|lia|].
  rewrite W2. eexists. split; [done|].
  apply (MkVR _ _ [[]] []); cbn [z_cur z_hc z_img z_heap z_hs z_pts z_np z_comps z_regs z_tab a_px a_cur a_d a_heap a_comps a_regs ainit g_gray rect_graph]; auto.
  - by rewrite insert_length.
  - rewrite list_lookup_insert; [by rewrite W3|]. rewrite Hl. by apply vphi_lt.
  - intros p Hp' Hp0. rewrite list_lookup_insert_ne.
    + rewrite fn_lookup_insert_ne by auto. cbn. auto.
    + intros He. apply Hp0. symmetry. by apply vphi_inj.
  - intros x Hx. rewrite list_lookup_insert_ne; auto. by apply vphi_nb.
  - exists [fresh_vcomp (gray p0) 0]. split; [done|]. constructor; [|constructor].
    constructor; try done; cbn; auto.
  - constructor; [|constructor]. unfold fresh_wreg. rewrite Nat.mod_small by lia. split_and!; auto.
  - intros i p Hi. done.
  - split; [constructor|]. intros p. split; [by intros ?%elem_of_nil|]. intros (r & Hr).
    destruct (decide (p = p0)) as [->|]; [by rewrite fn_lookup_insert in Hr|by rewrite fn_lookup_insert_ne in Hr].
  - eapply tabok_same; [|exact HT]. intros p r Hr.
    destruct (decide (p = p0)) as [->|]; [by rewrite fn_lookup_insert in Hr|by rewrite fn_lookup_insert_ne in Hr].
Qed.

(* flooding ends in the component tree, with its lists, boxes and tables *)
Theorem vflood_refined b n : vready b -> 6 * (w * h) < n ->
  exists s s' a dn L,
    vkinit k b = VNext s /\ vkrun k n s = VHalt s' /\
    arun G n (ainit G (gid 0 0)) = AHalt a /\
    tree_of G (labof (a_px a)) (a_regs a) /\
    rrels dn (wvw (z_pts s')) (a_regs a) (z_regs s') /\
    (forall r x, a_regs a !! r = Some x -> rl x <> []) /\
    ptok vxy dn (z_pts s') /\ NoDup dn /\ (forall p, p ∈ dn <-> p ∈ g_nodes G) /\
    ldl kp (wvw (z_pts s')) None L /\ L ≡ₚ seq 0 (length dn) /\
    tabok (fun p => PD (labof (a_px a) p)) (z_tab s') /\
    length (z_img s') = plen /\
    (forall p, p ∈ g_nodes G -> z_img s' !! phi p = Some (venc (seam p) 4 (gray p))) /\
    (forall x, border x -> z_img s' !! x = Some 0xffff%N) /\
    heapL phi base (z_heap s') (z_hs s') (fun _ => []) /\
    w * h <= length (z_pts s').
Proof using All.
  intros Hb Hn. destruct (vinit_refine b Hb) as (s & Hs & HR).
  assert (gid 0 0 ∈ g_nodes G) as H0. { apply elem_rect. exists 0, 0. split; auto. }
  pose proof (rect_graph_ok cols top left w h gray Hfit) as HG.
  destruct (flood_abs_correct G HG (gid 0 0) n) as (a & Ha & Hf); auto.
  { by apply rect_connected. }
  { cbn [g_deg g_nodes rect_graph]. rewrite length_rect. lia. }
  pose proof (vrun_refine n s _ _ _ HR (ainit_inv G (gid 0 0) H0)) as Hrun. rewrite Ha in Hrun.
  destruct Hrun as (s' & Ls' & dn' & Hs' & HR' & Hd').
  destruct HR' as [R1 R2 R3 R4 R5 R6 R7 R8 (lcs & R9 & R10) R11 R12 R13 R14 [R15 R16] R17].
  destruct Hf as [F1 F2 F3 (c & F4) F5].
  rewrite F4 in R10. inversion R10 as [|? lc L ? ? Ls2 HC HR2]; subst. inversion HR2; subst.
  exists s, s', a, dn', L. split_and!; auto.
  - intros r x Hx. destruct (to_own _ _ _ F5 r x Hx) as (p & Hp & Hlab).
    destruct (to_mem _ _ _ F5 r x Hx) as [_ Hm].
    assert (p ∈ rl x) as Hin. { apply Hm. split; auto. rewrite Hlab. apply rtc_refl. }
    intros He. rewrite He in Hin. by apply elem_of_nil in Hin.
  - intros p. rewrite R16. split; [|auto]. intros (r & Hr). destruct (decide (p ∈ g_nodes G)); auto.
    rewrite F2 in Hr by auto. done.
  - apply (vc_seg _ _ _ _ _ _ _ HC).
  - cbn [concat] in R11. by rewrite app_nil_r in R11.
  - destruct R17 as [T1 T2 T3 T4].
    assert (forall has m f x, (forall i, i < m -> f i ∈ g_nodes G) -> sideok (a_px a) has m f x ->
      sideok (fun p => PD (labof (a_px a) p)) has m f x) as Hgen.
    { intros has m f [l|] Hin HS; cbn [sideok] in *; [|done]. destruct HS as (-> & Hl & Hv). split_and!; auto.
      intros i r Hi [= <-]. destruct (F1 _ (Hin i Hi)) as (r & Hr). unfold labof. rewrite Hr. auto. }
    constructor; (apply Hgen; [|assumption]); intros i Hi; apply elem_rect; eexists _, _;
      (split; [|split; [|reflexivity]]); lia.
  - intros p Hp. destruct (decide (p = a_cur a)) as [->|Hpc].
    + by rewrite R4, Hd'.
    + rewrite R5 by auto. destruct (F1 p Hp) as (r & ->). done.
  - destruct R7 as (K1 & K2 & K3). split; auto. split; auto.
    intros g Hg. destruct (K3 g Hg) as (K4 & K5 & K6). rewrite F3 in *. auto.
Qed.
End vr.
