(* A whole pass of the OpenCV3-style extraction: the loop from its first state to the end, and
   the closing of the components that are left. *)
From stdpp Require Import sorting relations functions list_numbers list.
From Coq Require Import NArith ZArith SpecFloat.
From Verif Require Import Spec FloodAbs FloodAbsInv FloodAbsProof Grid FloodModel FloatModel RectModel RecogModel CvExtract
  LinkedHeap OcvModel OcvWords OcvHeap OcvTree OcvComp OcvStack OcvRefine.
Local Open Scope nat_scope.

(* all regions with their levels and pixels *)
Definition RLfin (regs : list areg) (r : nat) : option (nat * list nat) :=
  match regs !! r with Some a => Some (rg a, rl a) | None => None end.

(* every region is below the root *)
Lemma under_root G lab regs r a : tree_of G lab regs -> regs !! r = Some a -> rpar a = None ->
  forall x b, regs !! x = Some b -> under regs x r.
Proof.
  intros HT Ha Hp. destruct (to_root _ _ _ HT) as (r0 & _ & Hu). pose proof (Hu r a Ha Hp) as ->.
  assert (exists M, forall x b, regs !! x = Some b -> rg b <= M) as (M & HM).
  { exists (max_list (map rg regs)). intros x b Hb. apply max_list_elem_of_le. apply elem_of_list_fmap. exists b. split; [done|]. by eapply elem_of_list_lookup_2. }
  assert (forall k x b, regs !! x = Some b -> M - rg b < k -> under regs x r0) as Hk.
  { induction k as [|k IH]; intros x b Hb Hlt; [lia|]. destruct (rpar b) as [t|] eqn:Ht.
    - destruct (to_par _ _ _ HT x b t Hb Ht) as (c & Hc & Hlt2). eapply rtc_l; [|eapply (IH t c Hc)].
      + exists b. done.
      + pose proof (HM t c Hc). lia.
    - rewrite (Hu x b Hb Ht). apply rtc_refl. }
  intros x b Hb. apply (Hk (S (M - rg b)) x b Hb). lia.
Qed.

Section run.
Context (src : list N) (rows cols : nat) (gm : N) (P : rparam) (gray : nat -> nat).
Context (Hrows : 3 <= rows) (Hcols : 3 <= cols) (Harea : (N.of_nat (rows * cols) <= 2 ^ 29)%N).
Notation area := (rows * cols).
Notation G := (ograph rows cols gray).
Notation nodes := (rect_nodes cols 1 1 (cols - 2) (rows - 2)).
Context (Hgray : forall p, p ∈ nodes -> get_gray src gm p = Some (gray p)) (Hgb : gray_bound G).
Context (cap base : nat -> nat).
Context (Hbase : forall g, base (S g) = base g + cap g + 1).
Context (Hcap : forall g, length (filter (fun p => gray p = g) nodes) <= cap g).

(* what ostep_refine says of the last round *)
Definition ohalted (s' : ost) (a a' : ast) : Prop :=
  (exists c0 rest, a_comps a = c0 :: rest /\ a_regs a' = set_rl (a_regs a) (cr c0) (a_cur a :: cl c0) /\
     a_comps a' = AComp (cg c0) (cr c0) (a_cur a :: cl c0) :: rest /\
   exists Ls' rids' ocs, t_comps s' = ocs ++ [osent] /\
     CR area cols P (t_pix s') (t_tree s') (a_comps a') (a_regs a) ocs Ls' rids') /\
  (forall x, x < area -> x ∉ nodes -> t_pix s' !! x = Some border_word) /\ length (t_pix s') = area /\
  length (t_heap s') = area + 256 /\ length (t_hs s') = 256.

Lemma orun_refine n s a Ls rids : OR rows cols P gray cap base s a Ls rids -> Inv G a ->
  match FloodAbs.arun G n a with
  | ANext a' => exists s' Ls' rids', orun src rows cols gm P n s = ONext s' /\ OR rows cols P gray cap base s' a' Ls' rids'
  | AHalt a' => exists s' a0, orun src rows cols gm P n s = OHalt s' /\ Inv G a0 /\ ohalted s' a0 a'
  | AStuck => True
  end.
Proof using Hgray Hgb Hcap Hbase Hrows Hcols Harea.
  revert s a Ls rids. induction n as [|n IH]; intros s a Ls rids HR HI; cbn [FloodAbs.arun orun]; [eauto 6|].
  pose proof (ostep_refine src rows cols gm P gray Hrows Hcols Harea Hgray Hgb cap base Hbase Hcap s a Ls rids HR HI) as Hs.
  pose proof (astep_inv G (ograph_ok rows cols gray ltac:(lia)) a Hgb HI) as HI'.
  destruct (astep G a) as [a'|a'|]; [| |done].
  - destruct Hs as (s' & Ls' & rids' & -> & HR'). by eapply IH.
  - destruct Hs as (s' & -> & Hh). exists s', a. done.
Qed.

(* the buffers with which the loop is entered *)
Record oready (b : obuf) : Prop := MkOready {
  ry_len : length (ob_pix b) = area;
  ry_in : forall p, p ∈ nodes -> ob_pix b !! p = Some 0%N;
  ry_bd : forall x, x < area -> x ∉ nodes -> ob_pix b !! x = Some border_word;
  ry_heap : heapO cap base (ob_heap b) (ob_hs b) (fun _ => []);
  ry_hl : length (ob_heap b) = area + 256
}.

Lemma start_node : cols + 1 ∈ nodes.
Proof using Hrows Hcols. clear -Hrows Hcols. apply elem_rect. exists 0, 0. unfold gid. repeat split; lia. Qed.


Lemma oinit_refine b : oready b -> exists s, oinit src cols gm b = ONext s /\ OR rows cols P gray cap base s (ainit G (cols + 1)) [[]] [].
Proof using Hgray Hrows Hcols Harea Hcap Hbase.
  intros [R1 R2 R3 R4 R5]. unfold oinit. pose proof start_node as Hs. rewrite (R2 _ Hs), (Hgray _ Hs). eexists. split; [done|].
  destruct (node_range rows cols Hrows Hcols _ Hs) as (Hlt & _). change (set_dir 0 1) with (oword 1 0).
  unfold ainit. constructor; cbn [t_pix t_cur t_d t_gray t_heap t_hs t_comps t_tree a_px a_cur a_d a_heap a_comps a_regs]; auto.
  - exists 0. apply list_lookup_insert. lia.
  - intros p Hp Hne. rewrite list_lookup_insert_ne by done. rewrite fn_lookup_insert_ne by done. exists 0%N. split; [auto|done].
  - intros x Hx Hxn. rewrite list_lookup_insert_ne by (by intros <-). auto.
  - exists [OComp (gray (cols + 1)) 0 0 0 None]. split; [done|]. constructor.
    + by rewrite insert_length.
    + constructor; [|constructor]. constructor; cbn; auto. apply not_elem_of_nil.
    + constructor.
    + intros x Hx. by apply elem_of_nil in Hx.
    + constructor.
    + constructor.
    + split.
      * constructor; cbn [ot_h]; [done|apply NoDup_nil_2|..]; intros * Ha; rewrite lookup_nil in Ha; done.
      * split; [done|]. exists []. split; [constructor|]. split; [constructor|]. intros i Hi. by apply elem_of_nil in Hi.
Qed.

(* what a pass computes *)
Record opass_ok (s' : ost) (t : otree) (lab : nat -> nat) (regs : list areg) : Prop := MkOpass {
  op_tree : tree_of G lab regs;
  op_total : ot_total t = (N.of_nat (sum_list (map om_size (ot_out t))) mod 2 ^ 32)%N;
  op_recs : exists rs, NoDup rs /\ Forall2 (rec_ok cols P (RLfin regs)) rs (ot_out t);
  op_top : exists c L, t_comps s' = [c; osent] /\ L ≡ₚ nodes /\ o_size c = length L /\
    opixels (t_pix s') cols (o_head c) (o_size c) = Some (map (oxy cols) L);
  op_bd : forall x, x < area -> x ∉ nodes -> t_pix s' !! x = Some border_word;
  op_len : length (t_pix s') = area /\ length (t_heap s') = area + 256 /\ length (t_hs s') = 256
}.

Theorem opass_refined b n : oready b -> 6 * ((rows - 2) * (cols - 2)) < n ->
  exists s s' t lab regs, oinit src cols gm b = ONext s /\ orun src rows cols gm P n s = OHalt s' /\
    oclose rows cols P (t_pix s') (t_comps s') (t_tree s') = Some t /\ opass_ok s' t lab regs.
Proof using Hgray Hgb Hcap Hbase Hrows Hcols Harea.
  intros Hb Hn. destruct (oinit_refine b Hb) as (s & Hs & HR). pose proof start_node as H0.
  pose proof (ograph_ok rows cols gray ltac:(lia)) as HG.
  destruct (flood_abs_correct G HG (cols + 1) n) as (a & Ha & Hf); auto.
  { apply ograph_connected. lia. }
  { cbn [g_deg g_nodes ograph]. rewrite length_rect. lia. }
  pose proof (orun_refine n s _ _ _ HR (ainit_inv G (cols + 1) H0)) as Hrun. rewrite Ha in Hrun.
  destruct Hrun as (s' & a0 & Hs' & HI & (c0 & rest & Hc0 & Hregs & Hcomps & Ls & rids & ocs & Hoc & HC) & Hbd & Hlens).
  destruct Hf as [F1 F2 F3 (c & F4) F5]. rewrite Hcomps in F4. injection F4 as Hceq ->.
  destruct HI as [HA HB (c1 & r1 & E1 & Hcg & _)]. rewrite Hc0 in E1. injection E1 as <- <-.
  rewrite Hcomps in HC. destruct HC as [C1 C2 C3 C4 C5 C6 C7].
  inversion C2 as [|? oc L ? ocs' Ls0 H1 H2]; subst. inversion H2; subst. cbn [app] in Hoc.
  destruct (i_creg _ _ _ _ _ HB c0) as (ar & Har & Hpar & Hgr); [rewrite Hc0; left|].
  set (l := a_cur a0 :: cl c0) in *.
  assert (forall x, a_regs a !! x = if decide (x = cr c0) then Some (AReg (rg ar) (rpar ar) l) else a_regs a0 !! x) as Hlook.
  { intros x. rewrite Hregs. by apply set_rl_lookup. }
  assert (a_regs a !! cr c0 = Some (AReg (rg ar) (rpar ar) l)) as Hroot by (rewrite Hlook, decide_True by done; done).
  assert (l ≡ₚ nodes) as Hln.
  { destruct (to_mem _ _ _ F5 _ _ Hroot) as (Hnd & Hm). cbn [rl] in Hnd, Hm. apply NoDup_Permutation; [done|apply NoDup_rect; lia|].
    intros x. rewrite Hm. cbn [g_nodes ograph]. split; [tauto|]. intros Hx. split; [done|].
    destruct (to_lab _ _ _ F5 x Hx) as (b1 & Hb1 & _). by eapply (under_root _ _ _ _ _ F5 Hroot). }
  destruct H1 as [E1 E2 E3 E4 E5 E6]. cbn [cg cl cr] in E1, E2, E3, E4, E5, E6.
  assert (L ≡ₚ nodes) as HLn by (by rewrite E2).
  assert (L <> []) as HLne. { intros ->. apply Permutation_nil in HLn. rewrite HLn in H0. by apply elem_of_nil in H0. }
  destruct E5 as [(-> & _)|(E5 & E5' & _)]; [done|].
  assert (Forall (fun x => x < area) L) as HLa.
  { apply Forall_forall. intros x Hx. rewrite HLn in Hx. by apply (node_range rows cols Hrows Hcols). }
  assert (o_gray oc <= 255) as Hg255. { rewrite E1, Hcg. apply Hgb. apply (i_cur _ _ _ _ _ HA). }
  assert (forall r x, RLof [AComp (cg c0) (cr c0) l] (a_regs a0) r = Some x -> RLfin (a_regs a) r = Some x) as HRm.
  { intros r x. unfold RLof, RLfin. rewrite Hlook. destruct (a_regs a0 !! r) as [b0|]; [|done]. cbn [map cr].
    destruct (decide (r ∈ [cr c0])) as [|Hn0]; [done|]. rewrite decide_False; [done|]. intros ->. apply Hn0. left. }
  pose proof (lookup_lt_Some _ _ _ Har) as Hcr.
  assert (length (a_regs a0) <= area) as Hra.
  { assert (length (a_regs a0) <= length (g_nodes G)) as H. { apply lregs_bound. constructor; auto. exists c0, []. split; [done|]. split; [done|]. intros c' Hc'. by apply elem_of_nil in Hc'. }
    cbn [g_nodes ograph] in H. rewrite length_rect in H. nia. }
  destruct (ogrow_close area cols P (Harea' area Harea) (onext (t_pix s')) (RLfin (a_regs a)) True (t_pix s') rids (t_tree s') oc (cr c0) 256 true L l)
    as (i & rids' & t & ai & Hgrow & HT' & _ & _ & _ & _ & _ & _ & _); auto.
  { eapply tree_mono; [apply next_ext_refl|exact HRm|done]. }
  { rewrite E1. eapply chist_mono; [apply next_ext_refl|exact HRm|done]. }
  { intros Hni. pose proof (rids_room area Harea (a_regs a0) rids (cr c0) (fo_nd _ _ _ _ _ (proj1 C7)) C6 Hcr Hni). lia. }
  { lia. }
  { unfold RLfin. rewrite Hroot. cbn [rg rl]. by rewrite Hgr, E1. }
  exists s, s', t, (labof (a_px a)), (a_regs a). split; [done|]. split; [done|]. split.
  { rewrite Hoc. cbn [oclose]. destruct (Nat.eqb_spec (o_gray oc) 256) as [|_]; [lia|]. rewrite Hgrow. cbn [oclose osent o_gray Nat.eqb]. done. }
  destruct HT' as (HF' & Htot & caps & Hcnd & Hrec & _). constructor; auto.
  - clear -Hrec Hcnd HF'. assert (forall caps out, NoDup caps -> Forall2 (fun i m => exists r, rids' !! i = Some r /\ rec_ok cols P (RLfin (a_regs a)) r m) caps out ->
      exists rs, Forall2 (fun i r => rids' !! i = Some r) caps rs /\ Forall2 (rec_ok cols P (RLfin (a_regs a))) rs out) as H.
    { clear. intros caps out Hnd. induction 1 as [|i m caps out (r & Hr & Hm) _ IH]; [by exists []|]. apply NoDup_cons in Hnd as [_ Hnd].
      destruct (IH Hnd) as (rs & H1 & H2). exists (r :: rs). split; by constructor. }
    destruct (H caps _ Hcnd Hrec) as (rs & H1 & H2). exists rs. split; [|done].
    apply NoDup_alt. intros x y r Hx Hy. destruct (Forall2_lookup_r _ _ _ _ _ H1 Hx) as (ix & Hix & Hrx).
    destruct (Forall2_lookup_r _ _ _ _ _ H1 Hy) as (iy & Hiy & Hry). pose proof (NoDup_lookup _ _ _ _ (fo_nd _ _ _ _ _ HF') Hrx Hry) as ->.
    by eapply NoDup_lookup.
  - exists oc, L. split; [done|]. split; [done|]. split; [done|]. rewrite E3. apply opixels_ok; [done|done|]. by rewrite C1.
Qed.
End run.
