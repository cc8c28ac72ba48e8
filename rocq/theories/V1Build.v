(* Fast MSER V1's build_tree: the tree of the whole image with its pixel lists. *)
From stdpp Require Import sorting relations functions list.
From Coq Require Import NArith ZArith.
From Verif Require Import Spec TreeSpec TreeFacts JoinMath Grid FloodAbs FloodModel FloodRefine FloodInit FloodTree FloodCorrect
  ConnectModel ConnectProof PartModel PartProof MergeProof WholeModel WholeProof LinkedModel LinkedHeap LinkedInit
  V1JoinModel V1Heap V1Lists V1Cut V1Connect V1Loop V1Conn V1Model V1FloodLists V1FloodRefine V1FloodInit V1FloodCorrect
  V1BuildModel V1Sort V1Union V1Seams V1Whole.
Local Open Scope nat_scope.

(* ---------- what is claimed ---------- *)

(* SPEC: n points met by following the next links from o, with their coordinates *)
Fixpoint pixel_walk (P : list (list wpt)) (n : nat) (o : option rref) : option (list (nat * nat)) :=
  match n with
  | O => Some []
  | S n' =>
      match o with
      | None => None
      | Some q =>
          match get2 P q with
          | None => None
          | Some t => match pixel_walk P n' (t_next t) with
                      | Some l => Some ((t_x t, t_y t) :: l)
                      | None => None
                      end
          end
      end
  end.

(* SPEC: the region table: level, alive unless merged into its parent, size, parent *)
Definition v1_table (F : list (list wreg)) (r : rref) : option (vreg rref) :=
  (fun a => VReg (w_gray a) (negb (w_flag a =? 3)) (Z.to_nat (w_size a)) (w_par a)) <$> get2 F r.

(* SPEC: a is the smallest upright rectangle around the pixels l *)
Definition tight_box (a : wreg) (l : list (nat * nat)) : Prop :=
  (forall x y, (x, y) ∈ l -> w_left a <= x <= w_right a /\ w_top a <= y <= w_bot a) /\
  (exists y, (w_left a, y) ∈ l) /\ (exists y, (w_right a, y) ∈ l) /\
  (exists x, (x, w_top a) ∈ l) /\ (exists x, (x, w_bot a) ∈ l).

(* SPEC: region r is the connected component of level w_gray a with the pixels reached
   from its head, in a list of w_size a points *)
Definition v1_region (img : list N) (gm : N) (cols rows : nat) (lab : nat -> rref)
  (F : list (list wreg)) (P : list (list wpt)) (r : rref) (a : wreg) : Prop :=
  w_flag a = 0 /\ (0 < w_size a)%Z /\ w_un a = w_size a /\
  exists l, pixel_walk P (Z.to_nat (w_size a)) (w_head a) = Some l /\ NoDup l /\
    (forall x y, (x, y) ∈ l <-> x < cols /\ y < rows /\ vunder (v1_table F) (lab (y * cols + x)) r) /\
    (exists x y, head l = Some (x, y) /\ level img gm (y * cols + x) = w_gray a) /\
    (exists t p, w_tail a = Some t /\ get2 P t = Some p /\ last l = Some (t_x p, t_y p)) /\
    tight_box a l.

(* SPEC: n points met by following the next links from o *)
Fixpoint point_walk (P : list (list wpt)) (n : nat) (o : option rref) : option (list rref) :=
  match n with
  | O => Some []
  | S n' =>
      match o with
      | None => None
      | Some q =>
          match get2 P q with
          | None => None
          | Some t => match point_walk P n' (t_next t) with
                      | Some l => Some (q :: l)
                      | None => None
                      end
          end
      end
  end.

(* SPEC: the lists of the regions: each meets a point once, ends in the tail of the region
   and contains the list of a region below as a contiguous piece; regions with a common
   point are comparable *)
Definition v1_nested (F : list (list wreg)) (P : list (list wpt)) : Prop :=
  exists seg : rref -> list rref, forall r a, get2 F r = Some a -> w_flag a <> 3 ->
    point_walk P (Z.to_nat (w_size a)) (w_head a) = Some (seg r) /\ NoDup (seg r) /\ last (seg r) = w_tail a /\
    forall y b, get2 F y = Some b -> w_flag b <> 3 ->
      (vunder (v1_table F) y r -> exists A B, seg r = A ++ seg y ++ B) /\
      (forall q, q ∈ seg r -> q ∈ seg y -> vunder (v1_table F) y r \/ vunder (v1_table F) r y).

(* SPEC: the result of building: the component tree of the whole image with nested lists *)
Definition v1_built (img : list N) (gm : N) (cols rows : nat) (F : list (list wreg)) (P : list (list wpt)) : Prop :=
  exists lab, ctree (whole_view cols rows (level img gm)) lab (v1_table F) /\ one_root (v1_table F) /\ v1_nested F P /\
    forall r a, get2 F r = Some a -> w_flag a <> 3 -> v1_region img gm cols rows lab F P r a.

(* SPEC: shape of the region records: n partitions, at most m records; a record carries
   the number of its partition, a byte as level and is unclassified or merged *)
Definition v1_records (n m : nat) (F : list (list wreg)) : Prop :=
  length F = n /\ num2 F <= m /\
  forall k i a, get2 F (k, i) = Some a -> w_patch a = k /\ w_gray a <= 255 /\ (w_flag a = 0 \/ w_flag a = 3).

(* SPEC: conditions on the image *)
Record v1_fits (hpn vpn : nat) (img : list N) (cols rows : nat) : Prop := {
  v1_cols : hpn <= cols <= 2 ^ 16;
  v1_rows : vpn <= rows <= 2 ^ 16;
  v1_len : rows * cols <= length img;
  v1_byte : forall i v, img !! i = Some v -> (v < 256)%N;
  v1_part : forall k r, rects hpn vpn cols rows !! k = Some r ->
    misses_level img 0 cols (r_top r) (r_left r) (r_w r) (r_h r)
}.
(* SPEC: the buffers of all partitions have the sizes allocated *)
Definition v1_bufs (hpn vpn cols rows : nat) (bs : list vbuf) : Prop :=
  length bs = vpn * hpn /\
  forall k r b, rects hpn vpn cols rows !! k = Some r -> bs !! k = Some b ->
    vbuf_ok (r_w r) (r_h r) (has_left hpn k) (has_right hpn k) (has_top hpn k) (has_bot hpn (vpn * hpn) k) b.
(* SPEC: number of points in all buffers *)
Definition v1_points (bs : list vbuf) : nat := num2 (vb_pts <$> bs).
(* SPEC: what may have happened to a buffer between the passes: recognition and extraction
   use the heap and the points for their own purposes *)
Definition v1_kept (b b' : vbuf) : Prop :=
  vb_img b' = vb_img b /\ length (vb_heap b') = length (vb_heap b) /\ vb_hs b' = vb_hs b /\ vb_lvl b' = vb_lvl b /\
  vb_tab b' = vb_tab b /\ length (vb_pts b') = length (vb_pts b).

(* ---------- the number of points does not change ---------- *)
Lemma store_len {A} (l l' : list A) i v : store l i v = Some l' -> length l' = length l.
Proof. unfold store. destruct (i <? length l); [|done]. intros [= <-]. by rewrite insert_length. Qed.

Lemma vaccum_len k c np x y pts c' pts' : vaccum k c np x y pts = Some (c', pts') -> length pts' = length pts.
Proof.
  unfold vaccum. destruct (0 <? d_size c).
  - destruct (d_head c) as [h|]; [|done]. destruct (pts !! h) as [q|]; [|done].
    destruct (store _ np _) as [p|] eqn:E; [|done]. intros [= _ <-]. apply store_len in E. by rewrite insert_length in E.
  - destruct (store pts np _) as [p|] eqn:E; [|done]. intros [= _ <-]. by apply store_len in E.
Qed.
Lemma vmerge_comp_len k c1 c2 pts regs c' pts' regs' : vmerge_comp k c1 c2 pts regs = Some (c', pts', regs') ->
  length pts' = length pts.
Proof.
  unfold vmerge_comp. destruct (d_reg c1) as [r1|], (d_reg c2) as [r2|]; try done.
  destruct (vset_par k regs r1 r2) as [g1|]; [|done]. destruct (g1 !! r1), (g1 !! r2); try done.
  destruct (vset_bnd g1 r2 _) as [g2|]; [|done]. destruct (0 <? d_size c2).
  - destruct (d_tail c2) as [t2|], (d_head c1) as [h1|]; try done. destruct (pts !! t2) as [q2|]; [|done]. cbn zeta.
    destruct (_ !! h1) as [q1|]; [|done]. intros [= _ <- _]. by rewrite !insert_length.
  - by intros [= _ <- _].
Qed.
Lemma vmerge_len k g rest : forall c pts regs cs pts' regs', vmerge k g c rest pts regs = Some (cs, pts', regs') ->
  length pts' = length pts.
Proof.
  induction rest as [|c2 rest IH]; intros c pts regs cs pts' regs'; cbn [vmerge]; [done|].
  destruct (vmerge_comp k c c2 pts regs) as [[[c2' p1] g1]|] eqn:E; [|done]. apply vmerge_comp_len in E.
  destruct (g <=? d_gray c2'); [intros [= _ <- _]; done|]. destruct rest as [|c3 rest']; [done|].
  destruct (g <? d_gray c3).
  - destruct (vraise k g c2' g1) as [[c2'' g2]|]; [|done]. by intros [= _ <- _].
  - intros H. apply IH in H. congruence.
Qed.
Lemma vup_comp_len k g c rest pts regs cs pts' regs' : vup_comp k g c rest pts regs = Some (cs, pts', regs') ->
  length pts' = length pts.
Proof.
  unfold vup_comp. destruct rest as [|c2 rest]; [done|]. destruct (g <? d_gray c2); [|apply vmerge_len].
  destruct (vraise k g c regs) as [[c' g']|]; [|done]. by intros [= _ <- _].
Qed.
Definition vend (s : vst) (r : vres) : Prop :=
  match r with VNext s' | VHalt s' => length (z_pts s') = length (z_pts s) | VUB => True end.
Lemma vtake_len s img heap hs hc pts np comps regs tab : length pts = length (z_pts s) ->
  vend s (vtake img heap hs hc pts np comps regs tab).
Proof. intros H. unfold vtake. destruct (heap_top heap hs hc) as [[p|]|]; try done. destruct (heap_pop hs hc); done. Qed.
Lemma vkstep_len k s : vend s (vkstep k s).
Proof.
  unfold vkstep. destruct (z_img s !! z_cur s) as [w|]; [|done]. destruct (_ <? _)%N.
  - unfold vtour. destruct (lnbr _ _ _ _) as [q|]; [|done]. destruct (z_img s !! q) as [wq|]; [|done].
    destruct (_ <? _)%N.
    + cbn zeta. destruct (_ !! z_cur s) as [wc|]; [|done]. destruct (bump _ _) as [img2|]; [|done].
      destruct (hmove _ _) as [hc|]; [|done]. destruct (_ <? _)%Z.
      * destruct (heap_push _ _ _ _) as [[heap hs]|]; [|done]. destruct (img2 !! q); [|done]. by destruct (_ <? _).
      * destruct (heap_push _ _ _ _) as [[heap hs]|]; done.
    + destruct (bump _ _); done.
  - unfold vfinish. cbn zeta. destruct (z_comps s) as [|c rest]; [done|]. destruct (d_reg c) as [r|]; [|done].
    match goal with |- vend _ (match ?o with Some _ => _ | None => _ end) => destruct o as [[tab regs0]|]; [|done] end.
    destruct (vaccum _ _ _ _ _ _) as [[c' pts2]|] eqn:Ea; [|done]. apply vaccum_len in Ea.
    destruct (heap_top _ _ _) as [[p|]|]; [| |done]; [by apply vtake_len|].
    destruct (vclose _ _ _ _) as [regs1|]; [|done]. destruct (lfind _ _ _ _ _) as [[[hc g]|]|]; [| |done].
    + destruct (vup_comp _ _ _ _ _ _) as [[[cs pts3] regs2]|] eqn:Eu; [|done]. apply vup_comp_len in Eu.
      apply vtake_len. congruence.
    + done.
Qed.
Lemma vkrun_len k n : forall s, vend s (vkrun k n s).
Proof.
  induction n as [|n IH]; intros s; [done|]. cbn [vkrun]. pose proof (vkstep_len k s) as H.
  destruct (vkstep k s) as [s'|s'|]; auto. specialize (IH s'). cbn [vend] in H. unfold vend in *.
  destruct (vkrun k n s'); congruence.
Qed.
Lemma vmake_tree_len n k fresh gm src step b regs b' : vmake_tree n k fresh gm src step b = VTree regs b' ->
  length (vb_pts b') = length (vb_pts b).
Proof.
  unfold vmake_tree. destruct (vprocess _ _ _ _ _ _ b) as [b1|] eqn:E1; [|done].
  assert (vb_pts b1 = vb_pts b) as Hp.
  { unfold vprocess in E1. destruct (if fresh then _ else _) as [[img lvl]|]; [|done]. destruct (vb_hs b !! 0); [|done].
    destruct (store _ _ _); [|done]. destruct (for_n _ _ _) as [[[h1 h2] ?]|]; [|done]. by injection E1 as <-. }
  unfold vkinit. destruct (vb_img b1 !! _) as [w|]; [|done]. cbn zeta.
  match goal with |- match vkrun k n ?s with _ => _ end = _ -> _ => pose proof (vkrun_len k n s) as Hr; destruct (vkrun k n s) end; try done.
  intros [= _ <-]. cbn [vb_pts]. cbn [vend z_pts] in Hr. by rewrite Hr, Hp.
Qed.

(* ---------- walking along a list ---------- *)
Lemma walk_dseg P l : forall a b, dseg P a l b -> forall cs, Forall2 (fun q c => co P q = Some c) l cs ->
  pixel_walk P (length l) (hd_or l b) = Some cs.
Proof.
  induction l as [|q l IH]; intros a b HD cs HC.
  - apply Forall2_nil_inv_l in HC as ->. done.
  - apply Forall2_cons_inv_l in HC as (c & cs' & Hc & HC & ->). destruct HD as ([x Hx] & _ & Hn & HD).
    cbn [length pixel_walk hd_or]. rewrite Hx. unfold nx in Hn. rewrite Hx in Hn. rewrite Hn, (IH _ _ HD cs' HC).
    unfold co in Hc. rewrite Hx in Hc. by injection Hc as <-.
Qed.

Lemma point_dseg P l : forall a b, dseg P a l b -> point_walk P (length l) (hd_or l b) = Some l.
Proof.
  induction l as [|q l IH]; intros a b HD; [done|]. destruct HD as ([x Hx] & _ & Hn & HD).
  cbn [length point_walk hd_or]. rewrite Hx. unfold nx in Hn. rewrite Hx in Hn. by rewrite Hn, (IH _ _ HD).
Qed.

Section built.
Context (hpn vpn cols rows : nat) (Hh : 0 < hpn) (Hv : 0 < vpn) (Hc : hpn <= cols) (Hr : vpn <= rows)
  (gray : nat -> nat) (Hgray : forall p, gray p <= 255).
Notation R := (rects hpn vpn cols rows).
Context (ts : list (list wreg)) (os : list vbuf) (D : list vdata).
Context (Hts : length ts = length R) (Hos : length os = length R) (HD : length D = length R).
Context (Hall : forall k r, R !! k = Some r -> exists regs b d, ts !! k = Some regs /\ os !! k = Some b /\
  D !! k = Some d /\ vpart_ok hpn vpn cols gray k r regs b d).
Notation ulab := (ulab hpn vpn cols rows D).
Notation uxy := (uxy cols D).
Notation upin := (upin D).
Notation upix := (upix D).
Notation V := (whole_view cols rows gray).

Lemma u_co q : upin q -> co (vb_pts <$> os) q = Some (uxy q).
Proof using All.
  destruct q as [k i]. intros (d & p & Hd & Hp). cbn [fst snd] in *.
  destruct (u_data hpn vpn cols rows Hh Hv Hc Hr gray Hgray ts os D Hts Hos HD Hall k d Hd) as (r & regs & b & H1 & H2 & H3 & H5).
  destruct (vt_pt _ _ _ _ _ _ _ _ _ _ _ _ _ _ _ _ _ _ H5 i p Hp) as (t & Ht & Hx & Hy & _).
  unfold co, get2. cbn [fst snd]. rewrite list_lookup_fmap, H3. cbn [fmap option_fmap option_map]. rewrite Ht.
  unfold V1Union.uxy, V1Union.upix. cbn [fst snd]. rewrite Hd, Hp. f_equal. rewrite Hx, Hy. by destruct (vxy cols p).
Qed.

Lemma good_built st : good V ulab uxy upin upix st -> wframe ts (e_regs st) -> psame (vb_pts <$> os) (e_pts st) ->
  ctree V ulab (v1_table (e_regs st)) /\ one_root (v1_table (e_regs st)) /\
  forall r a, get2 (e_regs st) r = Some a -> w_flag a <> 3 ->
    w_flag a = 0 /\ (0 < w_size a)%Z /\ w_un a = w_size a /\
    exists l, pixel_walk (e_pts st) (Z.to_nat (w_size a)) (w_head a) = Some l /\ NoDup l /\
      (forall x y, (x, y) ∈ l <-> x < cols /\ y < rows /\ vunder (v1_table (e_regs st)) (ulab (y * cols + x)) r) /\
      (exists x y, head l = Some (x, y) /\ gray (y * cols + x) = w_gray a) /\
      (exists t p, w_tail a = Some t /\ get2 (e_pts st) t = Some p /\ last l = Some (t_x p, t_y p)) /\
      tight_box a l.
Proof using All.
  intros (_ & sz & seg & HT & Hz & HL) HF HP. cbn zeta in *. set (F := e_regs st) in *. set (T := tz F sz) in *.
  assert (forall r, match T r, v1_table F r with Some a, Some b => vsame a b | None, None => True | _, _ => False end) as Hsame.
  { intros r. unfold T, tz, v1_table. destruct (get2 F r) as [a|] eqn:Ea; [|done]. cbn [fmap option_fmap option_map].
    unfold wv, vsame. cbn [v_gray v_live v_par v_size]. split_and!; auto. intros Hlv.
    destruct (Hz r a) as [-> _]; auto; [|by rewrite Nat2Z.id].
    exists (wv sz r a). split; [by apply tz_get|done]. }
  assert (forall x y, vunder T x y <-> vunder (v1_table F) x y) as HU.
  { apply vunder_same. intros r. specialize (Hsame r). destruct (T r), (v1_table F r); try done. cbn. f_equal. apply Hsame. }
  assert (ctree V ulab (v1_table F)) as HT' by (by eapply ctree_same).
  split; [done|]. split.
  { eapply root_of_connected; [|exact HT'| |].
    - apply adj4_vsym.
    - apply (whole_connected hpn vpn cols rows Hh Hv Hc Hr).
    - exists 0. apply (whole_in hpn vpn cols rows Hh Hv Hc Hr). nia. }
  intros r a Ha Hfl. assert (livez T r) as Hlr.
  { exists (wv sz r a). split; [by apply tz_get|]. cbn. destruct (Nat.eqb_spec (w_flag a) 3); done. }
  destruct (wframe_inv _ _ _ _ HF Ha) as [a0 Ha0]. destruct (wf_reg _ _ HF r a0 Ha0) as (a1 & Ha1 & W).
  assert (a1 = a) as -> by congruence.
  assert (w_flag a = 0) as Hf0.
  { destruct r as [k i]. destruct (u_reg hpn vpn cols rows Hh Hv Hc Hr gray Hgray ts os D Hts Hos HD Hall k i a0 Ha0)
      as (rr & regs & b & d & x & _ & _ & _ & _ & H5 & H6 & H7).
    destruct (vt_reg _ _ _ _ _ _ _ _ _ _ _ _ _ _ _ _ _ _ H5 i a0 x H6 H7) as (_ & _ & Hfl0 & _).
    destruct W as (_ & _ & _ & _ & [W|W]); [congruence|done]. }
  split; [done|].
  assert (forall x y, reach (vunder T) [] x y <-> vunder T x y) as Hre.
  { intros x y. unfold reach. split; [tauto|]. intros H. split; [done|]. intros k Hk. by apply elem_of_nil in Hk. }
  pose proof (l_dup _ _ _ _ _ _ _ _ _ _ _ _ _ HL r Hlr) as Hnd.
  assert (forall q, q ∈ seg r <-> upin q /\ vunder T (ulab (upix q)) r) as Hmem.
  { intros q. rewrite (l_mem _ _ _ _ _ _ _ _ _ _ _ _ _ HL r q Hlr), Hre. done. }
  assert (forall q, upin q -> upix q < rows * cols) as Hpin.
  { intros q Hq. apply (u_pin_in hpn vpn cols rows Hh Hv Hc Hr gray Hgray ts os D Hts Hos HD Hall q Hq). }
  assert (NoDup (upix <$> seg r)) as Hndp.
  { apply NoDup_fmap_2_strong; [|done]. intros q q' Hq Hq'. apply Hmem in Hq as [Hq _]. apply Hmem in Hq' as [Hq' _].
    by apply (u_pix_inj hpn vpn cols rows Hh Hv Hc Hr gray Hgray ts os D Hts Hos HD Hall). }
  assert (length (seg r) = sz r) as Hlen.
  { apply (card_unique (fun p => vw_in V p /\ vunder T (ulab p) r)).
    - exists (upix <$> seg r). split; [done|]. split; [|by rewrite fmap_length].
      intros p. rewrite elem_of_list_fmap. split.
      + intros (q & -> & Hq). apply Hmem in Hq as [Hq Hu]. split; [|done].
        apply (whole_in hpn vpn cols rows Hh Hv Hc Hr). auto.
      + intros [Hp Hu]. apply (whole_in hpn vpn cols rows Hh Hv Hc Hr) in Hp.
        destruct (u_pix_sur hpn vpn cols rows Hh Hv Hc Hr gray Hgray ts os D Hts Hos HD Hall p Hp) as (q & Hq & <-).
        exists q. split; [done|]. by apply Hmem.
    - destruct Hlr as (v & Hv' & Hl'). destruct (get_tz _ _ _ _ Hv') as (a' & _ & ->).
      exact (ct_size _ _ _ HT r _ Hv' Hl'). }
  destruct (Hz r a Hlr Ha) as [Hs1 Hs2]. split; [|split; [congruence|]].
  { destruct (l_reg _ _ _ _ _ _ _ _ _ _ _ _ _ HL r Hlr) as (_ & h & _ & _ & _ & _ & Hhd & _).
    rewrite Hs1, <-Hlen. destruct (seg r); [done|]. cbn. lia. }
  destruct (l_reg _ _ _ _ _ _ _ _ _ _ _ _ _ HL r Hlr) as (a' & h & z & t & E1 & E2 & E3 & E4 & E5 & E6 & E7 & E8 & B & B1 & B2 & B3).
  assert (a' = a) as -> by congruence. assert (t = z) as -> by (destruct E8 as [?|([] & _)]; done).
  assert (B = []) as -> by (destruct B2 as [?|[]]; done). rewrite app_nil_r in B3.
  assert (order upin (fun q => ulab (upix q)) (fun q => vw_gray V (upix q)) (livez T) (vunder T) (grayz T)) as HO.
  { apply order_wf; [by eapply ctree_wf|]. intros q Hq. apply (ct_lab _ _ _ HT).
    apply (whole_in hpn vpn cols rows Hh Hv Hc Hr). auto. }
  destruct (o_top _ _ _ _ _ _ HO r Hlr) as (top & Htop & Hrt & Hmax).
  pose proof (l_chain _ _ _ _ _ _ _ _ _ _ _ _ _ HL top Htop (or_intror Hmax)) as Hch.
  destruct (l_nest _ _ _ _ _ _ _ _ _ _ _ _ _ HL top r Htop Hlr) as (A & B & Hseg); [by apply Hre|].
  rewrite Hseg in Hch. apply dseg_app in Hch as [_ Hch]. apply dseg_app in Hch as [Hch _].
  assert (forall q, upin q -> co (e_pts st) q = Some (uxy q)) as Hco.
  { intros q Hq. destruct HP as [_ HP]. rewrite HP. by apply u_co. }
  assert (forall q, upin q -> fst (uxy q) < cols /\ snd (uxy q) < rows /\ snd (uxy q) * cols + fst (uxy q) = upix q) as Hxy.
  { intros q Hq. specialize (Hpin q Hq). unfold V1Union.uxy, vxy. cbn [fst snd]. split; [apply Nat.mod_upper_bound; lia|].
    split; [apply Nat.div_lt_upper_bound; lia|]. pose proof (Nat.div_mod (upix q) cols ltac:(lia)). lia. }
  exists (uxy <$> seg r). split_and!.
  - rewrite Hs1, Nat2Z.id, <-Hlen, E4. destruct (seg r) as [|h' l'] eqn:Es; [done|]. injection E3 as ->.
    eapply (walk_dseg _ (h :: l')) in Hch; [exact Hch|]. apply Forall2_fmap_r, Forall_Forall2_diag, Forall_forall.
    intros q Hq. apply Hco. by apply Hmem.
  - apply NoDup_fmap_2_strong; [|done]. intros q q' Hq Hq' He. apply Hmem in Hq as [Hq _]. apply Hmem in Hq' as [Hq' _].
    apply (u_pix_inj hpn vpn cols rows Hh Hv Hc Hr gray Hgray ts os D Hts Hos HD Hall); auto.
    destruct (Hxy q Hq) as (_ & _ & <-). destruct (Hxy q' Hq') as (_ & _ & <-). congruence.
  - intros x y. rewrite elem_of_list_fmap. split.
    + intros (q & Eq & Hq). apply Hmem in Hq as [Hq Hu]. destruct (Hxy q Hq) as (Q1 & Q2 & Q3).
      rewrite <-Eq in *. cbn [fst snd] in *. split; [done|]. split; [done|]. rewrite Q3. by apply HU.
    + intros (Hx & Hy & Hu). destruct (u_pix_sur hpn vpn cols rows Hh Hv Hc Hr gray Hgray ts os D Hts Hos HD Hall (y * cols + x)) as (q & Hq & Eq); [nia|].
      exists q. split.
      * unfold V1Union.uxy, vxy. rewrite Eq. destruct (coord cols y x Hx) as [-> ->]. done.
      * apply Hmem. split; [done|]. rewrite Eq. by apply HU.
  - assert (h ∈ seg r) as Hq by (destruct (seg r); [done|]; injection E3 as ->; constructor).
    apply Hmem in Hq as [Hq _]. destruct (Hxy h Hq) as (Q1 & Q2 & Q3). exists (fst (uxy h)), (snd (uxy h)). split.
    + destruct (seg r); [done|]. injection E3 as ->. reflexivity.
    + rewrite Q3. cbn [whole_view rect_view vw_gray] in E5. rewrite E5, E2. done.
  - assert (z ∈ seg r) as Hq by (pose proof E6 as E6'; apply last_Some in E6' as [l' ->]; apply elem_of_app; right; constructor).
    apply Hmem in Hq as [Hq _]. specialize (Hco z Hq). unfold co in Hco. destruct (get2 (e_pts st) z) as [p|] eqn:Ep; [|done].
    exists z, p. split; [done|]. split; [done|]. rewrite fmap_last, E6. cbn. congruence.
  - destruct B3 as (T0 & (q1 & T1 & U1) & (q2 & T2 & U2) & (q3 & T3 & U3) & (q4 & T4 & U4)).
    split; [|split_and!].
    + intros x y (q & Eq & Hq)%elem_of_list_fmap. specialize (T0 q Hq). rewrite <-Eq in T0. exact T0.
    + exists (snd (uxy q1)). rewrite <-U1. apply elem_of_list_fmap. exists q1. split; [by destruct (uxy q1)|done].
    + exists (snd (uxy q2)). rewrite <-U2. apply elem_of_list_fmap. exists q2. split; [by destruct (uxy q2)|done].
    + exists (fst (uxy q3)). rewrite <-U3. apply elem_of_list_fmap. exists q3. split; [by destruct (uxy q3)|done].
    + exists (fst (uxy q4)). rewrite <-U4. apply elem_of_list_fmap. exists q4. split; [by destruct (uxy q4)|done].
Qed.

Lemma good_nested st : good V ulab uxy upin upix st -> wframe ts (e_regs st) -> psame (vb_pts <$> os) (e_pts st) ->
  v1_nested (e_regs st) (e_pts st).
Proof using All.
  intros HG HF HP. pose proof (good_built st HG HF HP) as (HT' & _ & HR).
  destruct HG as (_ & sz & seg & HT & Hz & HL). cbn zeta in *. set (F := e_regs st) in *. set (T := tz F sz) in *.
  assert (forall x y, vunder T x y <-> vunder (v1_table F) x y) as HU.
  { apply vunder_same. intros r. unfold T, tz, v1_table. destruct (get2 F r) as [a|] eqn:Ea; done. }
  assert (forall r a, get2 F r = Some a -> w_flag a <> 3 -> livez T r) as Hlv.
  { intros r a Ha Hfl. exists (wv sz r a). split; [by apply tz_get|]. cbn. destruct (Nat.eqb_spec (w_flag a) 3); done. }
  assert (forall x y, reach (vunder T) [] x y <-> vunder T x y) as Hre.
  { intros x y. unfold reach. split; [tauto|]. intros H. split; [done|]. intros k Hk. by apply elem_of_nil in Hk. }
  assert (forall r q, livez T r -> q ∈ seg r <-> upin q /\ vunder T (ulab (upix q)) r) as Hmem.
  { intros r q Hlr. rewrite (l_mem _ _ _ _ _ _ _ _ _ _ _ _ _ HL r q Hlr), Hre. done. }
  assert (forall q, upin q -> upix q < rows * cols) as Hpin.
  { intros q Hq. apply (u_pin_in hpn vpn cols rows Hh Hv Hc Hr gray Hgray ts os D Hts Hos HD Hall q Hq). }
  assert (order upin (fun q => ulab (upix q)) (fun q => vw_gray V (upix q)) (livez T) (vunder T) (grayz T)) as HO.
  { apply order_wf; [by eapply ctree_wf|]. intros q Hq. apply (ct_lab _ _ _ HT).
    apply (whole_in hpn vpn cols rows Hh Hv Hc Hr). auto. }
  exists seg. intros r a Ha Hfl. pose proof (Hlv r a Ha Hfl) as Hlr.
  pose proof (l_dup _ _ _ _ _ _ _ _ _ _ _ _ _ HL r Hlr) as Hnd.
  destruct (l_reg _ _ _ _ _ _ _ _ _ _ _ _ _ HL r Hlr) as (a' & h & z & t & E1 & E2 & E3 & E4 & E5 & E6 & E7 & E8 & B & B1 & B2 & B3).
  assert (a' = a) as -> by congruence. assert (t = z) as -> by (destruct E8 as [?|([] & _)]; done).
  destruct (o_top _ _ _ _ _ _ HO r Hlr) as (top & Htop & Hrt & Hmax).
  pose proof (l_chain _ _ _ _ _ _ _ _ _ _ _ _ _ HL top Htop (or_intror Hmax)) as Hch.
  destruct (l_nest _ _ _ _ _ _ _ _ _ _ _ _ _ HL top r Htop Hlr) as (A & B' & Hseg); [by apply Hre|].
  rewrite Hseg in Hch. apply dseg_app in Hch as [_ Hch]. apply dseg_app in Hch as [Hch _].
  assert (length (seg r) = Z.to_nat (w_size a)) as Hlen.
  { destruct (HR r a Ha Hfl) as (_ & _ & _ & l & W & ND & ME & _).
    assert (length l = Z.to_nat (w_size a)) as <-.
    { clear -W. revert l W. generalize (w_head a). induction (Z.to_nat (w_size a)) as [|n IH]; intros o l; cbn [pixel_walk].
      - by intros [= <-].
      - destruct o as [q|]; [|done]. destruct (get2 (e_pts st) q) as [x|]; [|done].
        destruct (pixel_walk (e_pts st) n (t_next x)) as [l'|] eqn:E; [|done]. intros [= <-]. cbn. f_equal. by eapply IH. }
    assert (forall q, upin q -> fst (uxy q) < cols /\ snd (uxy q) < rows /\ snd (uxy q) * cols + fst (uxy q) = upix q) as Hxy.
    { intros q Hq. specialize (Hpin q Hq). unfold V1Union.uxy, vxy. cbn [fst snd]. split; [apply Nat.mod_upper_bound; lia|].
      split; [apply Nat.div_lt_upper_bound; lia|]. pose proof (Nat.div_mod (upix q) cols ltac:(lia)). lia. }
    assert (NoDup (uxy <$> seg r)) as ND'.
    { apply NoDup_fmap_2_strong; [|done]. intros q q' Hq Hq' He. apply Hmem in Hq as [Hq _]; [|done]. apply Hmem in Hq' as [Hq' _]; [|done].
      apply (u_pix_inj hpn vpn cols rows Hh Hv Hc Hr gray Hgray ts os D Hts Hos HD Hall); auto.
      destruct (Hxy q Hq) as (_ & _ & <-). destruct (Hxy q' Hq') as (_ & _ & <-). congruence. }
    rewrite <-(fmap_length uxy). apply Permutation_length. apply NoDup_Permutation; auto. intros [x y]. rewrite ME. split.
    - intros (q & Eq & Hq)%elem_of_list_fmap. apply Hmem in Hq as [Hq Hu]; [|done]. destruct (Hxy q Hq) as (Q1 & Q2 & Q3).
      rewrite <-Eq in *. cbn [fst snd] in *. split; [done|]. split; [done|]. rewrite Q3. by apply HU.
    - intros (Hx & Hy & Hu). destruct (u_pix_sur hpn vpn cols rows Hh Hv Hc Hr gray Hgray ts os D Hts Hos HD Hall (y * cols + x)) as (q & Hq & Eq); [nia|].
      apply elem_of_list_fmap. exists q. split.
      + unfold V1Union.uxy, vxy. rewrite Eq. destruct (coord cols y x Hx) as [-> ->]. done.
      + apply Hmem; [done|]. split; [done|]. rewrite Eq. by apply HU. }
  split; [|split; [done|split]].
  - rewrite <-Hlen, E4. apply point_dseg in Hch. destruct (seg r) as [|h' l']; [done|]. injection E3 as ->. exact Hch.
  - congruence.
  - intros y b Hb Hfb. pose proof (Hlv y b Hb Hfb) as Hly. split.
    + intros Hu. apply (l_nest _ _ _ _ _ _ _ _ _ _ _ _ _ HL r y Hlr Hly). apply Hre. by apply HU.
    + intros q Hq Hq'. rewrite <-!HU. eapply (meet_comparable _ _ _ _ _ _ _ HO); [exact HL|done..|exact Hq'|exact Hq].
Qed.
Lemma built_records F : wframe ts F -> v1_records (length R) (rows * cols) F.
Proof using All.
  intros HF. split_and!.
  - pose proof (f_equal length (wf_shape _ _ HF)) as H. rewrite !fmap_length in H. congruence.
  - rewrite (wframe_num _ _ HF). apply (u_num hpn vpn cols rows Hh Hv Hc Hr gray Hgray ts os D Hts Hos HD Hall).
  - intros k i a Ha. destruct (wframe_inv _ _ _ _ HF Ha) as [a0 Ha0]. destruct (wf_reg _ _ HF (k, i) a0 Ha0) as (a1 & Ha1 & W1 & _ & W3 & _ & W5).
    assert (a1 = a) as -> by congruence.
    destruct (u_reg hpn vpn cols rows Hh Hv Hc Hr gray Hgray ts os D Hts Hos HD Hall k i a0 Ha0)
      as (rr & regs & b & d & x & _ & _ & _ & _ & H5 & H6 & H7).
    destruct (vt_reg _ _ _ _ _ _ _ _ _ _ _ _ _ _ _ _ _ _ H5 i a0 x H6 H7) as (G1 & _ & Hfl0 & G4 & _ & _ & (_ & p & _ & _ & _ & G7) & _).
    split; [congruence|]. split; [|destruct W5; [left; congruence|by right]]. rewrite W1, G1, <-G7. apply Hgray.
Qed.
End built.

Section v1build.
Context (threads hpn vpn : nat) (img : list N) (cols rows : nat).
Context (Hgrid : v1_grid threads = Some (hpn, vpn)) (HI : v1_fits hpn vpn img cols rows).
Notation R := (rects hpn vpn cols rows).

Lemma v1_level gm p : gm = 0%N \/ gm = 255%N -> level img gm p <= 255.
Proof using HI.
  intros Hgm. assert (nth p img 0 < 256)%N as Hb.
  { destruct (img !! p) as [v|] eqn:Hv.
    - rewrite (nth_lookup_Some _ _ _ _ Hv). by eapply v1_byte.
    - rewrite nth_lookup, Hv. cbn. lia. }
  unfold level. destruct Hgm as [-> | ->].
  - rewrite N.lxor_0_r. lia.
  - rewrite lxor_byte by auto. lia.
Qed.
Lemma v1_pos : 0 < hpn /\ 0 < vpn /\ hpn <= cols /\ vpn <= rows /\ threads = vpn * hpn.
Proof using All.
  destruct (v1_cols _ _ _ _ _ HI) as [H1 _]. destruct (v1_rows _ _ _ _ _ HI) as [H2 _].
  destruct (plan_ok threads hpn vpn cols rows Hgrid) as (? & ? & ? & _); auto.
Qed.
Lemma v1_patch k r : R !! k = Some r -> vpatch_fits img cols (r_top r) (r_left r) (r_w r) (r_h r) /\
  r_w r * r_h r <= rows * cols.
Proof using All.
  intros Hk. destruct v1_pos as (Hh & Hv & Hc & Hr & _). pose proof HI as [I1 I2 I3 I4 _].
  destruct (rects_inside hpn vpn cols rows Hh Hv k r Hk) as [J1 J2].
  assert (0 < r_w r /\ 0 < r_h r) as [P1 P2].
  { destruct (rects_inv hpn vpn cols rows Hh Hv k r Hk) as (v & h & Hv' & Hh' & _ & ->). cbn [rect_at r_w r_h]. auto using cut_pos. }
  split; [|nia]. constructor; auto; try lia. etrans; [|exact I3]. apply Nat.mul_le_mono_r. lia.
Qed.
Lemma v1_misses gm k r : gm = 0%N \/ gm = 255%N -> R !! k = Some r -> misses_level img gm cols (r_top r) (r_left r) (r_w r) (r_h r).
Proof using All.
  intros Hgm Hk. destruct (v1_part _ _ _ _ _ HI k r Hk) as (v & Hv & Hm). destruct Hgm as [-> | ->]; [by exists v|].
  destruct (v1_patch k r Hk) as [[P1 P2 P3 P4 P5 _ _] _].
  exists (255 - v). split; [lia|]. intros p Hp He. apply (Hm p Hp).
  assert (nth p img 0 < 256)%N as Hb.
  { destruct (img !! p) as [u|] eqn:Hu.
    - rewrite (nth_lookup_Some _ _ _ _ Hu). eauto.
    - rewrite nth_lookup, Hu. cbn. lia. }
  unfold level in *. rewrite N.lxor_0_r. rewrite lxor_byte in He by auto. lia.
Qed.

(* the joins, once every partition is flooded *)
Lemma v1_join n fuel gm fresh ts os ds bs : gm = 0%N \/ gm = 255%N ->
  vflood_all n gm fresh img cols 0 R bs = Some (ts, os) ->
  length ts = length R -> length os = length R -> length ds = length R ->
  (forall k r, R !! k = Some r -> exists regs b d, ts !! k = Some regs /\ os !! k = Some b /\
    ds !! k = Some d /\ vpart_ok hpn vpn cols (level img gm) k r regs b d) ->
  rows * cols + 514 < fuel -> v1_points os <= fuel ->
  exists F os', vbuild n fuel threads gm fresh img cols rows bs = Some (F, os') /\
    v1_built img gm cols rows F (vb_pts <$> os') /\ v1_records threads (rows * cols) F /\ Forall2 v1_kept os os'.
Proof using All.
  intros Hgm Hfl L1 L2 L3 Hall Hf Hfp. destruct v1_pos as (Hh & Hv & Hc & Hr & _). pose proof HI as [_ _ I3 I4 _].
  pose proof (fun p => v1_level gm p Hgm) as Hlev.
  destruct (build_good hpn vpn cols rows Hh Hv Hc Hr (level img gm) Hlev ts os ds L1 L2 L3 Hall fuel Hf Hfp img gm threads Hgrid I3 I4)
    as (plan & st & E1 & E2 & HG & HW & HP).
  pose proof (good_nested hpn vpn cols rows Hh Hv Hc Hr (level img gm) Hlev ts os ds L1 L2 L3 Hall st HG HW HP) as HN.
  destruct (good_built hpn vpn cols rows Hh Hv Hc Hr (level img gm) Hlev ts os ds L1 L2 L3 Hall st HG HW HP) as (HT & H1 & HR).
  unfold vbuild. rewrite Hgrid. cbn zeta. rewrite Hfl, E1, E2. eexists _, _. split; [done|].
  destruct HP as [HP _].
  assert (length (e_pts st) = length os) as HL.
  { apply (f_equal length) in HP. by rewrite !fmap_length in HP. }
  assert (vb_pts <$> zip_with vset_pts os (e_pts st) = e_pts st) as Hpts.
  { clear -HL. revert HL. generalize (e_pts st) as P. induction os as [|b os' IH]; intros [|p P] HL; try done.
    cbn. f_equal. apply IH. cbn in HL. lia. }
  split.
  - rewrite Hpts. exists (ulab hpn vpn cols rows ds). split; [done|]. split; [done|]. split; [exact HN|]. exact HR.
  - split.
    { destruct v1_pos as (_ & _ & _ & _ & ->). rewrite <-(rects_length hpn vpn cols rows).
      apply (built_records hpn vpn cols rows Hh Hv Hc Hr (level img gm) Hlev ts os ds L1 L2 L3 Hall _ HW). }
    clear -HL HP. revert HL HP. generalize (e_pts st) as P. induction os as [|b os' IH]; intros [|p P] HL HP; try done.
    { constructor. }
    cbn in HP. injection HP as HP1 HP2. cbn. constructor; [|apply IH; [cbn in HL; lia|done]].
    split_and!; done.
Qed.

Lemma num2_same (P Q : list (list wpt)) : length <$> P = length <$> Q -> num2 P = num2 Q.
Proof. intros H. unfold num2. by rewrite H. Qed.
Lemma points_same (os bs : list vbuf) : length os = length bs ->
  (forall k b b', bs !! k = Some b -> os !! k = Some b' -> length (vb_pts b') = length (vb_pts b)) -> v1_points os = v1_points bs.
Proof.
  clear. revert bs. induction os as [|b' os IH]; intros [|b bs] Hl H; try done.
  unfold v1_points, num2 in *. cbn. rewrite (H 0 b b') by done. f_equal. apply IH; [by injection Hl|].
  intros k c c' Hc Hc'. by apply (H (S k)).
Qed.

Lemma v1_build_ok n fuel gm bs : gm = 0%N \/ gm = 255%N -> v1_bufs hpn vpn cols rows bs ->
  6 * (rows * cols) < n -> rows * cols + 514 < fuel -> v1_points bs <= fuel ->
  exists F os, vbuild n fuel threads gm true img cols rows bs = Some (F, os) /\
    v1_built img gm cols rows F (vb_pts <$> os) /\ v1_records threads (rows * cols) F /\
    (gm = 0%N -> forall os', Forall2 v1_kept os os' -> exists F2 os2,
       vbuild n fuel threads 255 false img cols rows os' = Some (F2, os2) /\
       v1_built img 255 cols rows F2 (vb_pts <$> os2) /\ v1_records threads (rows * cols) F2).
Proof using All.
  intros Hgm [Hlen Hbs] Hn Hf Hfp. destruct v1_pos as (Hh & Hv & Hc & Hr & _).
  assert (length R = length bs) as HlR by (rewrite rects_length; lia).
  destruct (vflood_all_ok n gm true img cols
    (fun k r regs b d => vpart_ok hpn vpn cols (level img gm) k r regs b d /\
       vbuf_done cols (r_top r) (r_left r) (r_w r) (r_h r) (level img gm)
         (has_left hpn k) (has_right hpn k) (has_top hpn k) (has_bot hpn (vpn * hpn) k) b /\
       (forall b0, bs !! k = Some b0 -> length (vb_pts b) = length (vb_pts b0))) R bs 0 HlR)
    as (ts & os & ds & E1 & L1 & L2 & L3 & HQ).
  { intros k r b Hk Hb. destruct (v1_patch k r Hk) as [HP Ha]. specialize (Hbs k r b Hk Hb).
    destruct (vfresh_pass img cols (r_top r) (r_left r) (r_w r) (r_h r) (0 + k) (has_left hpn k) (has_right hpn k)
      (has_top hpn k) (has_bot hpn (vpn * hpn) k) HP gm n b Hgm (v1_misses gm k r Hgm Hk) Hbs ltac:(lia))
      as (regs & b' & aregs & lab & dn & seg & E & Ht & Hd).
    exists regs, b', (VData aregs lab dn seg). split; [done|]. split; [done|]. split; [done|].
    intros b0 Hb0. cbn [Nat.add] in Hb0. assert (b0 = b) as -> by congruence. by eapply vmake_tree_len. }
  cbn [Nat.add] in HQ.
  assert (v1_points os = v1_points bs) as Hpe.
  { apply points_same; [congruence|]. intros k b b' Hb Hb'. destruct (lookup_lt_is_Some_2 R k) as [r Hk].
    { rewrite <-L2. by eapply lookup_lt_Some. }
    destruct (HQ k r Hk) as (regs & b2 & d & _ & Hb2 & _ & _ & _ & Hl). assert (b2 = b') as -> by congruence. auto. }
  destruct (v1_join n fuel gm true ts os ds bs) as (F & os1 & E2 & HB & HRec & HK); auto.
  { intros k r Hk. destruct (HQ k r Hk) as (regs & b & d & ? & ? & ? & ? & _). exists regs, b, d. auto. }
  { congruence. }
  exists F, os1. split; [done|]. split; [done|]. split; [done|]. intros -> os' HK'.
  assert (Forall2 v1_kept os os') as HKK.
  { clear -HK HK'. revert os' HK'. induction HK as [|b b1 os os1 Hb _ IH]; intros os' HK'.
    - by apply Forall2_nil_inv_l in HK' as ->.
    - apply Forall2_cons_inv_l in HK' as (b' & os'' & Hb' & HK' & ->). constructor; auto.
      destruct Hb as (A1 & A2 & A3 & A4 & A5 & A6), Hb' as (B1 & B2 & B3 & B4 & B5 & B6). split_and!; congruence. }
  clear HK HK' E2 HB HRec F os1. pose proof (Forall2_length _ _ _ HKK) as HlK.
  destruct (vflood_all_ok n 255 false img cols
    (fun k r regs b d => vpart_ok hpn vpn cols (level img 255) k r regs b d /\
       (forall b0, os' !! k = Some b0 -> length (vb_pts b) = length (vb_pts b0))) R os' 0)
    as (ts2 & os2 & ds2 & E2 & M1 & M2 & M3 & HQ2). { congruence. }
  { intros k r b Hk Hb. destruct (v1_patch k r Hk) as [HP Ha].
    destruct (HQ k r Hk) as (regs & b1 & d & _ & Hb1 & _ & _ & Hd & _).
    destruct (Forall2_lookup_lr _ _ _ _ _ _ HKK Hb1 Hb) as (K1 & K2 & K3 & K4 & K5 & K6).
    destruct (vreuse_pass img cols (r_top r) (r_left r) (r_w r) (r_h r) (0 + k) (has_left hpn k) (has_right hpn k)
      (has_top hpn k) (has_bot hpn (vpn * hpn) k) HP n b (v1_misses 255 k r ltac:(auto) Hk))
      as (regs2 & b2 & aregs & lab & dn & seg & E & Ht); [|lia|].
    - destruct Hd as [[O1 O2 O3 O4 O5 O6 O7 O8 O9] D1 D2 D3 D4].
      constructor; [constructor|..]; rewrite ?K1, ?K2, ?K3, ?K4, ?K5, ?K6; auto.
    - exists regs2, b2, (VData aregs lab dn seg). split; [done|]. split; [done|].
      intros b0 Hb0. cbn [Nat.add] in Hb0. assert (b0 = b) as -> by congruence. by eapply vmake_tree_len. }
  cbn [Nat.add] in HQ2.
  assert (v1_points os' = v1_points os) as Hp1.
  { apply points_same; [done|]. intros k b b' Hb Hb'. by destruct (Forall2_lookup_lr _ _ _ _ _ _ HKK Hb Hb') as (_ & _ & _ & _ & _ & ?). }
  assert (v1_points os2 = v1_points os') as Hp2.
  { apply points_same; [congruence|]. intros k b b' Hb Hb'. destruct (lookup_lt_is_Some_2 R k) as [r Hk].
    { rewrite <-M2. by eapply lookup_lt_Some. }
    destruct (HQ2 k r Hk) as (regs & b2 & d & _ & Hb2 & _ & _ & Hl). assert (b2 = b') as -> by congruence. auto. }
  destruct (v1_join n fuel 255 false ts2 os2 ds2 os') as (F2 & os3 & E3 & HB2 & HR2 & _); auto.
  { intros k r Hk. destruct (HQ2 k r Hk) as (regs & b & d & ? & ? & ? & ? & _). exists regs, b, d. auto. }
  { congruence. }
  exists F2, os3. auto.
Qed.
End v1build.
