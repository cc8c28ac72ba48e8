(* Fast MSER V1's build in terms of connected components: every surviving region lists
   one extremal region of the image, every extremal region is listed once, and the result
   does not depend on the number of partitions. *)
From stdpp Require Import sorting relations functions list.
From Coq Require Import NArith ZArith.
From Verif Require Import Spec TreeSpec TreeFacts JoinMath FloodModel FloodInit FloodTree FloodCorrect Grid FloodAbs ConnectModel ConnectProof PartModel WholeModel WholeProof WholeCorrect JoinCorrect
  V1JoinModel V1Heap V1Model V1FloodInit V1BuildModel V1AllocModel V1Build V1Alloc.
Local Open Scope nat_scope.

(* SPEC: the pixels (column, row) in the list of region a, in list order *)
Definition v1_pixels (P : list (list wpt)) (a : wreg) (l : list (nat * nat)) : Prop :=
  pixel_walk P (Z.to_nat (w_size a)) (w_head a) = Some l.
(* SPEC: region r survives: it is in the table and not merged into its parent *)
Definition v1_live (F : list (list wreg)) (r : rref) (a : wreg) : Prop := get2 F r = Some a /\ w_flag a <> 3.
(* SPEC: the four-connected image with the levels of the pass (gm = 0 or 255) *)
Definition v1_image (img : list N) (gm : N) (cols rows : nat) : view := rect_view cols 0 0 cols rows (level img gm).

(* SPEC: regions and pixel lists are those of the image:
   - the list of a surviving region has size many different pixels, which are an extremal
     region of the region's level (a connected component of the pixels of at most this
     level, with a pixel of this level); its box is tight, its tail is the last pixel;
   - every extremal region is listed by a surviving region of its level, and only one;
   - a region is a descendant of another one iff its pixels are among the other's;
   - one region has no parent *)
Record v1_components (img : list N) (gm : N) (cols rows : nat) (F : list (list wreg)) (P : list (list wpt)) : Prop := {
  vc_region : forall r a, v1_live F r a -> exists l, v1_pixels P a l /\ NoDup l /\ Z.of_nat (length l) = w_size a /\
    w_un a = w_size a /\ w_flag a = 0 /\ (forall x y, (x, y) ∈ l -> x < cols /\ y < rows) /\
    extremal (v1_image img gm cols rows) (w_gray a) (fun p => (p mod cols, p / cols) ∈ l) /\
    tight_box a l /\ exists t p, w_tail a = Some t /\ get2 P t = Some p /\ last l = Some (t_x p, t_y p);
  vc_every : forall g S, extremal (v1_image img gm cols rows) g S -> exists r a l, v1_live F r a /\ w_gray a = g /\
    v1_pixels P a l /\ forall x y, (x, y) ∈ l <-> x < cols /\ y < rows /\ S (y * cols + x);
  vc_once : forall r a l r' a' l', v1_live F r a -> v1_live F r' a' -> v1_pixels P a l -> v1_pixels P a' l' ->
    (forall x y, (x, y) ∈ l <-> (x, y) ∈ l') -> r = r';
  vc_nested : forall r a l r' a' l', v1_live F r a -> v1_live F r' a' -> v1_pixels P a l -> v1_pixels P a' l' ->
    (vunder (v1_table F) r r' <-> forall x y, (x, y) ∈ l -> (x, y) ∈ l');
  vc_root : one_root (v1_table F)
}.

Lemma walk_len P n : forall o l, pixel_walk P n o = Some l -> length l = n.
Proof.
  induction n as [|n IH]; intros o l; cbn [pixel_walk]; [by intros [= <-]|]. destruct o as [q|]; [|done].
  destruct (get2 P q) as [t|]; [|done]. destruct (pixel_walk P n (t_next t)) as [l'|] eqn:E; [|done].
  intros [= <-]. cbn. f_equal. by eapply IH.
Qed.

Lemma px_off cols x y : x < cols -> (y * cols + x) mod cols = x /\ (y * cols + x) / cols = y.
Proof.
  intros Hx. split.
  - rewrite Nat.add_comm, Nat.mod_add by lia. by apply Nat.mod_small.
  - rewrite Nat.add_comm, Nat.div_add by lia. rewrite Nat.div_small by auto. lia.
Qed.
Lemma off_px cols p : 0 < cols -> (p / cols) * cols + p mod cols = p.
Proof. intros. rewrite Nat.mul_comm. symmetry. apply Nat.div_mod. lia. Qed.

Lemma image_sym img gm cols rows : vsym (v1_image img gm cols rows).
Proof. intros p q. cbn. unfold adj4. intuition. Qed.
Lemma image_in img gm cols rows x y : 0 < cols -> x < cols -> (vw_in (v1_image img gm cols rows) (y * cols + x) <-> y < rows).
Proof. intros Hc Hx. cbn. unfold in_rect. destruct (px_off cols x y Hx) as [-> ->]. lia. Qed.
Lemma image_mod img gm cols rows p : 0 < cols -> vw_in (v1_image img gm cols rows) p -> p mod cols < cols /\ p / cols < rows.
Proof. intros Hc. cbn. unfold in_rect. lia. Qed.

Lemma built_components img gm cols rows F P : 0 < cols -> v1_built img gm cols rows F P -> v1_components img gm cols rows F P.
Proof.
  intros Hc (lab & HT & Hroot & _ & Hreg). change (whole_view cols rows (level img gm)) with (v1_image img gm cols rows) in HT.
  set (V := v1_image img gm cols rows) in *.
  destruct (tree_extremal V lab (v1_table F) (image_sym img gm cols rows) HT) as (E1 & E2 & E3 & E4).
  assert (forall r a, v1_live F r a -> exists v, v1_table F r = Some v /\ v_live v = true /\ v_gray v = w_gray a) as Hlv.
  { intros r a [Ha Hf]. eexists. split; [unfold v1_table; rewrite Ha; reflexivity|]. split; [|done]. cbn.
    destruct (Nat.eqb_spec (w_flag a) 3); done. }
  assert (forall r v, v1_table F r = Some v -> v_live v = true -> exists a, v1_live F r a /\ v_gray v = w_gray a) as Hvl.
  { intros r v Hv Hl. unfold v1_table in Hv. destruct (get2 F r) as [a|] eqn:Ha; [|done]. injection Hv as <-. cbn in Hl.
    exists a. split; [|done]. split; auto. intros E. by rewrite E in Hl. }
  assert (forall r a l, v1_live F r a -> v1_pixels P a l -> forall x y, (x, y) ∈ l <->
    x < cols /\ y < rows /\ region_pixels V lab (v1_table F) r (y * cols + x)) as Hpx.
  { intros r a l [Ha Hf] Hl x y. destruct (Hreg r a Ha Hf) as (_ & _ & _ & l' & W & _ & M & _).
    unfold v1_pixels in Hl. rewrite W in Hl. injection Hl as <-. rewrite M. unfold region_pixels.
    split; [|by intros (? & ? & _ & ?)]. intros (Hx & Hy & Hu). split; [auto|split; [auto|split; [|auto]]]. by apply image_in. }
  assert (forall r a l, v1_live F r a -> v1_pixels P a l -> forall p, region_pixels V lab (v1_table F) r p <->
    (p mod cols, p / cols) ∈ l) as Hpo.
  { intros r a l Ha Hl p. rewrite (Hpx r a l Ha Hl), off_px by auto. split; [|tauto]. intros Hp.
    destruct (image_mod img gm cols rows p Hc (proj1 Hp)). auto. }
  constructor.
  - intros r a Ha. pose proof Ha as [Hg Hf]. destruct (Hreg r a Hg Hf) as (G1 & G2 & G3 & l & W & ND & M & HH & HL & TB).
    exists l. pose proof (walk_len _ _ _ _ W) as Hlen. split_and!; auto.
    + lia.
    + intros x y Hxy. apply M in Hxy. tauto.
    + destruct (Hlv r a Ha) as (v & V1 & V2 & V3). destruct (E1 r v V1 V2) as (p0 & P1 & P2 & P3).
      exists p0. split; auto. split; [by rewrite <-V3|]. intros p. rewrite <-V3. rewrite <-(Hpo r a l Ha W p). apply P3.
  - intros g S HS. destruct (E2 g S HS) as (r & v & V1 & V2 & V3 & V4). destruct (Hvl r v V1 V2) as (a & Ha & Hga).
    pose proof Ha as [Hg Hf]. destruct (Hreg r a Hg Hf) as (_ & _ & _ & l & W & _ & _).
    exists r, a, l. split; auto. split; [congruence|]. split; auto. intros x y. rewrite (Hpx r a l Ha W), V4. done.
  - intros r a l r' a' l' Ha Ha' Hl Hl' He. destruct (Hlv r a Ha) as (v & V1 & V2 & _). destruct (Hlv r' a' Ha') as (v' & V1' & V2' & _).
    apply (E3 r v r' v'); auto. intros p. rewrite (Hpo r a l Ha Hl), (Hpo r' a' l' Ha' Hl'). apply He.
  - intros r a l r' a' l' Ha Ha' Hl Hl'. destruct (Hlv r a Ha) as (v & V1 & V2 & _). destruct (Hlv r' a' Ha') as (v' & V1' & V2' & _).
    rewrite (E4 r v r' v') by auto. split.
    + intros He x y Hxy. pose proof Hxy as Hx2. apply (Hpx r a l Ha Hl) in Hxy as (Hx & Hy & Hp).
      apply (Hpx r' a' l' Ha' Hl'). auto.
    + intros He p. rewrite (Hpo r a l Ha Hl), (Hpo r' a' l' Ha' Hl'). apply He.
  - done.
Qed.

(* SPEC: a and a' list the same pixels and have the same level, size and box *)
Definition v1_same (P P' : list (list wpt)) (a a' : wreg) : Prop :=
  w_gray a = w_gray a' /\ w_size a = w_size a' /\ w_un a = w_un a' /\
  w_left a = w_left a' /\ w_right a = w_right a' /\ w_top a = w_top a' /\ w_bot a = w_bot a' /\
  exists l l', v1_pixels P a l /\ v1_pixels P' a' l' /\ Permutation l l'.

Lemma box_unique a a' l l' : tight_box a l -> tight_box a' l' -> (forall x y, (x, y) ∈ l <-> (x, y) ∈ l') ->
  w_left a = w_left a' /\ w_right a = w_right a' /\ w_top a = w_top a' /\ w_bot a = w_bot a'.
Proof.
  intros (A & [y1 A1] & [y2 A2] & [x1 A3] & [x2 A4]) (B & [y3 B1] & [y4 B2] & [x3 B3] & [x4 B4]) He.
  pose proof (B _ _ (proj1 (He _ _) A1)). pose proof (B _ _ (proj1 (He _ _) A2)).
  pose proof (B _ _ (proj1 (He _ _) A3)). pose proof (B _ _ (proj1 (He _ _) A4)).
  pose proof (A _ _ (proj2 (He _ _) B1)). pose proof (A _ _ (proj2 (He _ _) B2)).
  pose proof (A _ _ (proj2 (He _ _) B3)). pose proof (A _ _ (proj2 (He _ _) B4)). lia.
Qed.

Lemma components_match img gm cols rows F P F' P' : 0 < cols ->
  v1_components img gm cols rows F P -> v1_components img gm cols rows F' P' ->
  forall r a, v1_live F r a -> exists r' a', v1_live F' r' a' /\ v1_same P P' a a'.
Proof.
  intros Hc C C' r a Ha. destruct (vc_region _ _ _ _ _ _ C r a Ha) as (l & L1 & L2 & L3 & L4 & _ & L5 & L6 & L7 & _).
  destruct (vc_every _ _ _ _ _ _ C' _ _ L6) as (r' & a' & l' & Ha' & Hg & Hl' & Hm).
  exists r', a'. split; auto. destruct (vc_region _ _ _ _ _ _ C' r' a' Ha') as (l2 & M1 & M2 & M3 & M4 & _ & _ & _ & M7 & _).
  unfold v1_pixels in Hl', M1. rewrite Hl' in M1. injection M1 as <-.
  assert (forall x y, (x, y) ∈ l <-> (x, y) ∈ l') as He.
  { intros x y. rewrite Hm. split.
    - intros Hxy. destruct (L5 x y Hxy) as [Hx Hy]. destruct (px_off cols x y Hx) as [-> ->]. auto.
    - intros (Hx & Hy & Hp). by destruct (px_off cols x y Hx) as [-> ->] in Hp. }
  assert (Permutation l l') as Hperm by (apply NoDup_Permutation; auto; intros [x y]; apply He).
  pose proof (Permutation_length Hperm). destruct (box_unique a a' l l' L7 M7 He) as (B1 & B2 & B3 & B4).
  unfold v1_same. split_and!; auto; try lia. exists l, l'. auto.
Qed.

(* SPEC: conditions under which allocation and building are run: the image fits the grid,
   sizes stay below 2^31, the arrays have the allocated sizes with any contents, and the
   bounds on loop iterations (n for the flood, fuel for the joins) are large enough *)
Record v1_setup (threads hpn vpn : nat) (img : list N) (cols rows n fuel : nat) (m : vmem)
  (pinfo : list (list nat * list nat)) : Prop := {
  st_grid : v1_grid threads = Some (hpn, vpn);
  st_fits : v1_fits hpn vpn img cols rows;
  st_points : (N.of_nat ((cols + 2 * hpn) * (rows + 2 * vpn)) < 2 ^ 31)%N;
  st_heap : (N.of_nat (rows * cols + 257 * threads) < 2 ^ 31)%N;
  st_mem : vmem_sized threads hpn vpn cols rows m;
  st_pinfo : pinfo_sized threads pinfo;
  st_n : 6 * (rows * cols) < n;
  st_fuel : rows * cols + 514 < fuel;
  st_fuel2 : (cols + 2 * hpn) * (rows + 2 * vpn) <= fuel
}.

Lemma setup_cols threads hpn vpn img cols rows n fuel m pinfo :
  v1_setup threads hpn vpn img cols rows n fuel m pinfo -> 0 < cols.
Proof. intros HS. destruct (grid_prod _ _ _ (st_grid _ _ _ _ _ _ _ _ _ _ HS)). destruct (st_fits _ _ _ _ _ _ _ _ _ _ HS). lia. Qed.

Lemma v1_alloc_build threads hpn vpn img cols rows n fuel m pinfo gm :
  v1_setup threads hpn vpn img cols rows n fuel m pinfo -> gm = 0%N \/ gm = 255%N ->
  exists bs F os, valloc threads cols rows m pinfo = Some bs /\
    vbuild n fuel threads gm true img cols rows bs = Some (F, os) /\
    v1_components img gm cols rows F (vb_pts <$> os) /\
    (gm = 0%N -> forall os', Forall2 v1_kept os os' -> exists F2 os2,
       vbuild n fuel threads 255 false img cols rows os' = Some (F2, os2) /\
       v1_components img 255 cols rows F2 (vb_pts <$> os2)).
Proof.
  intros HS Hgm. pose proof (setup_cols _ _ _ _ _ _ _ _ _ _ HS) as Hc. destruct HS as [S1 S2 S3 S4 S5 S6 S7 S8 S9].
  destruct (valloc_ok _ _ _ _ _ _ _ S1 S3 S4 S5 S6) as (ss & bs & _ & _ & _ & _ & _ & _ & Ha & Hb & Hp).
  destruct (v1_build_ok threads hpn vpn img cols rows S1 S2 n fuel gm bs Hgm Hb S7 S8) as (F & os & E & HB & _ & H2); [lia|].
  exists bs, F, os. split; auto. split; auto. split; [by apply built_components|].
  intros Hg os' Hk. destruct (H2 Hg os' Hk) as (F2 & os2 & E2 & HB2 & _). exists F2, os2. split; auto. by apply built_components.
Qed.

(* allocation and the dark or bright pass on fresh memory *)
Lemma v1_fresh_pass threads hpn vpn img cols rows n fuel m pinfo gm :
  v1_setup threads hpn vpn img cols rows n fuel m pinfo -> gm = 0%N \/ gm = 255%N ->
  exists bs F os, valloc threads cols rows m pinfo = Some bs /\
    vbuild n fuel threads gm true img cols rows bs = Some (F, os) /\
    v1_components img gm cols rows F (vb_pts <$> os).
Proof. intros HS Hgm. destruct (v1_alloc_build _ _ _ _ _ _ _ _ _ _ _ HS Hgm) as (bs & F & os & H1 & H2 & H3 & _). eauto 6. Qed.

(* the bright pass on the memory of the dark pass *)
Lemma v1_second_pass threads hpn vpn img cols rows n fuel m pinfo :
  v1_setup threads hpn vpn img cols rows n fuel m pinfo ->
  forall bs F os os', valloc threads cols rows m pinfo = Some bs ->
    vbuild n fuel threads 0 true img cols rows bs = Some (F, os) -> Forall2 v1_kept os os' ->
    exists F2 os2, vbuild n fuel threads 255 false img cols rows os' = Some (F2, os2) /\
      v1_components img 255 cols rows F2 (vb_pts <$> os2).
Proof.
  intros HS bs F os os' Ha Hb Hk. destruct (v1_alloc_build _ _ _ _ _ _ _ _ _ _ _ HS (or_introl eq_refl)) as (bs' & F' & os0 & H1 & H2 & _ & H3).
  rewrite H1 in Ha. injection Ha as <-. rewrite H2 in Hb. injection Hb as <- <-. by apply H3.
Qed.

(* SPEC: the surviving regions of two results are the same sets of pixels with the same
   level, size and box *)
Definition v1_agree (F : list (list wreg)) (P : list (list wpt)) (F' : list (list wreg)) (P' : list (list wpt)) : Prop :=
  (forall r a, v1_live F r a -> exists r' a', v1_live F' r' a' /\ v1_same P P' a a') /\
  (forall r' a', v1_live F' r' a' -> exists r a, v1_live F r a /\ v1_same P P' a a').

Lemma same_swap P P' a a' : v1_same P' P a' a -> v1_same P P' a a'.
Proof.
  intros (H1 & H2 & H3 & H4 & H5 & H6 & H7 & l & l' & L1 & L2 & L3). unfold v1_same. split_and!; auto.
  exists l', l. split; auto. split; auto. by symmetry.
Qed.

Lemma v1_threads_agree threads hpn vpn threads' hpn' vpn' img cols rows n fuel m pinfo n' fuel' m' pinfo' gm :
  v1_setup threads hpn vpn img cols rows n fuel m pinfo ->
  v1_setup threads' hpn' vpn' img cols rows n' fuel' m' pinfo' -> gm = 0%N \/ gm = 255%N ->
  forall bs bs' F os F' os', valloc threads cols rows m pinfo = Some bs -> valloc threads' cols rows m' pinfo' = Some bs' ->
    vbuild n fuel threads gm true img cols rows bs = Some (F, os) ->
    vbuild n' fuel' threads' gm true img cols rows bs' = Some (F', os') ->
    v1_agree F (vb_pts <$> os) F' (vb_pts <$> os').
Proof.
  intros HS HS' Hgm bs bs' F os F' os' A A' B B'. pose proof (setup_cols _ _ _ _ _ _ _ _ _ _ HS) as Hc.
  destruct (v1_fresh_pass _ _ _ _ _ _ _ _ _ _ _ HS Hgm) as (c & G & ot & H1 & H2 & H3).
  rewrite H1 in A. injection A as <-. rewrite H2 in B. injection B as <- <-.
  destruct (v1_fresh_pass _ _ _ _ _ _ _ _ _ _ _ HS' Hgm) as (c' & G' & ot' & H1' & H2' & H3').
  rewrite H1' in A'. injection A' as <-. rewrite H2' in B'. injection B' as <- <-.
  split.
  - by eapply components_match.
  - intros r' a' Ha'. destruct (components_match _ _ _ _ _ _ _ _ Hc H3' H3 r' a' Ha') as (r & a & Ha & Hs).
    exists r, a. split; auto. by apply same_swap.
Qed.

(* SPEC: region r of V2's table has the pixels l *)
Definition v2_region (img : list N) (gm : N) (cols rows : nat) (lab : nat -> rref) (F : forest) (r : rref) (b : greg)
  (l : list (nat * nat)) : Prop :=
  fget F r = Some b /\ g_flag b <> 3 /\
  forall x y, (x, y) ∈ l <-> x < cols /\ y < rows /\ vunder (tab F) (lab (y * cols + x)) r.

Lemma v1_v2_match img gm cols rows hpn vpn F P G os lab : 0 < cols ->
  v1_components img gm cols rows F P -> whole_ok hpn vpn img gm cols rows G os lab ->
  (forall r a, v1_live F r a -> exists l r' b, v1_pixels P a l /\ v2_region img gm cols rows lab G r' b l /\
     g_gray b = w_gray a /\ Z.of_nat (g_size b) = w_size a) /\
  (forall r' b, fget G r' = Some b -> g_flag b <> 3 -> exists l r a, v1_live F r a /\ v1_pixels P a l /\
     v2_region img gm cols rows lab G r' b l /\ g_gray b = w_gray a /\ Z.of_nat (g_size b) = w_size a).
Proof.
  intros Hc C W. pose proof (wk_tree _ _ _ _ _ _ _ _ _ W) as HT. change (rect_view cols 0 0 cols rows (level img gm)) with (v1_image img gm cols rows) in HT.
  set (V := v1_image img gm cols rows) in *.
  destruct (tree_extremal V lab (tab G) (image_sym img gm cols rows) HT) as (E1 & E2 & E3 & E4).
  assert (forall r' b l, fget G r' = Some b -> g_flag b <> 3 -> NoDup l ->
    (forall x y, (x, y) ∈ l <-> x < cols /\ y < rows /\ region_pixels V lab (tab G) r' (y * cols + x)) ->
    v2_region img gm cols rows lab G r' b l /\ g_size b = length l) as Hreg.
  { intros r' b l Hb Hf Hn Hm. assert (tab G r' = Some (vr b)) as Ht by (unfold tab; by rewrite Hb).
    assert (v_live (vr b) = true) as Hl by (cbn; destruct (Nat.eqb_spec (g_flag b) 3); done).
    split.
    - split; auto. split; auto. intros x y. rewrite Hm. unfold region_pixels. split; [by intros (? & ? & _ & ?)|].
      intros (Hx & Hy & Hu). split; [auto|split; [auto|split; [|auto]]]. by apply image_in.
    - pose proof (ct_size _ _ _ HT r' _ Ht Hl) as Hcard. apply (card_unique _ _ _ Hcard).
      exists ((fun xy => snd xy * cols + fst xy) <$> l). split; [|split; [|by rewrite fmap_length]].
      + apply NoDup_fmap_2_strong; auto. intros [x y] [x' y'] Hxy Hxy' He. cbn in He.
        apply Hm in Hxy as (Hx & _). apply Hm in Hxy' as (Hx' & _).
        destruct (px_off cols x y Hx) as [A1 A2]. destruct (px_off cols x' y' Hx') as [B1 B2]. rewrite He in A1, A2. congruence.
      + intros p. rewrite elem_of_list_fmap. split.
        * intros ([x y] & -> & Hxy). cbn. apply Hm in Hxy as (Hx & Hy & Hp). exact Hp.
        * intros Hp. exists (p mod cols, p / cols). cbn. rewrite off_px by auto. split; auto. apply Hm. rewrite off_px by auto.
          destruct (image_mod img gm cols rows p Hc (proj1 Hp)). auto. }
  split.
  - intros r a Ha. destruct (vc_region _ _ _ _ _ _ C r a Ha) as (l & L1 & L2 & L3 & L4 & _ & L5 & L6 & _).
    destruct (E2 _ _ L6) as (r' & v & V1 & V2 & V3 & V4). unfold tab in V1. destruct (fget G r') as [b|] eqn:Hb; [|done]. injection V1 as <-.
    cbn in V2, V3. assert (g_flag b <> 3) as Hf by (intros E; by rewrite E in V2).
    destruct (Hreg r' b l Hb Hf L2) as (R1 & R2).
    { intros x y. rewrite <-V4. split.
      - intros Hxy. destruct (L5 x y Hxy) as [Hx Hy]. destruct (px_off cols x y Hx) as [-> ->]. auto.
      - intros (Hx & Hy & Hp). by destruct (px_off cols x y Hx) as [-> ->] in Hp. }
    exists l, r', b. split; auto. split; auto. split; auto. lia.
  - intros r' b Hb Hf. assert (tab G r' = Some (vr b)) as Ht by (unfold tab; by rewrite Hb).
    assert (v_live (vr b) = true) as Hl by (cbn; destruct (Nat.eqb_spec (g_flag b) 3); done).
    pose proof (E1 r' _ Ht Hl) as HE. destruct (vc_every _ _ _ _ _ _ C _ _ HE) as (r & a & l & Ha & Hg & Hl1 & Hm).
    destruct (vc_region _ _ _ _ _ _ C r a Ha) as (l2 & L1 & L2 & L3 & _). unfold v1_pixels in L1, Hl1. rewrite Hl1 in L1. injection L1 as <-.
    destruct (Hreg r' b l Hb Hf L2 Hm) as (R1 & R2). exists l, r, a. split; auto. split; auto. split; auto. split; auto. lia.
Qed.

Lemma kept_refl os : Forall2 v1_kept os os.
Proof. induction os; constructor; auto. unfold v1_kept. auto 10. Qed.

Lemma v1_v2_runs threads hpn vpn img cols rows n fuel m pinfo threads' hpn' vpn' n' fuel' bs' :
  v1_setup threads hpn vpn img cols rows n fuel m pinfo ->
  grid_of threads' = Some (hpn', vpn') -> image_fits hpn' vpn' img cols rows -> length bs' = threads' ->
  (forall k r b, rects hpn' vpn' cols rows !! k = Some r -> bs' !! k = Some b -> buf_alloc (r_w r) (r_h r) b) ->
  6 * (rows * cols) < n' -> rows * cols + 514 < fuel' ->
  exists bs F os G os' lab, valloc threads cols rows m pinfo = Some bs /\
    vbuild n fuel threads 0 true img cols rows bs = Some (F, os) /\
    build_tree n' fuel' threads' 0 true img cols rows bs' = Some (G, os') /\
    whole_ok hpn' vpn' img 0 cols rows G os' lab /\
    (forall r a, v1_live F r a -> exists l r' b, v1_pixels (vb_pts <$> os) a l /\ v2_region img 0 cols rows lab G r' b l /\
       g_gray b = w_gray a /\ Z.of_nat (g_size b) = w_size a) /\
    (forall r' b, fget G r' = Some b -> g_flag b <> 3 -> exists l r a, v1_live F r a /\ v1_pixels (vb_pts <$> os) a l /\
       v2_region img 0 cols rows lab G r' b l /\ g_gray b = w_gray a /\ Z.of_nat (g_size b) = w_size a).
Proof.
  intros HS Hg HI Hl Hb Hn Hf. destruct (v1_fresh_pass _ _ _ _ _ _ _ _ _ _ _ HS (or_introl eq_refl)) as (bs & F & os & H1 & H2 & H3).
  destruct (build_ok threads' hpn' vpn' img cols rows Hg HI n' fuel' bs' Hl Hb Hn Hf) as (G & os' & lab & E & W & _).
  destruct (v1_v2_match img 0 cols rows hpn' vpn' F _ G os' lab (setup_cols _ _ _ _ _ _ _ _ _ _ HS) H3 W) as (M1 & M2).
  exists bs, F, os, G, os', lab. auto 10.
Qed.
