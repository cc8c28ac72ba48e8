(* build_tree gives the component tree of the whole image, in both passes. *)
From stdpp Require Import sorting relations functions list.
From Coq Require Import NArith.
From Verif Require Import Spec TreeSpec TreeFacts JoinMath Grid FloodModel FloodInit FloodTree FloodCorrect
  ConnectModel ConnectProof PartModel PartProof MergeProof WholeModel WholeProof.

(* SPEC: an image that build_tree accepts for a partition grid: byte samples, at
   least one pixel per partition, sizes within 31 bits (29 bits per partition),
   and in every partition some grey value does not occur *)
Record image_fits (hpn vpn : nat) (img : list N) (cols rows : nat) : Prop := {
  if_cols : hpn <= cols;
  if_rows : vpn <= rows;
  if_len : rows * cols <= length img;
  if_byte : forall i v, img !! i = Some v -> (v < 256)%N;
  if_small : (N.of_nat (rows * cols) < 2 ^ 31)%N;
  if_part : forall k r, rects hpn vpn cols rows !! k = Some r ->
    (N.of_nat (r_w r * r_h r) < 2 ^ 29)%N /\
    misses_level img 0 cols (r_top r) (r_left r) (r_w r) (r_h r)
}.

(* SPEC: what build_tree leaves behind: the component tree of the image with one
   root; regions know their index and partition and are unclassified or merged;
   the word of each pixel holds the finished mark plus the index of its region;
   a partition has at most one region per pixel *)
Record whole_ok (hpn vpn : nat) (img : list N) (gm : N) (cols rows : nat)
  (F : forest) (os : list fbuf) (lab : nat -> rref) : Prop := {
  wk_tree : ctree (rect_view cols 0 0 cols rows (level img gm)) lab (tab F);
  wk_root : one_root (tab F);
  wk_len : length F = vpn * hpn;
  wk_reg : forall k i a, fget F (k, i) = Some a -> g_idx a = i /\ g_patch a = k /\
    g_gray a <= 255 /\ (g_flag a = 0 \/ g_flag a = 3);
  wk_word : forall k r y x, rects hpn vpn cols rows !! k = Some r -> y < r_h r -> x < r_w r ->
    exists b i, os !! k = Some b /\ lab ((r_top r + y) * cols + (r_left r + x)) = (k, i) /\
      b_pts b !! ((y + 1) * (r_w r + 2) + (x + 1)) = Some (5 * 2 ^ 29 + N.of_nat i)%N;
  wk_count : forall k r l, rects hpn vpn cols rows !! k = Some r -> F !! k = Some l -> length l <= r_w r * r_h r;
  wk_total : nregs F <= rows * cols
}.

(* SPEC: the buffers b' differ from b only in the words of the pixels of the partition r
   and in the contents of the boundary stacks *)
Definition reused (r : prect) (b b' : fbuf) : Prop :=
  length (b_pts b') = length (b_pts b) /\
  (forall i, (forall y x, y < r_h r -> x < r_w r -> i <> (y + 1) * (r_w r + 2) + (x + 1)) -> b_pts b' !! i = b_pts b !! i) /\
  b_ext b' = b_ext b /\ b_lvl b' = b_lvl b /\ b_hs b' = b_hs b /\ length (b_heap b') = length (b_heap b).
Definition all_reused (rs : list prect) (os os' : list fbuf) : Prop :=
  length os' = length os /\
  forall k r b b', rs !! k = Some r -> os !! k = Some b -> os' !! k = Some b' -> reused r b b'.
Lemma reused_refl rs os : all_reused rs os os.
Proof. split; auto. intros k r b b' _ H1 H2. assert (b' = b) as -> by congruence. by repeat split. Qed.

Lemma flood_all_ok n gm fresh img cols (Q : nat -> prect -> list creg -> fbuf -> (nat -> nat) -> Prop) rs bs k :
  length rs = length bs ->
  (forall i r b, rs !! i = Some r -> bs !! i = Some b -> exists regs b' lab,
     make_tree_patch n (cfg4 (r_w r) (r_h r) gm (k + i)) fresh img cols (r_top r * cols + r_left r) b = FTree regs b' /\
     Q (k + i) r regs b' lab) ->
  exists ts os (labs : list (nat -> nat)), flood_all n gm fresh img cols k rs bs = Some (ts, os) /\
    length ts = length rs /\ length os = length rs /\
    forall i r, rs !! i = Some r -> exists regs b' lab, ts !! i = Some regs /\ os !! i = Some b' /\
      labs !! i = Some lab /\ Q (k + i) r regs b' lab.
Proof.
  revert bs k. induction rs as [|r rs IH]; intros [|b bs] k Hlen H; try done.
  - exists [], [], []. split; auto. split; auto. split; auto. by intros i r [=].
  - cbn [flood_all]. destruct (H 0 r b) as (regs & b' & lab & E & HQ); auto.
    rewrite Nat.add_0_r in E, HQ. rewrite E.
    destruct (IH bs (S k)) as (ts & os & labs & E' & L1 & L2 & HQ').
    { simpl in Hlen. lia. }
    { intros i r' b2 Hr Hb. destruct (H (S i) r' b2 Hr Hb) as (regs' & b3 & lab' & E3 & HQ3).
      rewrite Nat.add_succ_r in E3, HQ3. eauto. }
    rewrite E'. exists (regs :: ts), (b' :: os), (lab :: labs). split; auto.
    split; [simpl; lia|]. split; [simpl; lia|].
    intros [|i] r' Hr; cbn in Hr.
    + injection Hr as <-. rewrite Nat.add_0_r. exists regs, b', lab. auto.
    + destruct (HQ' i r' Hr) as (regs' & b3 & lab' & ? & ? & ? & ?). rewrite Nat.add_succ_r.
      exists regs', b3, lab'. auto.
Qed.

Lemma bnd4_eq : bnd4 = (5 * 2 ^ 29)%N.
Proof. done. Qed.

Section wc.
Context (threads hpn vpn : nat) (img : list N) (cols rows : nat).
Context (Hgrid : grid_of threads = Some (hpn, vpn)) (HI : image_fits hpn vpn img cols rows).
Notation R := (rects hpn vpn cols rows).

Lemma wc_pos : 0 < hpn /\ 0 < vpn /\ hpn <= cols /\ vpn <= rows.
Proof. destruct (grid_pos _ _ _ Hgrid) as (? & ? & _). destruct HI. auto. Qed.

Lemma wc_sched : good_sched hpn vpn (sched_of threads).
Proof.
  clear HI. revert Hgrid. unfold grid_of, sched_of. destruct (Nat.eqb_spec threads 1) as [->|].
  { intros [= <- <-]. apply sched1_good. }
  destruct (Nat.eqb_spec threads 4). { intros [= <- <-]. apply sched4_good. }
  destruct (Nat.eqb_spec threads 32); [|done]. intros [= <- <-]. apply sched32_good.
Qed.

Lemma wc_fits k r : R !! k = Some r -> patch_fits img cols (r_top r) (r_left r) (r_w r) (r_h r).
Proof.
  intros Hk. destruct wc_pos as (Hh & Hv & Hc & Hr). destruct HI as [? ? H1 H2 ? H3].
  destruct (H3 k r Hk) as [H4 _]. destruct (rects_inside hpn vpn cols rows Hh Hv k r Hk) as [H5 H6].
  destruct (rects_inv hpn vpn cols rows Hh Hv k r Hk) as (v & h & Hv' & Hh' & _ & ->).
  constructor; auto; cbn [rect_at r_w r_h r_top r_left] in *; auto using cut_pos.
  etrans; [|exact H1]. by apply Nat.mul_le_mono_r.
Qed.

Lemma wc_area : sum_list (map (fun r => r_w r * r_h r) R) = rows * cols.
Proof.
  destruct wc_pos as (Hh & Hv & _). rewrite (sum_grid hpn vpn cols rows (fun w => w) (fun h => h)).
  change (map (fun lw : nat * nat => snd lw)) with (map (@snd nat nat)). rewrite !sum_cut by auto. lia.
Qed.
Lemma wc_area_le k r : R !! k = Some r -> r_w r * r_h r <= rows * cols.
Proof.
  intros Hk. rewrite <-wc_area. clear -Hk. revert k Hk. induction R as [|r' l IH]; intros [|k] Hk; try done.
  - injection Hk as ->. cbn. unfold id. lia.
  - cbn. specialize (IH k Hk). unfold id in *. lia.
Qed.

Lemma wc_level gm p : gm = 0%N \/ gm = 255%N -> level img gm p <= 255.
Proof.
  intros Hgm. assert (nth p img 0 < 256)%N as Hb.
  { destruct (img !! p) as [v|] eqn:Hv.
    - rewrite (nth_lookup_Some _ _ _ _ Hv). by eapply if_byte.
    - rewrite nth_lookup, Hv. simpl. lia. }
  destruct Hgm as [->| ->].
  - rewrite level0. lia.
  - unfold level. rewrite lxor_byte by auto. lia.
Qed.

(* the forest of freshly flooded partitions *)
Lemma wc_start gm ts os (labs : list (nat -> nat)) : gm = 0%N \/ gm = 255%N ->
  length ts = length R -> length os = length R ->
  (forall k r, R !! k = Some r -> exists regs b lab, ts !! k = Some regs /\ os !! k = Some b /\
     labs !! k = Some lab /\ flood_ok img gm cols (r_top r) (r_left r) (r_w r) (r_h r) k regs b lab) ->
  ctree (cut_view hpn vpn cols rows (level img gm)) (whole_lab hpn vpn cols rows labs) (tab (lift_forest ts)) /\
  bounded (lift_forest ts) /\ nregs (lift_forest ts) <= rows * cols /\
  (forall k i a, fget (lift_forest ts) (k, i) = Some a -> g_idx a = i /\ g_patch a = k /\ g_flag a = 0).
Proof.
  intros Hgm Hts Hos Hall. destruct wc_pos as (Hh & Hv & Hc & Hr).
  set (lab := whole_lab hpn vpn cols rows labs). set (V := cut_view hpn vpn cols rows (level img gm)).
  assert (ctree V lab (tab (lift_forest ts))) as HT.
  { apply union_ctree; auto. intros k r Hk. destruct (Hall k r Hk) as (l & b & f & H1 & H2 & H3 & H4 & _).
    eauto. }
  assert (forall k l, ts !! k = Some l -> exists r b f, R !! k = Some r /\ os !! k = Some b /\
    labs !! k = Some f /\ flood_ok img gm cols (r_top r) (r_left r) (r_w r) (r_h r) k l b f) as Hts'.
  { intros k l Hl. assert (k < length R) as Hk by (rewrite <-Hts; by eapply lookup_lt_Some).
    apply lookup_lt_is_Some in Hk as [r Hk]. destruct (Hall k r Hk) as (l' & b & f & H1 & H2 & H3 & H4).
    assert (l' = l) as -> by congruence. exists r, b, f. auto. }
  assert (forall k i a, fget (lift_forest ts) (k, i) = Some a -> g_idx a = i /\ g_patch a = k /\
    g_flag a = 0) as Hreg.
  { intros k i a Ha. rewrite lift_get in Ha. destruct (ts !! k) as [l|] eqn:Hl; [|done].
    destruct (l !! i) as [c|] eqn:Hi; [|done]. injection Ha as <-.
    destruct (Hts' k l Hl) as (r & b & f & _ & _ & _ & (_ & _ & _ & H4 & _)).
    exact (H4 i c Hi). }
  assert (bounded (lift_forest ts)) as HB.
  { intros [k i] a Ha. destruct (Hreg k i a Ha) as (_ & _ & Hfl).
    destruct (ct_own _ _ _ HT (k, i) (vr a)) as (p & _ & Hg & _).
    - by apply tab_get.
    - simpl. by rewrite Hfl.
    - simpl in Hg. rewrite <-Hg. by apply wc_level. }
  assert (nregs (lift_forest ts) <= rows * cols) as Hn.
  { rewrite <-wc_area. unfold nregs, lift_forest.
    assert (length <$> imap (fun k l => lift_reg k <$> l) ts = length <$> ts) as ->.
    { apply list_eq. intros k. rewrite !list_lookup_fmap, list_lookup_imap.
      destruct (ts !! k) as [l|]; [|done]. cbn. by rewrite fmap_length. }
    assert (Forall2 (fun (l : list creg) r => length l <= r_w r * r_h r) ts R) as H2.
    { apply Forall2_same_length_lookup. split; auto. intros k l r Hl Hk.
      destruct (Hall k r Hk) as (l' & b & f & E1 & _ & _ & (_ & _ & H3 & _)). congruence. }
    clear -H2. induction H2 as [|l r ts' rs' Hle _ IH]; [done|].
    change (length l + sum_list (length <$> ts') <= r_w r * r_h r + sum_list (map (fun r => r_w r * r_h r) rs')).
    lia. }
  auto.
Qed.

(* joining freshly flooded partitions *)
Lemma wc_join gm fuel ts os (labs : list (nat -> nat)) : gm = 0%N \/ gm = 255%N ->
  rows * cols + 514 < fuel -> length ts = length R -> length os = length R ->
  (forall k r, R !! k = Some r -> exists regs b lab, ts !! k = Some regs /\ os !! k = Some b /\
     labs !! k = Some lab /\ flood_ok img gm cols (r_top r) (r_left r) (r_w r) (r_h r) k regs b lab) ->
  exists F lab, merge_seq fuel bnd4 (pinfos R os) (sched_of threads) (lift_forest ts) = Some F /\
    whole_ok hpn vpn img gm cols rows F os lab.
Proof.
  intros Hgm Hf Hts Hos Hall. destruct wc_pos as (Hh & Hv & Hc & Hr). pose proof wc_sched as HS.
  set (lab := whole_lab hpn vpn cols rows labs). set (V := cut_view hpn vpn cols rows (level img gm)).
  destruct (wc_start gm ts os labs Hgm Hts Hos Hall) as (HT & HB & Hn & Hreg).
  assert (geo (pinfos R os) R) as Hgeo.
  { unfold geo, pinfos. clear -Hos. revert os Hos. induction R as [|r l IH]; intros [|o os] Hos; try done.
    cbn in *. f_equal; [by destruct r|]. apply IH. lia. }
  rewrite (seq_join fuel bnd4 (pinfos R os) R) by (auto; rewrite rects_length; apply HS).
  destruct (join_list_ok V lab (pinfos R os) R cols bnd4 (lift_forest ts) (rows * cols) fuel
    (sched_words R (sched_of threads)) (sched_px R cols (sched_of threads))) as (F & E & HF & HT').
  - apply cut_vsym.
  - done.
  - apply whole_card.
  - apply HI.
  - done.
  - lia.
  - apply sched_words_px; auto.
  - apply Forall_forall. intros [p q] Hpq. apply (sched_px_iff hpn vpn cols rows Hh Hv Hc Hr) in Hpq; auto.
    simpl. tauto.
  - intros [k off] p (r & y & x & Hk & Hy & Hx & Hoff & Hp) Hin. cbn [fst snd] in *.
    destruct (Hall k r Hk) as (l & b & f & H1 & H2 & H3 & (H4 & _ & _ & _ & H5)).
    unfold region_at, pinfos. rewrite lookup_zip_with, Hk, H2. cbn [mbind option_bind fmap option_fmap option_map pi_pts].
    unfold lift_forest. rewrite list_lookup_imap, H1. cbn [fmap option_fmap option_map pi_pts]. rewrite Hoff, H5 by auto. rewrite <-Hp.
    rewrite fmap_length. cbv zeta.
    assert (in_rect cols (r_top r) (r_left r) (r_w r) (r_h r) p) as Hir.
    { destruct (rects_inside hpn vpn cols rows Hh Hv k r Hk) as [I1 I2]. rewrite Hp.
      unfold in_rect. destruct (coord cols (r_top r + y) (r_left r + x)) as [-> ->]; lia. }
    destruct (ct_lab _ _ _ H4 p Hir) as (a & Ha & _). unfold table_of in Ha.
    destruct (l !! f p) as [c|] eqn:Hc'; [|done]. pose proof (lookup_lt_Some _ _ _ Hc') as Hlt.
    destruct (HI.(if_part _ _ _ _ _) k r Hk) as [Hsm _].
    assert (length l <= r_w r * r_h r) as Hll.
    { destruct (Hall k r Hk) as (l' & b' & f' & E1 & _ & _ & (_ & _ & E3 & _)). congruence. }
    assert (u32 (5 * 2 ^ 29 + N.of_nat (f p) + 2 ^ 32 - bnd4) = N.of_nat (f p)) as ->.
    { rewrite bnd4_eq. unfold u32.
      replace (5 * 2 ^ 29 + N.of_nat (f p) + 2 ^ 32 - 5 * 2 ^ 29)%N with (N.of_nat (f p) + 1 * 2 ^ 32)%N by lia.
      rewrite N.mod_add by lia. apply N.mod_small. lia. }
    destruct (N.ltb_spec (N.of_nat (f p)) (N.of_nat (length l))); [|lia].
    rewrite Nat2N.id. f_equal. unfold lab, whole_lab.
    assert (partf hpn vpn cols rows p = k) as -> by (by apply (part_rect hpn vpn cols rows Hh Hv k r p Hk)).
    by rewrite H3.
  - exists F, lab. split; auto.
    assert (ctree (rect_view cols 0 0 cols rows (level img gm)) lab (tab F)) as HTF.
    { eapply ctree_ext; [exact HT'| | |].
      - intros x. rewrite add_edges_in. symmetry. apply (whole_in hpn vpn cols rows); auto.
      - intros x y Hx Hy. rewrite add_edges_in in Hx, Hy. apply joined_adj; auto.
      - intros x _. by rewrite add_edges_gray. }
    constructor; auto.
    + eapply (root_of_connected (rect_view cols 0 0 cols rows (level img gm)) lab); auto.
      * apply adj4_vsym.
      * eapply (whole_connected hpn vpn cols rows); auto.
      * exists 0. apply (whole_in hpn vpn cols rows); auto. nia.
    + rewrite <-(fmap_length length F), (fr_shape _ _ HF), fmap_length. unfold lift_forest.
      rewrite imap_length, Hts. apply rects_length.
    + intros k i a Ha. destruct (frame_inv _ _ _ _ HF Ha) as [a0 Ha0].
      destruct (fr_reg _ _ HF (k, i) a0 Ha0) as (a' & Ha' & G1 & G2 & G3 & G4).
      assert (a' = a) as -> by congruence. destruct (Hreg k i a0 Ha0) as (I1 & I2 & I3).
      rewrite G1, G2, G3. split; auto. split; auto. split; [by eapply HB|]. rewrite I3 in G4. auto.
    + intros k r y x Hk Hy Hx. destruct (Hall k r Hk) as (l & b & f & H1 & H2 & H3 & (_ & _ & _ & _ & H5)).
      exists b, (f ((r_top r + y) * cols + (r_left r + x))). split; auto. split; [|by apply H5].
      destruct (rects_inside hpn vpn cols rows Hh Hv k r Hk) as [I1 I2].
      assert (in_rect cols (r_top r) (r_left r) (r_w r) (r_h r) ((r_top r + y) * cols + (r_left r + x))) as Hir.
      { unfold in_rect. destruct (coord cols (r_top r + y) (r_left r + x)) as [-> ->]; lia. }
      unfold lab, whole_lab.
      assert (partf hpn vpn cols rows ((r_top r + y) * cols + (r_left r + x)) = k) as ->
        by (by apply (part_rect hpn vpn cols rows Hh Hv k r _ Hk)).
      by rewrite H3.
    + intros k r l Hk Hl. destruct (Hall k r Hk) as (l0 & b & f & H1 & _ & _ & (_ & _ & H3 & _)).
      assert (length l = length l0) as ->; auto.
      assert ((length <$> F) !! k = Some (length l)) as E1 by (by rewrite list_lookup_fmap, Hl).
      rewrite (fr_shape _ _ HF), list_lookup_fmap in E1. unfold lift_forest in E1.
      rewrite list_lookup_imap, H1 in E1. cbn in E1. rewrite fmap_length in E1. congruence.
    + by rewrite (frame_nregs _ _ HF).
Qed.

(* both passes; recognition and extraction in between may write to the stacks and to the
   words of the pixels *)
Lemma build_ok n fuel bs :
  length bs = threads ->
  (forall k r b, R !! k = Some r -> bs !! k = Some b -> buf_alloc (r_w r) (r_h r) b) ->
  6 * (rows * cols) < n -> rows * cols + 514 < fuel ->
  exists F os lab,
    build_tree n fuel threads 0 true img cols rows bs = Some (F, os) /\
    whole_ok hpn vpn img 0 cols rows F os lab /\
    forall os', all_reused R os os' -> exists F2 os2 lab2,
      build_tree n fuel threads 255 false img cols rows os' = Some (F2, os2) /\
      whole_ok hpn vpn img 255 cols rows F2 os2 lab2.
Proof.
  intros Hlen Hbs Hn Hf. destruct (grid_pos _ _ _ Hgrid) as (Hh & Hv & Ht). unfold build_tree. rewrite Hgrid.
  assert (length R = length bs) as HlR by (rewrite rects_length; lia).
  destruct (flood_all_ok n 0 true img cols
    (fun k r regs b lab => flood_ok img 0 cols (r_top r) (r_left r) (r_w r) (r_h r) k regs b lab /\
       buf_between cols (r_top r) (r_left r) (r_w r) (r_h r) (fun p => nth p img 0%N) b) R bs 0 HlR)
    as (ts & os & labs & E1 & L1 & L2 & HQ).
  { intros k r b Hk Hb. destruct (HI.(if_part _ _ _ _ _) k r Hk) as [_ Hm]. pose proof (wc_area_le k r Hk).
    destruct (dark_pass img cols (r_top r) (r_left r) (r_w r) (r_h r) (0 + k) b n (level img 0))
      as (_ & regs & b' & lab & _ & E & Fo & _ & _ & Hbt); eauto using wc_fits. { lia. }
    exists regs, b', lab. auto. }
  destruct (wc_join 0 fuel ts os labs) as (F & lab & E3 & W1); auto.
  { intros k r Hk. destruct (HQ k r Hk) as (regs & b & lab & ? & ? & ? & ? & _). exists regs, b, lab. auto. }
  rewrite E1, E3. exists F, os, lab. split; auto. split; auto. intros os' [Ho1 Ho2].
  destruct (flood_all_ok n 255 false img cols
    (fun k r regs b lab => flood_ok img 255 cols (r_top r) (r_left r) (r_w r) (r_h r) k regs b lab) R os' 0)
    as (ts2 & os2 & labs2 & E2 & M1 & M2 & HQ2). { congruence. }
  { intros k r b2 Hk Hb2. destruct (HI.(if_part _ _ _ _ _) k r Hk) as [_ Hm]. pose proof (wc_area_le k r Hk).
    destruct (HQ k r Hk) as (regs & b & lab' & _ & Hb & _ & _ & Hbt).
    destruct (Ho2 k r b b2 Hk Hb Hb2) as (G0 & G1 & G2 & G3 & G4 & G5).
    assert (buf_between cols (r_top r) (r_left r) (r_w r) (r_h r) (fun p => nth p img 0%N) b2) as Hbt2.
    { destruct Hbt. constructor; rewrite ?G0, ?G2, ?G3, ?G4, ?G5; auto. intros x [Hx1 Hx2]. rewrite G1; [by apply bb_bd|].
      intros y z Hy Hz ->. by apply (Hx2 y z). }
    destruct (bright_pass img cols (r_top r) (r_left r) (r_w r) (r_h r) (0 + k) b2 n (level img 255))
      as (_ & regs2 & b3 & lab2 & _ & E & Fo & _); eauto using wc_fits, misses_invert. { lia. } }
  destruct (wc_join 255 fuel ts2 os2 labs2) as (F2 & lab2 & E4 & W2); auto.
  rewrite E2, E4. exists F2, os2, lab2. auto.
Qed.
End wc.

(* the joining schedule *)
Lemma schedule_ok threads hpn vpn cols rows :
  grid_of threads = Some (hpn, vpn) -> hpn <= cols -> vpn <= rows ->
  exists words pairs,
    (forall fuel bnd P F, geo P (rects hpn vpn cols rows) ->
       merge_seq fuel bnd P (sched_of threads) F = join_list fuel bnd P words F) /\
    Forall2 (pair_px (rects hpn vpn cols rows) cols) words pairs /\
    NoDup pairs /\
    forall p q, (p, q) ∈ pairs <->
      p < rows * cols /\ q < rows * cols /\ next_px cols p q /\
      forall k, ~ (in_part (rects hpn vpn cols rows) cols k p /\ in_part (rects hpn vpn cols rows) cols k q).
Proof.
  intros Hg Hc Hr. destruct (grid_pos _ _ _ Hg) as (Hh & Hv & _). pose proof (wc_sched _ _ _ Hg) as HS.
  exists (sched_words (rects hpn vpn cols rows) (sched_of threads)), (sched_px (rects hpn vpn cols rows) cols (sched_of threads)).
  split. { intros fuel bnd P F HG. apply seq_join; auto. rewrite rects_length. apply HS. }
  split. { by apply sched_words_px. }
  split. { by apply sched_px_once. }
  intros p q. rewrite (sched_px_iff hpn vpn cols rows Hh Hv Hc Hr _ p q HS). split.
  - intros (Hp & Hq & Hn & Hne). split; auto. split; auto. split; auto. intros k [H1 H2]. apply Hne.
    apply (partf_iff hpn vpn cols rows Hh Hv) in H1, H2; auto. congruence.
  - intros (Hp & Hq & Hn & Hne). split; auto. split; auto. split; auto. intros He.
    apply (Hne (partf hpn vpn cols rows p)). split; apply (partf_iff hpn vpn cols rows Hh Hv); auto.
Qed.
