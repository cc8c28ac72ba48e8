(* The framed copy of the picture and the sorted pixels of the original implementation. *)
From stdpp Require Import sorting relations functions list_numbers list.
From Coq Require Import NArith ZArith SpecFloat.
From Verif Require Import Spec TreeSpec TreeFacts JoinMath FloodModel FloodCorrect FloatModel RecogModel V1BuildModel V1Sort LinkedGrid LinkedCorrect OrgModel OrgBuild OrgTree.
Local Open Scope nat_scope.

Lemma mapM_map {A B} (f : A -> option B) (g : A -> B) l : (forall x, x ∈ l -> f x = Some (g x)) -> mapM f l = Some (g <$> l).
Proof.
  induction l as [|x l IH]; intros H; [done|]. cbn. rewrite H by apply elem_of_list_here. cbn.
  rewrite IH; [done|]. intros y Hy. apply H. by apply elem_of_list_further.
Qed.
Lemma dm W y x : x < W -> (y * W + x) / W = y /\ (y * W + x) mod W = x.
Proof.
  intros H. rewrite Nat.add_comm, Nat.div_add, Nat.mod_add by lia. rewrite Nat.div_small, Nat.mod_small by lia. lia.
Qed.

Section pad.
Context (e : bool) (src : list N) (step w h : nat) (HF : limg_fits src step w h).
Notation W := (w + 2).
(* SPEC: places of the framed copy inside the frame, the bytes of the image they hold, and
   the framed copy of either channel *)
Definition inner (p : nat) : Prop := 1 <= p / W <= h /\ 1 <= p mod W <= w.
Definition innerb (p : nat) : bool := (1 <=? p / W) && (p / W <=? h) && (1 <=? p mod W) && (p mod W <=? w).
Definition opix (p : nat) : nat := (p / W - 1) * step + (p mod W - 1).
Definition pimg : list Z := (fun i => if innerb i then Z.of_N (nth (opix i) src 0%N) else (-32768)%Z) <$> seq 0 (W * (h + 2)).
Definition gimg (gm : N) : list Z := if (gm =? 0)%N then pimg else o_reverse pimg.

Lemma innerb_ok p : innerb p = true <-> inner p.
Proof. unfold innerb, inner. rewrite !andb_true_iff, !Nat.leb_le. lia. Qed.
Lemma innerb_no p : innerb p = false <-> ~ inner p.
Proof. rewrite <-innerb_ok. by destruct (innerb p). Qed.
Lemma inner_lt p : inner p -> p < W * (h + 2).
Proof. unfold inner. intros H. pose proof (Nat.div_mod p W ltac:(lia)). nia. Qed.
Lemma opix_in p : inner p -> opix p < length src /\ in_rect step 0 0 w h (opix p).
Proof using HF.
  unfold inner. intros H. destruct HF as [h1 h2 h3 h4 h5]. unfold opix, in_rect. destruct (dm step (p / W - 1) (p mod W - 1)) as [-> ->]; [lia|].
  split; [|lia]. assert ((p / W - 1) * step <= (h - 1) * step) by (apply Nat.mul_le_mono_r; lia). lia.
Qed.
Lemma pad_ok : o_pad src step w h = Some pimg.
Proof using HF.
  unfold o_pad, pimg. replace (W * (h + 2)) with ((w + 2) * (h + 2)) by lia. apply mapM_map. intros p _. cbv zeta.
  change ((1 <=? p / W) && (p / W <=? h) && (1 <=? p mod W) && (p mod W <=? w)) with (innerb p).
  destruct (innerb p) eqn:E; [|done]. apply innerb_ok, opix_in in E as [E _]. change ((p / W - 1) * step + (p mod W - 1)) with (opix p).
  destruct (lookup_lt_is_Some_2 _ _ E) as [v Hv]. rewrite Hv. cbn. by rewrite (nth_lookup_Some _ _ _ _ Hv).
Qed.
Lemma pimg_len : length pimg = W * (h + 2).
Proof. unfold pimg. by rewrite fmap_length, seq_length. Qed.
Lemma gimg_len gm : length (gimg gm) = W * (h + 2).
Proof. unfold gimg, o_reverse. destruct (gm =? 0)%N; [|rewrite map_length]; apply pimg_len. Qed.

Context (gm : N) (Hgm : gm = 0%N \/ gm = 255%N).
Notation lv := (level src gm).
Lemma gimg_at p : p < W * (h + 2) -> gimg gm !! p = Some (if innerb p then Z.of_nat (lv (opix p)) else (-32768)%Z).
Proof using HF Hgm.
  intros Hp. assert (pimg !! p = Some (if innerb p then Z.of_N (nth (opix p) src 0%N) else (-32768)%Z)) as E.
  { unfold pimg. rewrite list_lookup_fmap, lookup_seq_lt by done. done. }
  unfold gimg, level. destruct Hgm as [->| ->].
  - change (0 =? 0)%N with true. cbn match. rewrite E. destruct (innerb p); [|done]. rewrite N.lxor_0_r. f_equal. lia.
  - change (255 =? 0)%N with false. cbn match. unfold o_reverse. rewrite <-(list_lookup_fmap (fun v => if (v <? 0)%Z then v else (255 - v)%Z)) || idtac.
    change (map ?f pimg) with (f <$> pimg). rewrite list_lookup_fmap, E. cbn. destruct (innerb p) eqn:Ei; [|done].
    apply innerb_ok, opix_in in Ei as [Ei _]. destruct (lookup_lt_is_Some_2 _ _ Ei) as [v Hv]. rewrite (nth_lookup_Some _ _ _ _ Hv).
    pose proof (lf_byte _ _ _ _ HF _ _ Hv). rewrite lxor_byte by done. rewrite (proj2 (Z.ltb_ge _ _)) by lia. f_equal. lia.
Qed.
Lemma inP_inner p : inP (gimg gm) p <-> inner p.
Proof using HF Hgm.
  split.
  - intros (v & Hv & H0). pose proof (lookup_lt_Some _ _ _ Hv) as Hl. rewrite gimg_len in Hl. rewrite gimg_at in Hv by done.
    destruct (innerb p) eqn:E; [by apply innerb_ok|]. injection Hv as <-. lia.
  - intros Hp. pose proof (inner_lt p Hp) as Hl. apply innerb_ok in Hp. eexists. rewrite gimg_at, Hp by done. split; [done|]. lia.
Qed.
Lemma lev_inner p : inner p -> lev (gimg gm) p = lv (opix p).
Proof using HF Hgm. intros Hp. unfold lev. rewrite (nth_lookup_Some _ _ _ _ (gimg_at p (inner_lt p Hp))). apply innerb_ok in Hp. rewrite Hp. lia. Qed.

(* SPEC: row and column distance of neighbours *)
Definition near (dx dy : Z) : Prop :=
  if e then (dx <> 0 \/ dy <> 0)%Z /\ (-1 <= dx <= 1)%Z /\ (-1 <= dy <= 1)%Z
  else (dx = 0%Z /\ (dy = 1 \/ dy = -1)%Z) \/ (dy = 0%Z /\ (dx = 1 \/ dx = -1)%Z).
Lemma offs_elem d : d ∈ o_offs e w <-> exists dx dy, near dx dy /\ d = (dx + dy * Z.of_nat W)%Z.
Proof.
  unfold o_offs, near. cbv zeta. rewrite elem_of_list_In, in_map_iff. split.
  - intros ([dx dy] & <- & H). exists dx, dy. split; [|done]. destruct e; cbn in H; repeat (destruct H as [[= <- <-]|H]; [lia|]); done.
  - intros (dx & dy & H & ->). exists (dx, dy). split; [done|]. apply elem_of_list_In. destruct e; rewrite !elem_of_cons, elem_of_nil, !pair_equal_spec; lia.
Qed.
Lemma near_bound dx dy : near dx dy -> (-1 <= dx <= 1)%Z /\ (-1 <= dy <= 1)%Z.
Proof. unfold near. destruct e; lia. Qed.
Lemma step_pos p dx dy : inner p -> near dx dy ->
  (0 <= Z.of_nat p + (dx + dy * Z.of_nat W))%Z /\
  Z.to_nat (Z.of_nat p + (dx + dy * Z.of_nat W)) = Z.to_nat (Z.of_nat (p / W) + dy) * W + Z.to_nat (Z.of_nat (p mod W) + dx).
Proof.
  intros Hp Hn%near_bound. unfold inner in Hp. pose proof (Nat.div_mod p W ltac:(lia)) as E.
  set (y := p / W) in *. set (x := p mod W) in *. assert (0 <= Z.of_nat y + dy)%Z by lia. assert (0 <= Z.of_nat x + dx)%Z by lia.
  assert (Z.of_nat p = Z.of_nat W * Z.of_nat y + Z.of_nat x)%Z as E' by lia.
  assert (Z.of_nat p + (dx + dy * Z.of_nat W) = (Z.of_nat y + dy) * Z.of_nat W + (Z.of_nat x + dx))%Z as -> by (rewrite E'; lia).
  assert (0 <= (Z.of_nat y + dy) * Z.of_nat W)%Z by (apply Z.mul_nonneg_nonneg; lia).
  split; [lia|]. rewrite Z2Nat.inj_add, Z2Nat.inj_mul by lia. rewrite Nat2Z.id. done.
Qed.
Lemma adj_inner p q : inner p -> adjP (o_offs e w) p q <-> near (Z.of_nat (q mod W) - Z.of_nat (p mod W)) (Z.of_nat (q / W) - Z.of_nat (p / W)).
Proof.
  intros Hp. unfold adjP. split.
  - intros (d & Hd & _ & ->). apply offs_elem in Hd as (dx & dy & Hn & ->). destruct (step_pos p dx dy Hp Hn) as [_ ->].
    pose proof (near_bound _ _ Hn). unfold inner in Hp. destruct (dm W (Z.to_nat (Z.of_nat (p / W) + dy)) (Z.to_nat (Z.of_nat (p mod W) + dx))) as [-> ->]; [lia|].
    rewrite !Z2Nat.id by lia. replace (_ - _)%Z with dx by lia. replace (_ - _)%Z with dy by lia. done.
  - intros Hn. eexists. split; [apply offs_elem; eexists _, _; split; [exact Hn|done]|]. destruct (step_pos p _ _ Hp Hn) as [H1 H2]. split; [exact H1|].
    rewrite H2. rewrite !Zplus_minus, !Nat2Z.id. rewrite Nat.mul_comm. apply Nat.div_mod. lia.
Qed.
Lemma near_sym dx dy : near dx dy -> near (- dx) (- dy).
Proof. unfold near. destruct e; lia. Qed.

Lemma pad_in p d : inP (gimg gm) p -> d ∈ o_offs e w -> (0 <= Z.of_nat p + d)%Z /\ Z.to_nat (Z.of_nat p + d) < length (gimg gm).
Proof using All.
  intros Hp%inP_inner Hd. apply offs_elem in Hd as (dx & dy & Hn & ->). destruct (step_pos p dx dy Hp Hn) as [H1 ->]. split; auto.
  rewrite gimg_len. pose proof (near_bound _ _ Hn). unfold inner in Hp.
  assert (Z.to_nat (Z.of_nat (p / W) + dy) <= h + 1) as H2 by lia. apply (Nat.mul_le_mono_r _ _ W) in H2. lia.
Qed.
Lemma pad_sym p q : inP (gimg gm) p -> inP (gimg gm) q -> adjP (o_offs e w) p q -> adjP (o_offs e w) q p.
Proof using All.
  intros Hp%inP_inner Hq%inP_inner. rewrite !adj_inner by done. intros Hn%near_sym.
  replace (Z.of_nat (p mod W) - Z.of_nat (q mod W))%Z with (- (Z.of_nat (q mod W) - Z.of_nat (p mod W)))%Z by lia.
  replace (Z.of_nat (p / W) - Z.of_nat (q / W))%Z with (- (Z.of_nat (q / W) - Z.of_nat (p / W)))%Z by lia. done.
Qed.

(* ---------- the picture ---------- *)
(* SPEC: the place of byte j of the image in the framed copy *)
Definition framed (j : nat) : nat := (j / step + 1) * W + (j mod step + 1).
Notation V := (lview e step w h lv).
Lemma framed_in j : in_rect step 0 0 w h j -> inner (framed j) /\ opix (framed j) = j /\ framed j / W = j / step + 1 /\ framed j mod W = j mod step + 1.
Proof using HF gm Hgm.
  unfold in_rect. intros Hj. unfold inner, opix, framed. destruct (dm W (j / step + 1) (j mod step + 1)) as [-> ->]; [lia|]. split; [lia|]. split; [|lia].
  rewrite !Nat.add_sub. rewrite Nat.mul_comm. symmetry. apply Nat.div_mod. pose proof (lf_w _ _ _ _ HF). pose proof (lf_step _ _ _ _ HF). lia.
Qed.
Lemma framed_opix p : inner p -> framed (opix p) = p.
Proof using HF gm Hgm.
  unfold inner. intros Hp. unfold framed, opix. pose proof (lf_step _ _ _ _ HF). destruct (dm step (p / W - 1) (p mod W - 1)) as [-> ->]; [lia|].
  rewrite !Nat.sub_add by lia. rewrite Nat.mul_comm. symmetry. apply Nat.div_mod. lia.
Qed.
Lemma tree_frame {I} lab (T : I -> option (vreg I)) : ctree (PV (gimg gm) (o_offs e w)) lab T -> ctree V (fun j => lab (framed j)) T.
Proof using All.
  apply iso_ctree; cbn [vw_in vw_adj vw_gray lview PV].
  - intros j Hj. apply inP_inner. by apply framed_in.
  - intros p Hp%inP_inner. exists (opix p). split; [by apply opix_in|by apply framed_opix].
  - intros i j Hi Hj E. destruct (framed_in i Hi) as (_ & <- & _). destruct (framed_in j Hj) as (_ & <- & _). by rewrite E.
  - intros j Hj. destruct (framed_in j Hj) as (H1 & H2 & _). rewrite lev_inner by done. by rewrite H2.
  - intros i j Hi Hj. destruct (framed_in i Hi) as (I1 & I2 & I3 & I4). destruct (framed_in j Hj) as (J1 & J2 & J3 & J4).
    rewrite !inP_inner, adj_inner by done. rewrite I3, I4, J3, J4. unfold near.
    destruct e; [unfold adj8|unfold adj4].
    + assert (i = j <-> i / step = j / step /\ i mod step = j mod step) as ->.
      { split; [by intros ->|]. intros [E1 E2]. pose proof (lf_w _ _ _ _ HF). pose proof (lf_step _ _ _ _ HF).
        rewrite (Nat.div_mod i step), (Nat.div_mod j step) by lia. congruence. }
      intuition lia.
    + intuition lia.
Qed.
End pad.
