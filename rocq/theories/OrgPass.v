(* Both passes of the original implementation leave the component tree of the picture. *)
From stdpp Require Import sorting relations functions list_numbers list.
From Coq Require Import NArith ZArith SpecFloat.
From Verif Require Import Spec TreeSpec TreeFacts JoinMath FloodModel FloodCorrect FloatModel RecogModel V1BuildModel V1Sort LinkedGrid LinkedCorrect OrgModel OrgBuild OrgTree OrgPad.
Local Open Scope nat_scope.

Lemma sorted_keys key n : StronglySorted (fun x y => key x <= key y) (sorted_pos key n).
Proof.
  unfold sorted_pos, buckets.
  assert (forall m g, StronglySorted (fun x y => key x <= key y) (concat ((fun g => List.filter (at_key key g) (seq 0 n)) <$> seq g m)) /\
    forall x, x ∈ concat ((fun g => List.filter (at_key key g) (seq 0 n)) <$> seq g m) -> g <= key x) as H; [|apply (H 256 0)].
  induction m as [|m IH]; intros g; cbn [seq fmap list_fmap concat]; [split; [constructor|by intros x []%elem_of_nil]|].
  destruct (IH (S g)) as [I1 I2]. assert (forall x, x ∈ List.filter (at_key key g) (seq 0 n) -> key x = g) as Hk.
  { intros x Hx. apply elem_of_list_In, filter_In in Hx as [_ Hx]. by apply Nat.eqb_eq in Hx. }
  split.
  - induction (List.filter (at_key key g) (seq 0 n)) as [|x l IHl]; [done|]. cbn [app].
    assert (key x = g) as Ex by (apply Hk, elem_of_list_here). constructor.
    + apply IHl. intros y Hy. apply Hk. by apply elem_of_list_further.
    + apply Forall_forall. intros y [Hy|Hy]%elem_of_app; [rewrite Ex, (Hk y); [done|by apply elem_of_list_further]|]. apply I2 in Hy. lia.
  - intros x [Hx|Hx]%elem_of_app; [apply Hk in Hx; lia|apply I2 in Hx; lia].
Qed.
Lemma sorted_split {A} (R : A -> A -> Prop) l pre p suf q : StronglySorted R l -> l = pre ++ p :: suf -> q ∈ suf -> R p q.
Proof.
  intros Hs. revert pre. induction Hs as [|x l Hl IH Hx]; intros pre E Hq; [by destruct pre|]. destruct pre as [|y pre].
  - injection E as -> ->. rewrite Forall_forall in Hx. auto.
  - injection E as -> ->. by apply (IH pre).
Qed.
Lemma sorted_rev_split {A} (R : A -> A -> Prop) l pre p suf q : StronglySorted R l -> rev l = pre ++ p :: suf -> q ∈ suf -> R q p.
Proof.
  intros Hs E Hq. apply (f_equal (@rev A)) in E. rewrite rev_involutive, rev_app_distr in E. cbn [rev] in E. rewrite <-app_assoc in E. cbn in E.
  apply elem_of_list_In, in_rev, elem_of_list_In in Hq. apply elem_of_list_split in Hq as (l1 & l2 & Hq). rewrite Hq in E. rewrite <-app_assoc in E. cbn in E.
  eapply (sorted_split R l l1 q); eauto. apply elem_of_app. right. apply elem_of_list_here.
Qed.

Section pass.
Context (e : bool) (src : list N) (step w h : nat) (HF : limg_fits src step w h).
Notation W := (w + 2).
Notation key := (fun k => level src 0 (opix step w (o_pos w k))).
Definition opts : list nat := o_pos w <$> sorted_pos key (w * h).

Lemma pos_inner k : k < w * h -> inner w h (o_pos w k).
Proof using HF.
  intros Hk. pose proof (lf_w _ _ _ _ HF). unfold inner, o_pos. pose proof (Nat.mod_upper_bound k w ltac:(lia)).
  assert (k / w < h) by (apply Nat.div_lt_upper_bound; lia).
  destruct (dm W (k / w + 1) (k mod w + 1)) as [E1 E2]; [lia|]. rewrite E1, E2. lia.
Qed.
Lemma inner_pos p : inner w h p -> exists k, k < w * h /\ p = o_pos w k.
Proof.
  unfold inner. intros Hp. exists ((p / W - 1) * w + (p mod W - 1)). destruct (dm w (p / W - 1) (p mod W - 1)) as [E1 E2]; [lia|]. split.
  - assert ((p / W - 1) * w <= (h - 1) * w) by (apply Nat.mul_le_mono_r; lia). nia.
  - unfold o_pos. rewrite E1, E2. rewrite !Nat.sub_add by lia. rewrite Nat.mul_comm. apply Nat.div_mod. lia.
Qed.
Lemma pos_inj k k' : k < w * h -> k' < w * h -> o_pos w k = o_pos w k' -> k = k'.
Proof using HF.
  intros Hk Hk' E. pose proof (lf_w _ _ _ _ HF). unfold o_pos in E. pose proof (Nat.mod_upper_bound k w ltac:(lia)). pose proof (Nat.mod_upper_bound k' w ltac:(lia)).
  destruct (dm W (k / w + 1) (k mod w + 1)) as [A1 A2]; [lia|]. destruct (dm W (k' / w + 1) (k' mod w + 1)) as [B1 B2]; [lia|].
  rewrite E in A1, A2. rewrite (Nat.div_mod k w), (Nat.div_mod k' w) by lia. f_equal; [f_equal; lia|lia].
Qed.
Lemma key_ok k : k < w * h -> key k < 256 /\ o_key (pimg src step w h) w k = Some (key k).
Proof using HF.
  intros Hk. pose proof (pos_inner k Hk) as Hp. unfold o_key.
  pose proof (gimg_at src step w h HF 0 ltac:(auto) (o_pos w k) (inner_lt w h _ Hp)) as E. change (gimg src step w h 0) with (pimg src step w h) in E.
  rewrite E, (proj2 (innerb_ok w h _) Hp), (proj2 (Z.ltb_ge _ _)) by lia. rewrite Nat2Z.id. split; [|done].
  unfold level. rewrite N.lxor_0_r. destruct (opix_in src step w h HF _ Hp) as [Hl _]. destruct (lookup_lt_is_Some_2 _ _ Hl) as [v Hv].
  rewrite (nth_lookup_Some _ _ _ _ Hv). pose proof (lf_byte _ _ _ _ HF _ _ Hv). lia.
Qed.
Lemma sorted_in k : k ∈ sorted_pos key (w * h) <-> k < w * h.
Proof using HF. rewrite (sorted_perm key (w * h)) by (intros i Hi; by apply key_ok). rewrite elem_of_seq. lia. Qed.
Lemma order_pts : o_order (pimg src step w h) w h = Some opts.
Proof using HF.
  unfold o_order. rewrite (order_ok key (w * h)); [|intros i Hi; by apply key_ok..].
  rewrite (mapM_map _ (fun o => match o with Some k => o_pos w k | None => 0 end)).
  - unfold opts. rewrite <-list_fmap_compose. done.
  - intros o Ho. apply elem_of_list_fmap in Ho as (k & -> & _). done.
Qed.
Lemma opts_nd : NoDup opts.
Proof using HF.
  unfold opts. assert (NoDup (sorted_pos key (w * h))) as Hn. { rewrite (sorted_perm key (w * h)) by (intros i Hi; by apply key_ok). apply NoDup_seq. }
  apply NoDup_alt. intros i j p Hi Hj. apply list_lookup_fmap_inv in Hi as (k & -> & Hi). apply list_lookup_fmap_inv in Hj as (k' & E & Hj).
  assert (k = k') as <-. { apply pos_inj; auto; apply sorted_in; by eapply elem_of_list_lookup_2. }
  by eapply NoDup_lookup.
Qed.
Lemma opts_in p : p ∈ opts <-> inner w h p.
Proof using HF.
  unfold opts. rewrite elem_of_list_fmap. split.
  - intros (k & -> & Hk). apply pos_inner. by apply sorted_in.
  - intros Hp. destruct (inner_pos p Hp) as (k & Hk & ->). exists k. split; auto. by apply sorted_in.
Qed.
Lemma opts_len : length opts = w * h.
Proof using HF. unfold opts. rewrite fmap_length. rewrite (sorted_perm key (w * h)) by (intros i Hi; by apply key_ok). apply seq_length. Qed.
Lemma opts_sorted : StronglySorted (fun p q => level src 0 (opix step w p) <= level src 0 (opix step w q)) opts.
Proof.
  unfold opts. pose proof (sorted_keys key (w * h)) as Hs. induction Hs as [|k l Hl IH Hk]; [constructor|]. cbn. constructor; auto.
  rewrite Forall_forall in Hk |- *. intros p Hp. apply elem_of_list_fmap in Hp as (k' & -> & Hk'). auto.
Qed.

Lemma level_flip p : p < length src -> level src 255 p = 255 - level src 0 p /\ level src 0 p <= 255.
Proof using HF.
  intros Hp. destruct (lookup_lt_is_Some_2 _ _ Hp) as [v Hv]. pose proof (lf_byte _ _ _ _ HF _ _ Hv). unfold level. rewrite (nth_lookup_Some _ _ _ _ Hv), N.lxor_0_r.
  rewrite lxor_byte by done. split; [done|]. lia.
Qed.

Context (gm : N) (Hgm : gm = 0%N \/ gm = 255%N).
Notation lv := (level src gm). Notation img := (gimg src step w h gm).
Definition gpts : list nat := if (gm =? 0)%N then opts else rev opts.
Lemma gpts_nd : NoDup gpts.
Proof using HF. unfold gpts. destruct (gm =? 0)%N; [apply opts_nd|]. apply NoDup_ListNoDup, NoDup_rev, NoDup_ListNoDup, opts_nd. Qed.
Lemma gpts_in p : p ∈ gpts <-> inP img p.
Proof using HF Hgm.
  rewrite (inP_inner src step w h HF gm Hgm), <-opts_in. unfold gpts. destruct (gm =? 0)%N; [done|]. rewrite !elem_of_list_In. symmetry. apply in_rev.
Qed.
Lemma gpts_len : length gpts = w * h.
Proof using HF. unfold gpts. destruct (gm =? 0)%N; [apply opts_len|]. rewrite rev_length. apply opts_len. Qed.
Lemma gpts_sort pre p suf q : gpts = pre ++ p :: suf -> q ∈ suf -> lev img p <= lev img q.
Proof using HF Hgm.
  intros E Hq. assert (inner w h p /\ inner w h q) as [Ip Iq].
  { split; apply (inP_inner src step w h HF gm Hgm), gpts_in; rewrite E; apply elem_of_app; right; [apply elem_of_list_here|by apply elem_of_list_further]. }
  rewrite !(lev_inner src step w h HF gm Hgm) by done. unfold gpts in E. destruct Hgm as [->| ->].
  - change (0 =? 0)%N with true in E. cbn match in E. apply (sorted_split _ _ _ _ _ _ opts_sorted E Hq).
  - change (255 =? 0)%N with false in E. cbn match in E. pose proof (sorted_rev_split _ _ _ _ _ _ opts_sorted E Hq) as H. cbn in H.
    destruct (level_flip (opix step w p)) as [-> _]; [by apply (opix_in src step w h HF)|]. destruct (level_flip (opix step w q)) as [-> _]; [by apply (opix_in src step w h HF)|]. lia.
Qed.

Notation HI := (pad_in e src step w h HF gm Hgm). Notation HS := (pad_sym e src step w h HF gm Hgm).
Lemma gpts_max k : w * h <= k -> length gpts <= k.
Proof using HF. rewrite gpts_len. done. Qed.

(* the pass succeeds; its regions are the component tree and their lists of points the
   regions *)
Theorem org_pass n rcap : w * h + 1 < n -> w * h <= rcap ->
  exists g st sg, o_pass n (w * h) rcap img (o_offs e w) gpts [] = Some st /\ pinv img (o_offs e w) g st sg /\
    (forall p, inP img p -> exists x, os_own st !! p = Some (Some x)) /\
    ctree (lview e step w h lv) (fun j => olab (os_own st) (framed step w j)) (otable (os_regs st)) /\ length (os_regs st) <= w * h.
Proof using All.
  intros Hn Hr. pose proof (gpts_max (w * h) ltac:(lia)) as M1. pose proof (gpts_max rcap Hr) as M2.
  destruct (pass_ok img (o_offs e w) gpts (w * h) rcap HI HS gpts_nd gpts_in M1 M2 gpts_sort n) as (g & st & sg & E & HP & Hall).
  { rewrite gpts_len. lia. }
  exists g, st, sg. split; [exact E|]. split; [exact HP|]. split; [exact Hall|]. split.
  - apply (tree_frame e src step w h HF gm Hgm). apply (ctree_pass img (o_offs e w) gpts (w * h) rcap HI HS gpts_nd gpts_in M1 M2 g st sg HP Hall).
  - pose proof (p_core _ _ _ _ _ HP) as HC. rewrite <-(fmap_length strip), <-(fmap_length o_head), <-gpts_len.
    apply (in_pts_len img gpts gpts_in).
    + apply (heads_nd img (o_offs e w) gpts (w * h) rcap HI HS gpts_nd gpts_in M1 M2 _ _ _ _ _ _ HC).
    + intros p Hp. apply elem_of_list_fmap in Hp as (a & -> & Ha). apply elem_of_list_lookup in Ha as [r Ha].
      pose proof (k_head _ _ _ _ _ _ _ _ HC r a Ha) as H1. by apply (k_lab _ _ _ _ _ _ _ _ HC) in H1 as (? & _).
Qed.
End pass.
