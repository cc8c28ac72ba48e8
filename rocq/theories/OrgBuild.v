(* The original implementation builds the component tree. *)
From stdpp Require Import sorting relations functions list_numbers list.
From Coq Require Import NArith ZArith SpecFloat.
From Verif Require Import Spec TreeSpec TreeFacts JoinMath FloodModel FloatModel RecogModel V1BuildModel V1Sort OrgModel.
Local Open Scope nat_scope.

Definition strip (a : oreg) : oreg := oset_short a 0.
Definition oup (K : list oreg) (r t : nat) : Prop := exists a, K !! r = Some a /\ o_par a = Some t.
Notation ound K := (rtc (oup K)).
Definition oroot (K : list oreg) (t : nat) : Prop := exists b, K !! t = Some b /\ o_par b = None.
Definition joined (K : list oreg) (x y : nat) : Prop := exists t, oroot K t /\ ound K x t /\ ound K y t.

Lemma oup_fun K r t t' : oup K r t -> oup K r t' -> t = t'.
Proof. intros (a & H1 & H2) (b & H3 & H4). congruence. Qed.
Lemma root_stop K t x : oroot K t -> ound K t x -> x = t.
Proof. intros (b & Hb & Hp) H. inversion H as [|? y ? (a & Ha & E) _]; subst; [done|]. congruence. Qed.
Lemma ound_comp K x y z : ound K x y -> ound K x z -> ound K y z \/ ound K z y.
Proof.
  intros H. revert z. induction H as [x|x u y Hu Hy IH]; intros z Hz; [by left|].
  inversion Hz as [|? u' ? Hu' Hz']; subst; [right; by eapply rtc_l|].
  rewrite (oup_fun _ _ _ _ Hu' Hu) in Hz'. auto.
Qed.
Lemma ound_root K x y t : oroot K t -> ound K x t -> ound K x y -> ound K y t.
Proof. intros Ht H1 H2. destruct (ound_comp K x y t H2 H1) as [|H]; auto. rewrite (root_stop _ _ _ Ht H). constructor. Qed.
Lemma root_fun K x t t' : oroot K t -> oroot K t' -> ound K x t -> ound K x t' -> t = t'.
Proof. intros H1 H2 H3 H4. pose proof (ound_root _ _ _ _ H2 H4 H3) as H. symmetry. by apply (root_stop K). Qed.
Lemma joined_trans K x y z : joined K x y -> joined K y z -> joined K x z.
Proof. intros (t & H1 & H2 & H3) (t' & H4 & H5 & H6). assert (t = t') as <- by (by eapply root_fun). exists t. auto. Qed.
Lemma joined_sym K x y : joined K x y -> joined K y x.
Proof. intros (t & H1 & H2 & H3). exists t. auto. Qed.

Lemma oup_strip l r t : oup (strip <$> l) r t <-> oup l r t.
Proof.
  split.
  - intros (a & Ha & E). apply list_lookup_fmap_inv in Ha as (b & -> & Hb). exists b. auto.
  - intros (a & Ha & E). exists (strip a). rewrite list_lookup_fmap, Ha. auto.
Qed.

Section build.
Context (img : list Z) (offs : list Z) (pts : list nat) (cap rcap : nat).
Definition inP (p : nat) : Prop := exists v, img !! p = Some v /\ (0 <= v)%Z.
Definition lev (p : nat) : nat := Z.to_nat (nth p img 0%Z).
Definition adjP (p q : nat) : Prop := exists d, d ∈ offs /\ (0 <= Z.of_nat p + d)%Z /\ q = Z.to_nat (Z.of_nat p + d).
Definition PV : view := View inP (fun p q => inP p /\ inP q /\ adjP p q) lev.
Context (Hin : forall p d, inP p -> d ∈ offs -> (0 <= Z.of_nat p + d)%Z /\ Z.to_nat (Z.of_nat p + d) < length img).
Context (Hsym : forall p q, inP p -> inP q -> adjP p q -> adjP q p).
Context (Hpts : NoDup pts) (Hpin : forall p, p ∈ pts <-> inP p).
Context (Hcap : length pts <= cap) (Hrcap : length pts <= rcap).

Lemma lev_val p v : img !! p = Some v -> lev p = Z.to_nat v.
Proof. intros H. unfold lev. by rewrite (nth_lookup_Some _ _ _ _ H). Qed.
Lemma inP_lt p : inP p -> p < length img.
Proof. intros (v & H & _). by eapply lookup_lt_Some. Qed.

Record seg_ok (next : list (option nat)) (a : oreg) (l : list nat) : Prop := {
  sg_nd : NoDup l; sg_len : length l = o_size a; sg_hd : head l = Some (o_head a); sg_tl : last l = Some (o_tail a);
  sg_link : forall i x y, l !! i = Some x -> l !! S i = Some y -> next !! x = Some (Some y)
}.

Record core (pend : nat -> nat -> Prop) (g : nat) (K : list oreg) (next own : list (option nat)) (sg : nat -> list nat) : Prop := {
  k_next : length next = length img;
  k_own : length own = length img;
  k_lab : forall p x, own !! p = Some (Some x) -> inP p /\ lev p <= g /\ exists a, K !! x = Some a /\ o_gray a = lev p;
  k_seg : forall r a, K !! r = Some a -> seg_ok next a (sg r);
  k_gray : forall r a, K !! r = Some a -> o_gray a <= g /\ lev (o_head a) = o_gray a /\ o_flag a = 0 /\ o_var a = fminus1;
  k_head : forall r a, K !! r = Some a -> own !! o_head a = Some (Some r);
  k_sort : forall i j a b, i <= j -> K !! i = Some a -> K !! j = Some b -> o_gray a <= o_gray b;
  k_par : forall r a t, K !! r = Some a -> o_par a = Some t -> r < t /\ exists b, K !! t = Some b /\ o_gray a <= o_gray b /\
    o_merged a = (o_gray a =? o_gray b) /\ (exists A B, sg t = A ++ sg r ++ B) /\
    (o_gray a < o_gray b -> forall x y, x ∈ sg r -> inP y -> adjP x y -> lev y < o_gray b -> y ∈ sg r);
  k_root : forall r a, K !! r = Some a -> o_par a = None -> o_merged a = false;
  k_conn : forall r a x, K !! r = Some a -> x ∈ sg r -> vconn PV (o_gray a) (o_head a) x;
  k_mem : forall r p, is_Some (K !! r) -> (p ∈ sg r <-> exists x, own !! p = Some (Some x) /\ ound K x r);
  k_low : forall p, inP p -> lev p < g -> exists x, own !! p = Some (Some x);
  k_edge : forall p q x, own !! p = Some (Some x) -> inP q -> adjP p q -> lev q <= lev p -> ~ pend p q ->
    exists y, own !! q = Some (Some y) /\ joined K x y
}.

Lemma core_pend (pend pend' : nat -> nat -> Prop) g K next own sg :
  (forall p q x, own !! p = Some (Some x) -> inP q -> adjP p q -> lev q <= lev p -> pend p q -> ~ pend' p q ->
    exists y, own !! q = Some (Some y) /\ joined K x y) ->
  (forall p q, pend p q \/ ~ pend p q) -> core pend g K next own sg -> core pend' g K next own sg.
Proof.
  intros H Hdec [? ? ? ? ? ? ? ? ? ? ? ? He]. constructor; auto. intros p q x H1 H2 H3 H4 H5.
  destruct (Hdec p q) as [Hp|Hp]; eauto.
Qed.

Section facts.
Context (pend : nat -> nat -> Prop) (g : nat) (K : list oreg) (next own : list (option nat)) (sg : nat -> list nat).
Context (HC : core pend g K next own sg).

Lemma ound_some x r : is_Some (K !! x) -> ound K x r -> is_Some (K !! r) /\ x <= r.
Proof using All.
  intros Hx H. induction H as [x|x y r (a & Ha & E) _ IH]; [auto|].
  destruct (k_par _ _ _ _ _ _ HC _ _ _ Ha E) as (Hlt & b & Hb & _). destruct IH as [H1 H2]; eauto. split; auto; lia.
Qed.
Lemma root_of x : is_Some (K !! x) -> exists t, oroot K t /\ ound K x t.
Proof using All.
  assert (forall m x, length K - x <= m -> is_Some (K !! x) -> exists t, oroot K t /\ ound K x t) as H.
  { induction m as [|m IH]; intros y Hm [a Ha]; pose proof (lookup_lt_Some _ _ _ Ha); [lia|].
    destruct (o_par a) as [t|] eqn:E.
    - destruct (k_par _ _ _ _ _ _ HC _ _ _ Ha E) as (Hlt & b & Hb & _).
      destruct (IH t ltac:(lia) ltac:(eauto)) as (u & H1 & H2). exists u. split; auto. eapply rtc_l; [|done]. exists a. auto.
    - exists y. split; [exists a; auto|constructor]. }
  intros Hx. apply (H (length K)); auto. lia.
Qed.
Lemma own_some p x : own !! p = Some (Some x) -> is_Some (K !! x).
Proof using All. intros H. apply HC in H as (_ & _ & a & -> & _). eauto. Qed.
Lemma infix_up x r : is_Some (K !! x) -> ound K x r -> exists A B, sg r = A ++ sg x ++ B.
Proof using All.
  intros Hx H. induction H as [x|x y r (a & Ha & E) _ IH]; [exists [], []; by rewrite app_nil_r|].
  destruct (k_par _ _ _ _ _ _ HC _ _ _ Ha E) as (_ & b & Hb & _ & _ & (A & B & E1) & _).
  destruct IH as (A' & B' & E2); eauto. exists (A' ++ A), (B ++ B'). rewrite E2, E1, <-!app_assoc. done.
Qed.
Lemma seg_in r p : is_Some (K !! r) -> p ∈ sg r -> inP p.
Proof using All. intros Hr H. apply (k_mem _ _ _ _ _ _ HC) in H as (x & H & _); auto. by apply (k_lab _ _ _ _ _ _ HC) in H as (? & _). Qed.
Lemma seg_lev r a p : K !! r = Some a -> p ∈ sg r -> lev p <= o_gray a.
Proof using All. intros Hr H. by destruct (k_conn _ _ _ _ _ _ HC r a p Hr H) as (_ & _ & _ & ? & _). Qed.
Lemma head_in r a : K !! r = Some a -> o_head a ∈ sg r.
Proof using All.
  intros H. pose proof (sg_hd _ _ _ (k_seg _ _ _ _ _ _ HC _ _ H)) as E. destruct (sg r); [done|]. injection E as ->. apply elem_of_list_here.
Qed.
Lemma tail_in r a : K !! r = Some a -> o_tail a ∈ sg r.
Proof using All. intros H. apply last_Some_elem_of, (k_seg _ _ _ _ _ _ HC _ _ H). Qed.
(* the tail of a root has no successor in any list *)
Lemma tail_end c a r i y : K !! c = Some a -> o_par a = None -> is_Some (K !! r) -> sg r !! i = Some (o_tail a) -> sg r !! S i = Some y -> False.
Proof using All.
  intros Hc Hp Hr H1 H2. pose proof (tail_in c a Hc) as Ht.
  apply (k_mem _ _ _ _ _ _ HC) in Ht as (x & Hx & Hxc); [|eauto].
  assert (o_tail a ∈ sg r) as Hin' by (by eapply elem_of_list_lookup_2).
  apply (k_mem _ _ _ _ _ _ HC) in Hin' as (x' & Hx' & Hxr); [|done]. assert (x' = x) as -> by congruence.
  assert (ound K r c) as Hrc. { apply (ound_root K x); auto. exists a. auto. }
  destruct (infix_up r c Hr Hrc) as (A & B & E). destruct (k_seg _ _ _ _ _ _ HC _ _ Hc) as [Hnd _ _ Hl _].
  assert (sg c !! (length A + i) = Some (o_tail a)) as G1.
  { rewrite E, lookup_app_r by lia. replace (length A + i - length A) with i by lia. by rewrite lookup_app_l by (by eapply lookup_lt_Some). }
  assert (sg c !! S (length A + i) = Some y) as G2.
  { rewrite E, lookup_app_r by lia. replace (S (length A + i) - length A) with (S i) by lia. by rewrite lookup_app_l by (by eapply lookup_lt_Some). }
  rewrite last_lookup in Hl. pose proof (NoDup_lookup _ _ _ _ Hnd Hl G1). apply lookup_lt_Some in G2. lia.
Qed.
Lemma joined_refl x : is_Some (K !! x) -> joined K x x.
Proof using All. intros H. destruct (root_of x H) as (t & H1 & H2). exists t. auto. Qed.
Lemma joined_root x t : oroot K t -> joined K x t -> ound K x t.
Proof using All. intros Ht (u & H1 & H2 & H3). apply (root_stop _ _ _ Ht) in H3 as ->. done. Qed.
End facts.

Lemma PVsym : vsym PV.
Proof using Hsym. intros p q (H1 & H2 & H3). split_and!; auto. Qed.
Lemma vconn_edge l p q : inP p -> inP q -> adjP p q -> lev p <= l -> lev q <= l -> vconn PV l p q.
Proof. intros. apply vconn_step. repeat split; auto. Qed.

(* ---------- a pixel joins the current region ---------- *)
Definition reg_take (bc : oreg) (q : nat) : oreg :=
  OReg (o_head bc) q (o_merged bc) (o_flag bc) (o_gray bc) (S (o_size bc)) (o_par bc) (o_short bc) (o_var bc).

Lemma up_take K c bc q r t : K !! c = Some bc -> oup (<[c := reg_take bc q]> K) r t <-> oup K r t.
Proof.
  intros Hc. pose proof (lookup_lt_Some _ _ _ Hc). split.
  - intros (a & Ha & E). destruct (decide (r = c)) as [->|Hne].
    + rewrite list_lookup_insert in Ha by done. injection Ha as <-. exists bc. auto.
    + rewrite list_lookup_insert_ne in Ha by auto. exists a. auto.
  - intros (a & Ha & E). destruct (decide (r = c)) as [->|Hne].
    + exists (reg_take bc q). rewrite list_lookup_insert by done. assert (a = bc) as -> by congruence. auto.
    + exists a. rewrite list_lookup_insert_ne by auto. auto.
Qed.
Lemma und_take K c bc q r t : K !! c = Some bc -> ound (<[c := reg_take bc q]> K) r t <-> ound K r t.
Proof. intros Hc. split; apply rtc_subrel; intros x y; by apply (up_take K c bc q). Qed.
Lemma root_take K c bc q t : K !! c = Some bc -> oroot K t -> oroot (<[c := reg_take bc q]> K) t.
Proof.
  intros Hc (b & Hb & E). pose proof (lookup_lt_Some _ _ _ Hc). destruct (decide (t = c)) as [->|Hne].
  - exists (reg_take bc q). rewrite list_lookup_insert by done. assert (b = bc) as -> by congruence. auto.
  - exists b. rewrite list_lookup_insert_ne by auto. auto.
Qed.

Lemma core_take pend g K next own sg c bc top q : core pend g K next own sg -> K !! c = Some bc -> o_par bc = None -> o_gray bc = g ->
  top ∈ sg c -> lev top = g -> inP q -> adjP top q -> lev q <= g -> own !! q = Some None ->
  core (fun p y => pend p y \/ p = q) g (<[c := reg_take bc q]> K) (<[o_tail bc := Some q]> next) (<[q := Some c]> own) (<[c := sg c ++ [q]]> sg).
Proof using All.
  intros HC Hc Hp Hg Ht Hlt Hq Hadj Hlq Hun.
  assert (lev q = g) as Elq. { destruct (decide (lev q < g)) as [Hl|]; [|lia]. destruct (k_low _ _ _ _ _ _ HC q Hq Hl). congruence. }
  pose proof (lookup_lt_Some _ _ _ Hc) as Hcl. pose proof (lookup_lt_Some _ _ _ Hun) as Hql.
  assert (forall r, is_Some (K !! r) -> q ∉ sg r) as Hnot.
  { intros r Hr Hqr. apply (k_mem _ _ _ _ _ _ HC) in Hqr as (x & Hx & _); auto. congruence. }
  assert (oroot K c) as Hcr by (exists bc; auto).
  assert (forall r a, <[c := reg_take bc q]> K !! r = Some a -> exists a0, K !! r = Some a0 /\ o_gray a = o_gray a0 /\ o_head a = o_head a0 /\
    o_par a = o_par a0 /\ o_merged a = o_merged a0 /\ o_flag a = o_flag a0 /\ o_var a = o_var a0) as Hback.
  { intros r a Ha. destruct (decide (r = c)) as [->|Hne].
    - rewrite list_lookup_insert in Ha by done. injection Ha as <-. exists bc. done.
    - rewrite list_lookup_insert_ne in Ha by auto. exists a. done. }
  assert (forall x, is_Some (<[c := reg_take bc q]> K !! x) -> is_Some (K !! x)) as Hsm.
  { intros x [a Ha]. destruct (Hback _ _ Ha) as (a0 & Ha0 & _). eauto. }
  constructor.
  - rewrite insert_length. apply HC.
  - rewrite insert_length. apply HC.
  - intros p x H. destruct (decide (p = q)) as [->|Hne].
    + rewrite list_lookup_insert in H by done. injection H as <-. split; auto. split; [lia|].
      exists (reg_take bc q). rewrite list_lookup_insert by done. split; auto. cbn. lia.
    + rewrite list_lookup_insert_ne in H by auto. destruct (k_lab _ _ _ _ _ _ HC _ _ H) as (H1 & H2 & a & H3 & H4).
      split; auto. split; auto. destruct (decide (x = c)) as [->|Hn].
      * exists (reg_take bc q). rewrite list_lookup_insert by done. split; auto. cbn. congruence.
      * exists a. rewrite list_lookup_insert_ne by auto. auto.
  - intros r a Ha. destruct (decide (r = c)) as [->|Hne].
    + rewrite list_lookup_insert in Ha by done. injection Ha as <-. rewrite fn_lookup_insert.
      destruct (k_seg _ _ _ _ _ _ HC _ _ Hc) as [S1 S2 S3 S4 S5]. constructor; cbn.
      * apply NoDup_app. split_and!; [done| |apply NoDup_singleton]. intros x Hx ->%elem_of_list_singleton. apply (Hnot c); eauto.
      * rewrite app_length. cbn. lia.
      * destruct (sg c); [done|]. done.
      * by rewrite last_snoc.
      * intros i x y Hx Hy. pose proof (lookup_lt_Some _ _ _ Hy) as Hi. rewrite app_length in Hi. cbn in Hi.
        rewrite lookup_app_l in Hx by lia. destruct (decide (S i < length (sg c))) as [Hl|Hl].
        -- rewrite lookup_app_l in Hy by lia. rewrite list_lookup_insert_ne; [by eapply S5|].
           intros <-. eapply (tail_end pend g K next own sg HC c bc c i y); eauto.
        -- rewrite lookup_app_r in Hy by lia. replace (S i - length (sg c)) with 0 in Hy by lia. injection Hy as <-.
           rewrite last_lookup in S4. replace (Nat.pred (length (sg c))) with i in S4 by lia. assert (x = o_tail bc) as -> by congruence.
           rewrite list_lookup_insert; auto. rewrite (k_next _ _ _ _ _ _ HC). apply inP_lt.
           apply (seg_in pend g K next own sg HC c); eauto. by eapply (tail_in pend g K next own sg HC).
    + rewrite list_lookup_insert_ne in Ha by auto. rewrite fn_lookup_insert_ne by auto.
      destruct (k_seg _ _ _ _ _ _ HC _ _ Ha) as [S1 S2 S3 S4 S5]. constructor; auto. intros i x y Hx Hy.
      rewrite list_lookup_insert_ne; [by eapply S5|]. intros <-. eapply (tail_end pend g K next own sg HC c bc r i y); eauto.
  - intros r a Ha. destruct (Hback _ _ Ha) as (a0 & Ha0 & -> & -> & _ & _ & -> & ->). by apply (k_gray _ _ _ _ _ _ HC r).
  - intros r a Ha. destruct (Hback _ _ Ha) as (a0 & Ha0 & _ & -> & _). pose proof (k_head _ _ _ _ _ _ HC r a0 Ha0) as H.
    rewrite list_lookup_insert_ne; auto. intros E0. rewrite <-E0 in H. congruence.
  - intros i j a b Hij Ha Hb. destruct (Hback _ _ Ha) as (a0 & Ha0 & -> & _). destruct (Hback _ _ Hb) as (b0 & Hb0 & -> & _).
    by apply (k_sort _ _ _ _ _ _ HC i j).
  - intros r a t Ha E. destruct (Hback _ _ Ha) as (a0 & Ha0 & -> & _ & E0 & -> & _). rewrite E0 in E.
    destruct (k_par _ _ _ _ _ _ HC r a0 t Ha0 E) as (H1 & b & Hb & H2 & H3 & (A & B & H4) & H5). split; auto.
    assert (r <> c) as Hrc by (intros ->; congruence). rewrite (fn_lookup_insert_ne sg c r) by auto.
    destruct (decide (t = c)) as [->|Hn].
    + exists (reg_take bc q). rewrite list_lookup_insert by done. assert (b = bc) as -> by congruence. cbn. split_and!; auto.
      rewrite fn_lookup_insert. exists A, (B ++ [q]). rewrite H4, <-!app_assoc. done.
    + exists b. rewrite list_lookup_insert_ne by auto. rewrite fn_lookup_insert_ne by auto. split_and!; eauto.
  - intros r a Ha E. destruct (Hback _ _ Ha) as (a0 & Ha0 & _ & _ & E0 & -> & _). rewrite E0 in E. by apply (k_root _ _ _ _ _ _ HC r).
  - intros r a x Ha Hx. destruct (Hback _ _ Ha) as (a0 & Ha0 & -> & -> & _). destruct (decide (r = c)) as [->|Hne].
    + rewrite fn_lookup_insert in Hx. apply elem_of_app in Hx as [Hx| ->%elem_of_list_singleton].
      * by apply (k_conn _ _ _ _ _ _ HC c).
      * eapply vconn_trans; [by apply (k_conn _ _ _ _ _ _ HC c a0 top)|]. assert (a0 = bc) as -> by congruence.
        apply vconn_edge; auto; try lia. apply (seg_in pend g K next own sg HC c); eauto.
    + rewrite fn_lookup_insert_ne in Hx by auto. by apply (k_conn _ _ _ _ _ _ HC r).
  - intros r p Hr. apply Hsm in Hr. destruct (decide (r = c)) as [->|Hne].
    + rewrite fn_lookup_insert, elem_of_app, elem_of_list_singleton, (k_mem _ _ _ _ _ _ HC) by auto. split.
      * intros [(x & Hx & Hu)| ->].
        -- exists x. rewrite list_lookup_insert_ne by (intros ->; congruence). split; auto. by apply und_take.
        -- exists c. rewrite list_lookup_insert by done. split; auto. constructor.
      * intros (x & Hx & Hu). destruct (decide (p = q)) as [->|Hn]; [auto|]. rewrite list_lookup_insert_ne in Hx by auto.
        left. exists x. split; auto. by apply und_take in Hu.
    + rewrite fn_lookup_insert_ne by auto. rewrite (k_mem _ _ _ _ _ _ HC) by auto. split.
      * intros (x & Hx & Hu). exists x. rewrite list_lookup_insert_ne by (intros ->; congruence). split; auto. by apply und_take.
      * intros (x & Hx & Hu). apply und_take in Hu; auto. destruct (decide (p = q)) as [->|Hn].
        -- rewrite list_lookup_insert in Hx by done. injection Hx as <-. by apply (root_stop K) in Hu.
        -- rewrite list_lookup_insert_ne in Hx by auto. eauto.
  - intros p H1 H2. destruct (k_low _ _ _ _ _ _ HC p H1 H2) as [x Hx]. exists x. rewrite list_lookup_insert_ne; auto. intros ->. congruence.
  - intros p y x Hx Hy Ha Hl Hn. destruct (decide (p = q)) as [->|Hpq]; [exfalso; auto|]. rewrite list_lookup_insert_ne in Hx by auto.
    destruct (k_edge _ _ _ _ _ _ HC p y x) as (z & Hz & t & H1 & H2 & H3); auto.
    exists z. rewrite list_lookup_insert_ne by (intros ->; congruence). split; auto. exists t.
    split; [by apply root_take|]. by rewrite !und_take.
Qed.

(* ---------- a root becomes a child of the current region ---------- *)
Definition reg_child (bo bc : oreg) (c : nat) : oreg :=
  OReg (o_head bo) (o_tail bo) (o_gray bo =? o_gray bc) (o_flag bo) (o_gray bo) (o_size bo) (Some c) (o_short bo) (o_var bo).
Definition reg_join (bc bo : oreg) : oreg :=
  OReg (o_head bc) (o_tail bo) (o_merged bc) (o_flag bc) (o_gray bc) (o_size bc + o_size bo) (o_par bc) (o_short bc) (o_var bc).
Definition link (K : list oreg) (c o : nat) (bc bo : oreg) : list oreg := <[c := reg_join bc bo]> (<[o := reg_child bo bc c]> K).

Section linking.
Context (K : list oreg) (c o : nat) (bc bo : oreg) (Hc : K !! c = Some bc) (Ho : K !! o = Some bo).
Context (Hcp : o_par bc = None) (Hop : o_par bo = None) (Hne : o <> c).
Notation K' := (link K c o bc bo).

Lemma link_c : K' !! c = Some (reg_join bc bo).
Proof using All. unfold link. rewrite list_lookup_insert; auto. rewrite insert_length. by eapply lookup_lt_Some. Qed.
Lemma link_o : K' !! o = Some (reg_child bo bc c).
Proof using All. unfold link. rewrite list_lookup_insert_ne, list_lookup_insert; auto. by eapply lookup_lt_Some. Qed.
Lemma link_other r : r <> c -> r <> o -> K' !! r = K !! r.
Proof using All. intros. unfold link. rewrite !list_lookup_insert_ne; auto. Qed.
Lemma link_up r t : oup K' r t <-> oup K r t \/ (r = o /\ t = c).
Proof using All.
  split.
  - intros (a & Ha & E). destruct (decide (r = c)) as [->|H1].
    + rewrite link_c in Ha. injection Ha as <-. cbn in E. congruence.
    + destruct (decide (r = o)) as [->|H2].
      * rewrite link_o in Ha. injection Ha as <-. cbn in E. right. split; congruence.
      * rewrite link_other in Ha by auto. left. exists a. auto.
  - intros [(a & Ha & E)|[-> ->]].
    + exists a. rewrite link_other; auto; intros ->; congruence.
    + exists (reg_child bo bc c). rewrite link_o. auto.
Qed.
Lemma link_root t : oroot K' t <-> oroot K t /\ t <> o.
Proof using All.
  split.
  - intros (b & Hb & E). destruct (decide (t = o)) as [->|H2]; [rewrite link_o in Hb; injection Hb as <-; done|].
    split; auto. destruct (decide (t = c)) as [->|H1]; [exists bc; auto|]. rewrite link_other in Hb by auto. exists b. auto.
  - intros [(b & Hb & E) Hn]. destruct (decide (t = c)) as [->|H1]; [exists (reg_join bc bo); rewrite link_c; auto|].
    exists b. rewrite link_other; auto.
Qed.
Lemma link_und x r : ound K' x r <-> ound K x r \/ (ound K x o /\ r = c).
Proof using All.
  split.
  - intros H. induction H as [x|x y r Hu _ IH]; [left; constructor|]. apply link_up in Hu as [Hu|[-> ->]].
    + destruct IH as [IH|[IH ->]]; [left|right; split; auto]; by eapply rtc_l.
    + destruct IH as [IH|[IH ->]].
      * apply root_stop in IH as ->; [|exists bc; auto]. right. split; [constructor|done].
      * right. split; [constructor|done].
  - assert (forall r, ound K x r -> ound K' x r) as H.
    { intros t. apply rtc_subrel. intros u v H. apply link_up. auto. }
    intros [?|[H1 ->]]; auto. eapply rtc_r; [apply H; exact H1|]. apply link_up. auto.
Qed.
Lemma link_joined x y : joined K x y -> joined K' x y.
Proof using All.
  intros (t & H1 & H2 & H3). destruct (decide (t = o)) as [->|Hn].
  - exists c. split; [apply link_root; split; [exists bc; auto|auto]|]. rewrite !link_und. auto.
  - exists t. split; [by apply link_root|]. rewrite !link_und. auto.
Qed.
Lemma link_join x y : ound K x o -> joined K y c -> joined K' x y.
Proof using All.
  intros H1 (t & H2 & H3 & H4). assert (oroot K c) as Hr by (exists bc; auto). apply (root_stop K c) in H4 as ->; auto.
  exists c. split; [apply link_root; auto|]. rewrite !link_und. auto.
Qed.
Lemma link_back r a : K' !! r = Some a -> exists a0, K !! r = Some a0 /\ o_gray a = o_gray a0 /\ o_head a = o_head a0 /\
  o_flag a = o_flag a0 /\ o_var a = o_var a0 /\
  (r <> o -> o_par a = o_par a0 /\ o_merged a = o_merged a0) /\ (r = o -> a = reg_child bo bc c) /\ (r = c -> a = reg_join bc bo) /\ (r <> o -> r <> c -> a = a0).
Proof using All.
  intros Ha. destruct (decide (r = c)) as [->|H1].
  - rewrite link_c in Ha. injection Ha as <-. exists bc. split_and!; auto; try done.
  - destruct (decide (r = o)) as [->|H2].
    + rewrite link_o in Ha. injection Ha as <-. exists bo. split_and!; auto; try done.
    + rewrite link_other in Ha by auto. exists a. split_and!; auto; try done.
Qed.
End linking.

Lemma core_link pend g K next own sg c o bc bo top q : core pend g K next own sg -> (forall p y, pend p y -> lev p = g) ->
  K !! c = Some bc -> K !! o = Some bo -> o_par bc = None -> o_par bo = None -> o < c -> o_gray bc = g ->
  top ∈ sg c -> q ∈ sg o -> lev top = g -> adjP top q -> lev q <= g ->
  core pend g (link K c o bc bo) (<[o_tail bc := Some (o_head bo)]> next) own (<[c := sg c ++ sg o]> sg).
Proof using All.
  intros HC Hpd Hc Ho Hcp Hop Hlt Hg Ht Hq Hlt' Hadj Hlq. assert (o <> c) as Hne by lia.
  assert (oroot K c) as Rc by (exists bc; auto). assert (oroot K o) as Ro by (exists bo; auto).
  pose proof (link_back K c o bc bo Hc Ho Hcp Hop Hne) as Hback.
  assert (forall r, is_Some (link K c o bc bo !! r) -> is_Some (K !! r)) as Hsm.
  { intros r [a Ha]. destruct (Hback _ _ Ha) as (a0 & ? & _). eauto. }
  assert (forall x, x ∈ sg c -> x ∈ sg o -> False) as Hdis.
  { intros x H1 H2. apply (k_mem _ _ _ _ _ _ HC) in H1 as (y & Hy & U1); [|eauto]. apply (k_mem _ _ _ _ _ _ HC) in H2 as (y' & Hy' & U2); [|eauto].
    assert (y' = y) as -> by congruence. apply Hne. by eapply (root_fun K y). }
  assert (top ∈ sg c /\ inP top /\ inP q) as (_ & Itop & Iq).
  { split_and!; auto; [apply (seg_in pend g K next own sg HC c)|apply (seg_in pend g K next own sg HC o)]; eauto. }
  constructor.
  - rewrite insert_length. apply HC.
  - apply HC.
  - intros p x H. destruct (k_lab _ _ _ _ _ _ HC _ _ H) as (H1 & H2 & a & H3 & H4). split; auto. split; auto.
    destruct (decide (x = c)) as [->|H5]; [exists (reg_join bc bo); rewrite link_c by auto; split; auto; cbn; congruence|].
    destruct (decide (x = o)) as [->|H6]; [exists (reg_child bo bc c); rewrite link_o by auto; split; auto; cbn; congruence|].
    exists a. rewrite link_other by auto. auto.
  - intros r a Ha. destruct (decide (r = c)) as [->|Hrc].
    + destruct (Hback _ _ Ha) as (_ & _ & _ & _ & _ & _ & _ & _ & E & _). rewrite (E eq_refl), fn_lookup_insert.
      destruct (k_seg _ _ _ _ _ _ HC _ _ Hc) as [S1 S2 S3 S4 S5]. destruct (k_seg _ _ _ _ _ _ HC _ _ Ho) as [T1 T2 T3 T4 T5]. constructor; cbn.
      * apply NoDup_app. split_and!; auto.
      * rewrite app_length. lia.
      * destruct (sg c); done.
      * rewrite last_app, T4. done.
      * intros i x y Hx Hy. destruct (decide (S i < length (sg c))) as [Hl|Hl].
        -- rewrite lookup_app_l in Hx, Hy by lia. rewrite list_lookup_insert_ne; [by eapply S5|].
           intros <-. eapply (tail_end pend g K next own sg HC c bc c i y); eauto.
        -- rewrite lookup_app_r in Hy by lia. destruct (decide (i < length (sg c))) as [Hi|Hi].
           ++ rewrite lookup_app_l in Hx by lia. rewrite last_lookup in S4. replace (Nat.pred (length (sg c))) with i in S4 by lia.
              assert (x = o_tail bc) as -> by congruence. replace (S i - length (sg c)) with 0 in Hy by lia.
              destruct (sg o) as [|z l]; [done|]. injection Hy as ->. injection T3 as ->.
              apply list_lookup_insert. rewrite (k_next _ _ _ _ _ _ HC). apply inP_lt.
              apply (seg_in pend g K next own sg HC c); eauto. by eapply (tail_in pend g K next own sg HC).
           ++ rewrite lookup_app_r in Hx by lia. replace (S i - length (sg c)) with (S (i - length (sg c))) in Hy by lia.
              rewrite list_lookup_insert_ne; [by eapply T5|].
              intros <-. eapply (tail_end pend g K next own sg HC c bc o); eauto.
    + rewrite fn_lookup_insert_ne by auto. destruct (Hback _ _ Ha) as (a0 & Ha0 & _ & _ & _ & _ & _ & Eo & _ & E).
      destruct (k_seg _ _ _ _ _ _ HC _ _ Ha0) as [S1 S2 S3 S4 S5].
      assert (forall i x y, sg r !! i = Some x -> sg r !! S i = Some y -> <[o_tail bc := Some (o_head bo)]> next !! x = Some (Some y)) as HL.
      { intros i x y Hx Hy. rewrite list_lookup_insert_ne; [by eapply S5|]. intros <-. eapply (tail_end pend g K next own sg HC c bc r i y); eauto. }
      destruct (decide (r = o)) as [->|Hro].
      * rewrite (Eo eq_refl). assert (a0 = bo) as -> by congruence. constructor; auto.
      * rewrite (E Hro Hrc). constructor; auto.
  - intros r a Ha. destruct (Hback _ _ Ha) as (a0 & Ha0 & -> & -> & -> & -> & _). by apply (k_gray _ _ _ _ _ _ HC r).
  - intros r a Ha. destruct (Hback _ _ Ha) as (a0 & Ha0 & _ & -> & _). by apply (k_head _ _ _ _ _ _ HC).
  - intros i j a b Hij Ha Hb. destruct (Hback _ _ Ha) as (a0 & Ha0 & -> & _). destruct (Hback _ _ Hb) as (b0 & Hb0 & -> & _).
    by apply (k_sort _ _ _ _ _ _ HC i j).
  - intros r a t Ha E. destruct (decide (r = o)) as [->|Hro].
    + destruct (Hback _ _ Ha) as (_ & _ & _ & _ & _ & _ & _ & Eo & _). rewrite (Eo eq_refl) in E |- *. cbn in E. injection E as <-. split; [done|].
      exists (reg_join bc bo). rewrite link_c by auto. cbn. split; [done|]. split; [rewrite Hg; by apply (k_gray _ _ _ _ _ _ HC o)|]. split; [done|].
      rewrite fn_lookup_insert, fn_lookup_insert_ne by auto. split; [exists (sg c), []; by rewrite app_nil_r|].
      intros Hgl x y Hx Hy Hxy Hly. pose proof (seg_lev pend g K next own sg HC o bo x Ho Hx) as Hlx.
      assert (inP x) as Ix by (eapply (seg_in pend g K next own sg HC o); eauto).
      apply (k_mem _ _ _ _ _ _ HC); [eauto|]. apply (k_mem _ _ _ _ _ _ HC) in Hx as (u & Hu & Uo); [|eauto].
      destruct (k_low _ _ _ _ _ _ HC y Hy ltac:(lia)) as [v Hv]. exists v. split; auto.
      apply (joined_root pend g K next own sg HC v o); auto.
      destruct (decide (lev y <= lev x)) as [Hc1|Hc1].
      * destruct (k_edge _ _ _ _ _ _ HC x y u Hu Hy Hxy Hc1) as (v' & Hv' & J). { intros Hp. apply Hpd in Hp. lia. }
        assert (v' = v) as -> by congruence. eapply joined_trans; [apply joined_sym; exact J|]. exists o. split_and!; auto; constructor.
      * destruct (k_edge _ _ _ _ _ _ HC y x v Hv Ix (Hsym _ _ Ix Hy Hxy) ltac:(lia)) as (u' & Hu' & J). { intros Hp. apply Hpd in Hp. lia. }
        assert (u' = u) as -> by congruence. eapply joined_trans; [exact J|]. exists o. split_and!; auto; constructor.
    + destruct (Hback _ _ Ha) as (a0 & Ha0 & -> & _ & _ & _ & Ep & _). destruct (Ep Hro) as [E1 ->]. rewrite E1 in E.
      destruct (k_par _ _ _ _ _ _ HC r a0 t Ha0 E) as (H1 & b & Hb & H2 & H3 & (A & B & H4) & H5). split; auto.
      assert (r <> c) as Hrc by (intros ->; congruence). rewrite (fn_lookup_insert_ne sg c r) by auto.
      destruct (decide (t = c)) as [->|Htc].
      * exists (reg_join bc bo). rewrite link_c by auto. assert (b = bc) as -> by congruence. cbn. split_and!; auto.
        rewrite fn_lookup_insert. exists A, (B ++ sg o). rewrite H4, <-!app_assoc. done.
      * rewrite fn_lookup_insert_ne by auto. destruct (decide (t = o)) as [->|Hto].
        -- exists (reg_child bo bc c). rewrite link_o by auto. assert (b = bo) as -> by congruence. cbn. split_and!; eauto.
        -- exists b. rewrite link_other by auto. split_and!; eauto.
  - intros r a Ha E. destruct (decide (r = o)) as [->|Hro].
    + destruct (Hback _ _ Ha) as (_ & _ & _ & _ & _ & _ & _ & Eo & _). rewrite (Eo eq_refl) in E. done.
    + destruct (Hback _ _ Ha) as (a0 & Ha0 & _ & _ & _ & _ & Ep & _). destruct (Ep Hro) as [E1 ->]. rewrite E1 in E. by apply (k_root _ _ _ _ _ _ HC r).
  - intros r a x Ha Hx. destruct (Hback _ _ Ha) as (a0 & Ha0 & -> & -> & _). destruct (decide (r = c)) as [->|Hrc].
    + rewrite fn_lookup_insert in Hx. apply elem_of_app in Hx as [Hx|Hx]; [by apply (k_conn _ _ _ _ _ _ HC c)|].
      assert (a0 = bc) as -> by congruence. rewrite Hg.
      eapply vconn_trans; [rewrite <-Hg; by apply (k_conn _ _ _ _ _ _ HC c bc top)|]. rewrite ?Hg.
      eapply vconn_trans; [apply vconn_edge; eauto; lia|].
      assert (o_gray bo <= g) as Hgo by (by apply (k_gray _ _ _ _ _ _ HC o)).
      eapply vconn_trans; [apply vconn_sym; [apply PVsym|]|]; (eapply vconn_mono; [exact Hgo|]); by apply (k_conn _ _ _ _ _ _ HC o).
    + rewrite fn_lookup_insert_ne in Hx by auto. by apply (k_conn _ _ _ _ _ _ HC r).
  - intros r p Hr. apply Hsm in Hr. destruct (decide (r = c)) as [->|Hrc].
    + rewrite fn_lookup_insert, elem_of_app, !(k_mem _ _ _ _ _ _ HC) by eauto. split.
      * intros [(x & Hx & Hu)|(x & Hx & Hu)]; exists x; (split; [done|]); apply link_und; auto.
      * intros (x & Hx & Hu). apply link_und in Hu as [Hu|[Hu _]]; auto; [left|right]; eauto.
    + rewrite fn_lookup_insert_ne by auto. rewrite (k_mem _ _ _ _ _ _ HC) by auto. split.
      * intros (x & Hx & Hu). exists x. split; auto. apply link_und; auto.
      * intros (x & Hx & Hu). apply link_und in Hu as [Hu|[Hu ?]]; auto; [eauto|done].
  - apply HC.
  - intros p y x Hx Hy Ha Hl Hn. destruct (k_edge _ _ _ _ _ _ HC p y x) as (z & Hz & J); auto. exists z. split; auto. by apply link_joined.
Qed.

(* ---------- a new region ---------- *)
Definition reg_new (p g c : nat) : oreg := OReg p p false 0 g 1 None c fminus1.

Lemma up_new K a r t : (forall r b t, K !! r = Some b -> o_par b = Some t -> t < length K) -> o_par a = None -> oup (K ++ [a]) r t <-> oup K r t.
Proof.
  intros HK Ha. split.
  - intros (b & Hb & E). apply lookup_app_Some in Hb as [Hb|[_ Hb]]; [exists b; auto|].
    destruct (r - length K) as [|?]; [|done]. injection Hb as <-. congruence.
  - intros (b & Hb & E). exists b. split; auto. by apply lookup_app_l_Some.
Qed.

Lemma core_new (pend0 : nat -> nat -> Prop) g0 K next own sg p g v : core (fun _ _ => False) g0 K next own sg -> img !! p = Some v -> (0 <= v)%Z -> lev p = g -> g0 <= g ->
  own !! p = Some None -> (forall q, inP q -> lev q < g -> exists x, own !! q = Some (Some x)) ->
  core (fun x _ => x = p) g (K ++ [strip (reg_new p g (length K))]) next (<[p := Some (length K)]> own) (<[length K := [p]]> sg).
Proof using All.
  intros HC Hv Hv0 Hlp Hg Hun Hlow. set (c := length K). set (a := strip (reg_new p g c)).
  assert (inP p) as Ip by (exists v; auto). pose proof (lookup_lt_Some _ _ _ Hun) as Hpl.
  assert (forall r b t, K !! r = Some b -> o_par b = Some t -> t < length K) as HK.
  { intros r b t Hb E. destruct (k_par _ _ _ _ _ _ HC _ _ _ Hb E) as (_ & b' & Hb' & _). by eapply lookup_lt_Some. }
  assert (forall r t, ound (K ++ [a]) r t <-> ound K r t) as HU.
  { intros r t. split; apply rtc_subrel; intros x y; by apply up_new. }
  assert (forall r b, (K ++ [a]) !! r = Some b -> (K !! r = Some b /\ r < c) \/ (r = c /\ b = a)) as Hback.
  { intros r b Hb. apply lookup_app_Some in Hb as [Hb|[Hl Hb]]; [left; split; auto; by eapply lookup_lt_Some|].
    destruct (r - length K) as [|k] eqn:E; [|done]. injection Hb as <-. right. split; auto. unfold c. lia. }
  assert (forall r b, K !! r = Some b -> (K ++ [a]) !! r = Some b /\ r <> c) as Hfwd.
  { intros r b Hb. split; [by apply lookup_app_l_Some|]. apply lookup_lt_Some in Hb. unfold c. lia. }
  assert ((K ++ [a]) !! c = Some a) as Hca by (by apply list_lookup_middle).
  assert (forall r, r <> c -> <[c := [p]]> sg r = sg r) as Hsg by (intros; by apply fn_lookup_insert_ne).
  assert (forall t, oroot K t -> oroot (K ++ [a]) t) as Hroot.
  { intros t (b & Hb & E). exists b. split; auto. by apply Hfwd. }
  constructor.
  - apply HC.
  - rewrite insert_length. apply HC.
  - intros q x H. destruct (decide (q = p)) as [->|Hne].
    + rewrite list_lookup_insert in H by done. injection H as <-. split; auto. split; [lia|]. exists a. split; auto.
    + rewrite list_lookup_insert_ne in H by auto. destruct (k_lab _ _ _ _ _ _ HC _ _ H) as (H1 & H2 & b & H3 & H4).
      split; auto. split; [lia|]. exists b. split; auto. by apply Hfwd.
  - intros r b [[Hb Hr]|[-> ->]]%Hback.
    + rewrite Hsg by lia. by apply (k_seg _ _ _ _ _ _ HC).
    + rewrite fn_lookup_insert. constructor; try done. apply NoDup_singleton.
  - intros r b [[Hb Hr]|[-> ->]]%Hback.
    + destruct (k_gray _ _ _ _ _ _ HC r b Hb) as (? & ? & ? & ?). split_and!; auto. lia.
    + cbn. auto.
  - intros r b [[Hb Hr]|[-> ->]]%Hback.
    + pose proof (k_head _ _ _ _ _ _ HC r b Hb) as H. rewrite list_lookup_insert_ne; auto. intros E. rewrite <-E in H. congruence.
    + cbn. by apply list_lookup_insert.
  - intros i j b b' Hij [[Hb Hr]|[-> ->]]%Hback [[Hb' Hr']|[-> ->]]%Hback; try lia; try by apply (k_sort _ _ _ _ _ _ HC i j).
    cbn. destruct (k_gray _ _ _ _ _ _ HC i b Hb) as (? & _). lia.
  - intros r b t Hb E. apply Hback in Hb as [[Hb Hr]|[-> ->]]; [|done].
    destruct (k_par _ _ _ _ _ _ HC r b t Hb E) as (H1 & b' & Hb' & H2). split; auto. exists b'. destruct (Hfwd _ _ Hb') as [? ?].
    split; auto. rewrite !Hsg by lia. done.
  - intros r b Hb E. apply Hback in Hb as [[Hb Hr]|[-> ->]]; [|done]. by apply (k_root _ _ _ _ _ _ HC r).
  - intros r b x Hb Hx. apply Hback in Hb as [[Hb Hr]|[-> ->]].
    + rewrite Hsg in Hx by lia. by apply (k_conn _ _ _ _ _ _ HC r).
    + rewrite fn_lookup_insert in Hx. apply elem_of_list_singleton in Hx as ->. cbn. apply vconn_refl; [done|]. cbn. lia.
  - intros r q [b Hb]. apply Hback in Hb as [[Hb Hr]|[-> ->]].
    + rewrite Hsg by lia. rewrite (k_mem _ _ _ _ _ _ HC) by eauto. split.
      * intros (x & Hx & Hu). exists x. rewrite list_lookup_insert_ne by (intros ->; congruence). split; auto. by apply HU.
      * intros (x & Hx & Hu). apply HU in Hu. destruct (decide (q = p)) as [->|Hn].
        -- rewrite list_lookup_insert in Hx by done. injection Hx as <-.
           inversion Hu as [|? y ? (b' & Hb' & _) _]; subst; [lia|]. apply lookup_lt_Some in Hb'. unfold c in Hb'. lia.
        -- rewrite list_lookup_insert_ne in Hx by auto. eauto.
    + rewrite fn_lookup_insert, elem_of_list_singleton. split.
      * intros ->. exists c. rewrite list_lookup_insert by done. split; auto. constructor.
      * intros (x & Hx & Hu). apply HU in Hu. destruct (decide (q = p)) as [->|Hn]; [done|]. rewrite list_lookup_insert_ne in Hx by auto.
        exfalso. destruct (ound_some (fun _ _ => False) g0 K next own sg HC x c) as [[? H] _]; auto; [by eapply (own_some _ _ _ _ _ _ HC)|].
        apply lookup_lt_Some in H. unfold c in H. lia.
  - intros q H1 H2. destruct (Hlow q H1 H2) as [x Hx]. exists x. rewrite list_lookup_insert_ne; auto. intros ->. congruence.
  - intros q y x Hx Hy Ha Hl Hn. rewrite list_lookup_insert_ne in Hx by auto.
    destruct (k_edge _ _ _ _ _ _ HC q y x) as (z & Hz & t & H1 & H2 & H3); auto.
    exists z. rewrite list_lookup_insert_ne by (intros ->; congruence). split; auto. exists t. split; auto. by rewrite !HU.
Qed.

(* ---------- short cuts ---------- *)
Notation KK regs := (strip <$> regs).
Definition shorts (regs : list oreg) : Prop := forall r a, regs !! r = Some a ->
  r <= o_short a /\ is_Some (regs !! o_short a) /\ (o_short a = r <-> o_par a = None) /\ joined (KK regs) r (o_short a).

Lemma strip_at (regs : list oreg) r a : regs !! r = Some a -> KK regs !! r = Some (strip a).
Proof. intros H. by rewrite list_lookup_fmap, H. Qed.
Lemma strip_same (regs regs' : list oreg) r a : KK regs' = KK regs -> regs' !! r = Some a -> exists a0, regs !! r = Some a0 /\ strip a = strip a0.
Proof.
  intros E H. apply strip_at in H. rewrite E in H. apply list_lookup_fmap_inv in H as (a0 & H1 & H2). eauto.
Qed.
Lemma strip_short a x : strip (oset_short a x) = strip a.
Proof. done. Qed.
Lemma strip_insert_short (regs : list oreg) r a x : regs !! r = Some a -> KK (<[r := oset_short a x]> regs) = KK regs.
Proof. intros H. rewrite list_fmap_insert, strip_short. apply list_insert_id. by apply strip_at. Qed.
Lemma strip_par a b : strip a = strip b -> o_par a = o_par b.
Proof. intros H. change (o_par (strip a) = o_par (strip b)). by rewrite H. Qed.

Lemma chase_ok pend g next own sg n c o (regs0 regs : list oreg) : core pend g (KK regs0) next own sg -> shorts regs0 -> KK regs = KK regs0 ->
  (forall r, o <= r -> regs !! r = regs0 !! r) -> is_Some (regs0 !! o) -> length regs0 - o < n ->
  exists t regs', o_chase n c o regs = Some (t, regs') /\ oroot (KK regs0) t /\ joined (KK regs0) o t /\ KK regs' = KK regs0 /\
    forall r a, regs' !! r = Some a -> regs !! r = Some a \/ (o_short a = c /\ joined (KK regs0) r t /\ o_par a <> None).
Proof using All.
  intros HC HS. revert o regs. induction n as [|n IH]; intros o regs HK Hsame [b Hb] Hn; [lia|].
  cbn [o_chase]. rewrite Hsame, Hb by lia. destruct (HS _ _ Hb) as (H1 & [b' H2] & H3 & H4). pose proof (lookup_lt_Some _ _ _ H2) as Hl.
  destruct (o_short b =? o) eqn:E.
  - apply Nat.eqb_eq in E. exists o, regs. split; [done|]. split; [exists (strip b); split; [by apply strip_at|by apply H3]|].
    split; [|auto]. rewrite E in H4. done.
  - apply Nat.eqb_neq in E. assert (regs !! o = Some b) as Hb1 by (by rewrite Hsame by lia).
    destruct (IH (o_short b) (<[o := oset_short b c]> regs)) as (t & regs' & E' & Hr & Hj & HK' & Hch).
    + by rewrite strip_insert_short.
    + intros r Hr. rewrite list_lookup_insert_ne by lia. apply Hsame. lia.
    + eauto.
    + lia.
    + exists t, regs'. split; [done|]. split; [done|]. assert (joined (KK regs0) o t) as Hjo by (by eapply joined_trans).
      split; [done|]. split; [done|]. intros r a Ha. destruct (Hch r a Ha) as [Ha1|]; [|auto].
      destruct (decide (r = o)) as [->|Hne]; [|rewrite list_lookup_insert_ne in Ha1 by auto; auto].
      rewrite list_lookup_insert in Ha1 by (by eapply lookup_lt_Some). injection Ha1 as <-. right. cbn. split_and!; auto. intros Hp. by apply E, H3.
Qed.

Lemma absorb_ok pend g (regs : list oreg) next own stk sg n c x top q bc : core pend g (KK regs) next own sg -> shorts regs -> (forall p y, pend p y -> lev p = g) ->
  S c = length regs -> regs !! c = Some bc -> o_par bc = None -> o_gray bc = g -> own !! top = Some (Some c) -> lev top = g ->
  own !! q = Some (Some x) -> adjP top q -> lev q <= g -> length regs < n ->
  exists regs' next' sg' bc', o_absorb n c (OSt regs next own stk) x = Some (OSt regs' next' own stk) /\ core pend g (KK regs') next' own sg' /\ shorts regs' /\
    length regs' = length regs /\ regs' !! c = Some bc' /\ o_par bc' = None /\ o_gray bc' = g /\ joined (KK regs') c x.
Proof using All.
  intros HC HS Hpd Hcl Hc Hcp Hcg Hot Hlt Hox Hadj Hlq Hn.
  destruct (own_some _ _ _ _ _ _ HC _ _ Hox) as [a' Ha]. apply list_lookup_fmap_inv in Ha as (a & -> & Ha).
  destruct (HS _ _ Ha) as (S1 & S2 & S3 & S4).
  assert (oroot (KK regs) c) as Rc by (exists (strip bc); split; [by apply strip_at|done]).
  unfold o_absorb. cbn [os_regs os_next os_own os_stk]. rewrite Ha.
  destruct (chase_ok pend g next own sg n c (o_short a) regs regs HC HS eq_refl) as (o & regs1 & Ech & Ro & Jo & HK & Hch); auto; [lia|].
  rewrite Ech. assert (joined (KK regs) x o) as Jx by (by eapply joined_trans).
  assert (length regs1 = length regs) as Hl1 by (rewrite <-(fmap_length strip regs1), HK, fmap_length; done).
  assert (is_Some (regs1 !! x)) as [a1 Ha1]. { apply lookup_lt_is_Some_2. rewrite Hl1. by eapply lookup_lt_Some. }
  rewrite Ha1. set (regs2 := <[x := oset_short a1 c]> regs1).
  assert (KK regs2 = KK regs) as HK2 by (unfold regs2; by rewrite strip_insert_short).
  assert (length regs2 = length regs) as Hl2 by (unfold regs2; by rewrite insert_length).
  assert (forall r b, regs2 !! r = Some b -> regs !! r = Some b \/ (o_short b = c /\ joined (KK regs) r o /\ (o_par b <> None \/ r = x))) as Hch2.
  { intros r b Hb. unfold regs2 in Hb. destruct (decide (r = x)) as [->|Hne].
    - rewrite list_lookup_insert in Hb by (by eapply lookup_lt_Some). injection Hb as <-. right. cbn. auto.
    - rewrite list_lookup_insert_ne in Hb by auto. destruct (Hch r b Hb) as [?|(?&?&?)]; auto. }
  assert (forall r, is_Some (regs !! r) -> is_Some (regs2 !! r)) as Hsm.
  { intros r H. apply lookup_lt_is_Some_2. rewrite Hl2. by apply lookup_lt_is_Some_1. }
  assert (o_par a1 = o_par a) as Epar. { destruct (strip_same regs regs1 x a1 HK Ha1) as (z & Hz & Ez). apply strip_par in Ez. congruence. }
  destruct (Hsm c ltac:(eauto)) as [bc1 Hbc1]. destruct (strip_same regs regs2 c bc1 HK2 Hbc1) as (z & Hz & Ebc).
  assert (z = bc) as -> by congruence. clear Hz.
  destruct (o =? c) eqn:Eoc.
  - apply Nat.eqb_eq in Eoc as ->. exists regs2, next, sg, bc1. rewrite HK2. split; [done|]. split; [done|]. split.
    { intros r b Hb. destruct (Hch2 r b Hb) as [Hr|(E1 & E2 & E3)].
      - destruct (HS r b Hr) as (H1 & H2 & H3 & H4). rewrite HK2. split_and!; auto; apply H3.
      - rewrite E1, HK2. pose proof (lookup_lt_Some _ _ _ Hb). split_and!; auto; [lia|].
        destruct E3 as [E3|Erx].
        + split; [intros <-|done]. exfalso. apply E3. assert (b = bc1) as -> by congruence. apply strip_par in Ebc. congruence.
        + split; [intros <-; assert (b = bc1) as -> by congruence; apply strip_par in Ebc; congruence|].
          intros Hp. subst r. assert (oroot (KK regs) x) as Rx.
          { exists (strip b). rewrite <-HK2. split; [by apply strip_at|done]. }
          apply (joined_root _ _ _ _ _ _ HC) in E2; auto. by apply (root_stop _ _ _ Rx) in E2. }
    split; [done|]. split; [done|]. split; [apply strip_par in Ebc; congruence|].
    split; [change (o_gray (strip bc1) = g); rewrite Ebc; done|]. by apply joined_sym.
  - apply Nat.eqb_neq in Eoc. destruct Ro as (bo' & Hbo' & Hop). apply list_lookup_fmap_inv in Hbo' as (bo0 & -> & Hbo0).
    destruct (Hsm o ltac:(eauto)) as [bo Hbo]. destruct (strip_same regs regs2 o bo HK2 Hbo) as (z & Hz & Ebo).
    assert (z = bo0) as -> by congruence. clear Hz. rewrite Hbo, Hbc1.
    assert (oroot (KK regs) o) as Ro by (exists (strip bo0); split; [by apply strip_at|done]).
    assert (o_tail bc1 = o_tail bc) as Etl by (change (o_tail (strip bc1) = o_tail (strip bc)); by rewrite Ebc).
    assert (o_tail bc ∈ sg c) as Htl.
    { change (o_tail bc) with (o_tail (strip bc)). apply (tail_in _ _ _ _ _ _ HC c). by apply strip_at. }
    assert (inP (o_tail bc)) as Itl. { eapply (seg_in _ _ _ _ _ _ HC c); auto. rewrite (strip_at regs c bc Hc). eauto. }
    unfold store. destruct (decide (o_tail bc1 < length next)) as [Hlt1|Hbad].
    2:{ exfalso. apply Hbad. rewrite Etl, (k_next _ _ _ _ _ _ HC). by apply inP_lt. }
    rewrite (proj2 (Nat.ltb_lt _ _) Hlt1).
    set (bo2 := OReg (o_head bo) (o_tail bo) (o_gray bo =? o_gray bc1) (o_flag bo) (o_gray bo) (o_size bo) (Some c) c (o_var bo)).
    set (bc2 := OReg (o_head bc1) (o_tail bo) (o_merged bc1) (o_flag bc1) (o_gray bc1) (o_size bc1 + o_size bo) (o_par bc1) (o_short bc1) (o_var bc1)).
    exists (<[c := bc2]> (<[o := bo2]> regs2)), (<[o_tail bc1 := Some (o_head bo)]> next), (<[c := sg c ++ sg o]> sg), bc2.
    assert (KK (<[c := bc2]> (<[o := bo2]> regs2)) = link (KK regs) c o (strip bc) (strip bo0)) as HK3.
    { unfold link. rewrite !list_fmap_insert, HK2, <-Ebc, <-Ebo. done. }
    assert (o < c) as Hoc. { apply lookup_lt_Some in Hbo0. lia. }
    pose proof (strip_at regs c bc Hc) as Kc. pose proof (strip_at regs o bo0 Hbo0) as Ko.
    assert (ound (KK regs) x o) as Uxo by (by apply (joined_root _ _ _ _ _ _ HC)).
    split; [done|]. split.
    { rewrite HK3, Etl. replace (o_head bo) with (o_head (strip bo0)) by (rewrite <-Ebo; done).
      change (o_tail bc) with (o_tail (strip bc)). apply (core_link pend g (KK regs) next own sg c o (strip bc) (strip bo0) top q); auto.
      - apply (k_mem _ _ _ _ _ _ HC); [eauto|]. exists c. split; auto. constructor.
      - apply (k_mem _ _ _ _ _ _ HC); [eauto|]. eauto. }
    assert (o_par bc1 = None) as Ep1 by (apply strip_par in Ebc; congruence).
    assert (o_gray bc1 = g) as Eg1 by (change (o_gray (strip bc1) = g); by rewrite Ebc).
    assert (<[c := bc2]> (<[o := bo2]> regs2) !! c = Some bc2) as L1 by (apply list_lookup_insert; rewrite insert_length; lia).
    assert (<[c := bc2]> (<[o := bo2]> regs2) !! o = Some bo2) as L2.
    { rewrite list_lookup_insert_ne by auto. apply list_lookup_insert. lia. }
    assert (forall r, r <> c -> r <> o -> <[c := bc2]> (<[o := bo2]> regs2) !! r = regs2 !! r) as L3.
    { intros r ? ?. by rewrite !list_lookup_insert_ne by auto. }
    assert (joined (KK regs) c c) as Jcc by (apply (joined_refl _ _ _ _ _ _ HC); eauto).
    assert (forall r, joined (KK regs) r o -> joined (KK (<[c := bc2]> (<[o := bo2]> regs2))) r c) as Jr.
    { intros r Hr. rewrite HK3. apply link_join; auto. by apply (joined_root _ _ _ _ _ _ HC). }
    split.
    { intros r b Hb. pose proof (lookup_lt_Some _ _ _ Hb) as Hrl. rewrite !insert_length, Hl2 in Hrl. destruct (decide (r = c)) as [->|Hrc].
      - rewrite L1 in Hb. injection Hb as <-. cbn [o_short o_par bc2].
        assert (o_short bc1 = c) as ->.
        { destruct (Hch2 c bc1 Hbc1) as [Hr|(E1 & _)]; auto. destruct (HS c bc1 Hr) as (_ & _ & H3 & _). by apply H3. }
        split; [done|]. split; [rewrite L1; eauto|]. split; [done|]. rewrite HK3. by apply link_joined.
      - destruct (decide (r = o)) as [->|Hro].
        + rewrite L2 in Hb. injection Hb as <-. cbn [o_short o_par bo2]. split; [lia|]. split; [rewrite L1; eauto|]. split; [split; [lia|done]|].
          apply Jr. apply (joined_refl _ _ _ _ _ _ HC). eauto.
        + rewrite L3 in Hb by auto. destruct (Hch2 r b Hb) as [Hr|(E1 & E2 & E3)].
          * destruct (HS r b Hr) as (H1 & H2 & H3 & H4). split; [done|]. split; [|split; [done|rewrite HK3; by apply link_joined]].
            apply lookup_lt_is_Some_2. rewrite !insert_length, Hl2. by apply lookup_lt_is_Some_1.
          * rewrite E1. split; [lia|]. split; [rewrite L1; eauto|]. split; [|by apply Jr]. split; [intros <-; done|]. intros Hp. exfalso.
            destruct E3 as [?|Erx]; [done|]. subst r. assert (oroot (KK regs) x) as Rx.
            { exists (strip b). rewrite <-HK2. split; [by apply strip_at|done]. }
            apply Hro. symmetry. by apply (root_stop _ _ _ Rx). }
    split; [by rewrite !insert_length|]. split; [done|]. split; [done|]. split; [done|]. apply joined_sym, Jr. done.
Qed.

(* ---------- the stack ---------- *)
Definition free (own : list (option nat)) : nat := length (filter (fun p => own !! p = Some None) pts).
Definition grows (own own' : list (option nat)) : Prop := forall p x, own !! p = Some (Some x) -> own' !! p = Some (Some x).
Definition waits (stk : list nat) (top : nat) (ds : list Z) (p y : nat) : Prop := p ∈ stk \/ (p = top /\ y ∈ ((fun d => Z.to_nat (Z.of_nat top + d)) <$> ds)).

Record finv (pend : nat -> nat -> Prop) (g c : nat) (st : ost) (sg : nat -> list nat) : Prop := {
  f_core : core pend g (KK (os_regs st)) (os_next st) (os_own st) sg;
  f_short : shorts (os_regs st);
  f_last : S c = length (os_regs st);
  f_cur : exists bc, os_regs st !! c = Some bc /\ o_par bc = None /\ o_gray bc = g;
  f_nd : NoDup (os_stk st);
  f_stk : forall p, p ∈ os_stk st -> os_own st !! p = Some (Some c) /\ lev p = g
}.

Lemma waits_dec stk top ds p y : waits stk top ds p y \/ ~ waits stk top ds p y.
Proof. unfold waits. destruct (decide (p ∈ stk)), (decide (p = top)), (decide (y ∈ ((fun d => Z.to_nat (Z.of_nat top + d)) <$> ds))); tauto. Qed.

Lemma filter_same (own : list (option nat)) p x (l : list nat) : p ∉ l ->
  filter (fun y => <[p := Some x]> own !! y = Some None) l = filter (fun y => own !! y = Some None) l.
Proof.
  induction l as [|y l IH]; intros Hp; [done|]. apply not_elem_of_cons in Hp as [Hp1 Hp2]. rewrite !filter_cons, IH by done.
  by rewrite (list_lookup_insert_ne own p y) by done.
Qed.
Lemma filter_take (own : list (option nat)) q x (l : list nat) : NoDup l -> own !! q = Some None -> q ∈ l ->
  length (filter (fun p => <[q := Some x]> own !! p = Some None) l) + 1 = length (filter (fun p => own !! p = Some None) l).
Proof.
  intros Hn Hq. pose proof (lookup_lt_Some _ _ _ Hq) as Hl. induction Hn as [|p l Hp Hl' IH]; [intros []%elem_of_nil|].
  intros [->|Hin']%elem_of_cons.
  - rewrite !filter_cons, filter_same by done. rewrite decide_False by (rewrite list_lookup_insert; done). rewrite decide_True by done. cbn [length]. lia.
  - rewrite !filter_cons. assert (p <> q) as Hne by (intros ->; done). rewrite (list_lookup_insert_ne own q p) by auto.
    specialize (IH Hin'). destruct (decide (own !! p = Some None)); cbn [length]; lia.
Qed.
Lemma free_take own q x : own !! q = Some None -> q ∈ pts -> free (<[q := Some x]> own) + 1 = free own.
Proof using All. apply filter_take. done. Qed.

Lemma in_pts_len l : NoDup l -> (forall p, p ∈ l -> inP p) -> length l <= length pts.
Proof using Hpin. intros H1 H2. apply submseteq_length, NoDup_submseteq; [done|]. intros p Hp. by apply Hpin, H2. Qed.

Lemma take_ok g c st sg top q ds d : finv (waits (os_stk st) top (d :: ds)) g c st sg -> top ∉ os_stk st -> os_own st !! top = Some (Some c) -> lev top = g ->
  q = Z.to_nat (Z.of_nat top + d) -> inP q -> adjP top q -> lev q <= g -> os_own st !! q = Some None ->
  exists st' sg', o_take cap c st q = Some st' /\ finv (waits (os_stk st') top ds) g c st' sg' /\ top ∉ os_stk st' /\ os_own st' !! top = Some (Some c) /\
    grows (os_own st) (os_own st') /\ free (os_own st') + length (os_stk st') = free (os_own st) + length (os_stk st) /\ length (os_regs st') = length (os_regs st).
Proof using All.
  intros HF Hts Hot Hlt Eq Iq Hadj Hlq Hun. destruct st as [regs next own stk]. destruct HF as [HC HS Hcl (bc & Hc & Hcp & Hcg) Hnd Hst]. cbn in *.
  unfold o_take. cbn [os_regs os_next os_own os_stk]. rewrite Hc.
  assert (o_tail bc ∈ sg c) as Htl.
  { change (o_tail bc) with (o_tail (strip bc)). apply (tail_in _ _ _ _ _ _ HC c). by apply strip_at. }
  assert (inP (o_tail bc)) as Itl. { eapply (seg_in _ _ _ _ _ _ HC c); auto. rewrite (strip_at regs c bc Hc). eauto. }
  pose proof (strip_at regs c bc Hc) as Kc.
  unfold store. destruct (decide (o_tail bc < length next)) as [Hlt1|Hbad]; [|exfalso; apply Hbad; rewrite (k_next _ _ _ _ _ _ HC); by apply inP_lt].
  rewrite (proj2 (Nat.ltb_lt _ _) Hlt1). pose proof (lookup_lt_Some _ _ _ Hun) as Hql. rewrite (proj2 (Nat.ltb_lt _ _) Hql).
  assert (q ∉ stk) as Hqs. { intros H. apply Hst in H as [H _]. congruence. }
  assert (NoDup (q :: stk)) as Hnd' by (by apply NoDup_cons).
  assert (length (q :: stk) <= length pts) as Hlen.
  { apply in_pts_len; auto. intros p [->|Hp]%elem_of_cons; auto. apply Hst in Hp as [Hp _]. by apply (k_lab _ _ _ _ _ _ HC) in Hp as (? & _). }
  cbn [length] in Hlen. rewrite (proj2 (Nat.leb_gt _ _)) by lia.
  assert (lev q = g) as Elq. { destruct (decide (lev q < g)) as [Hl|]; [|lia]. destruct (k_low _ _ _ _ _ _ HC q Iq Hl). congruence. }
  pose proof (core_take _ g _ next own sg c (strip bc) top q HC Kc Hcp Hcg) as HT.
  assert (top ∈ sg c) as Htc. { apply (k_mem _ _ _ _ _ _ HC); [eauto|]. exists c. split; auto. constructor. }
  specialize (HT Htc Hlt Iq Hadj Hlq Hun).
  set (bc' := OReg (o_head bc) q (o_merged bc) (o_flag bc) (o_gray bc) (S (o_size bc)) (o_par bc) (o_short bc) (o_var bc)).
  assert (KK (<[c := bc']> regs) = <[c := reg_take (strip bc) q]> (KK regs)) as HK by (by rewrite list_fmap_insert).
  assert (c < length regs) as Hcl' by lia.
  eexists _, (<[c := sg c ++ [q]]> sg). split; [reflexivity|]. cbn [os_regs os_next os_own os_stk].
  assert (own !! q <> Some (Some c)) as _ by congruence.
  split; [|split_and!].
  - constructor; cbn [os_regs os_next os_own os_stk]; auto.
    + rewrite HK. eapply core_pend; [..|exact HT].
      * intros p y x Hx Hy Hpy Hly Hw Hnw. cbn in Hw. unfold waits in Hw, Hnw.
        destruct Hw as [[Hw|[-> Hw]]| ->].
        -- exfalso. apply Hnw. left. by apply elem_of_list_further.
        -- rewrite fmap_cons in Hw. apply elem_of_cons in Hw as [->|Hw]; [|exfalso; apply Hnw; right; auto]. rewrite <-Eq.
           exists c. rewrite list_lookup_insert by done. split; auto.
           rewrite list_lookup_insert_ne in Hx by congruence. assert (x = c) as -> by congruence.
           apply (joined_refl _ _ _ _ _ _ HT). rewrite list_lookup_insert by (rewrite fmap_length; lia). eauto.
        -- exfalso. apply Hnw. left. apply elem_of_list_here.
      * intros p y. destruct (waits_dec stk top (d :: ds) p y), (decide (p = q)); tauto.
    + intros r b Hb. destruct (decide (r = c)) as [->|Hrc].
      * rewrite list_lookup_insert in Hb by done. injection Hb as <-. destruct (HS c bc Hc) as (H1 & H2 & H3 & H4). cbn [o_short o_par bc'].
        split; [done|]. split; [apply lookup_lt_is_Some_2; rewrite insert_length; by apply lookup_lt_is_Some_1|]. split; [done|].
        replace (o_short bc) with c by (symmetry; by apply H3). rewrite HK. apply (joined_refl _ _ _ _ _ _ HT).
        rewrite list_lookup_insert by (rewrite fmap_length; lia). eauto.
      * rewrite list_lookup_insert_ne in Hb by auto. destruct (HS r b Hb) as (H1 & H2 & H3 & (t & H4 & H5 & H6)).
        split; [done|]. split; [apply lookup_lt_is_Some_2; rewrite insert_length; by apply lookup_lt_is_Some_1|]. split; [done|].
        rewrite HK. exists t. split; [by eapply root_take|]. split; eapply und_take; eauto.
    + by rewrite insert_length.
    + exists bc'. rewrite list_lookup_insert by done. auto.
    + intros p [->|Hp]%elem_of_cons; [by rewrite list_lookup_insert|]. destruct (Hst p Hp) as [H1 H2]. split; auto.
      rewrite list_lookup_insert_ne; auto. intros ->. congruence.
  - intros [->|?]%elem_of_cons; [congruence|done].
  - rewrite list_lookup_insert_ne; auto. intros ->. congruence.
  - intros p x Hx. rewrite list_lookup_insert_ne; auto. intros ->. congruence.
  - pose proof (free_take own q c Hun ltac:(by apply Hpin)). cbn [length]. lia.
  - by rewrite insert_length.
Qed.

Lemma fewer g stk top d ds regs next own sg c : core (waits stk top (d :: ds)) g (KK regs) next own sg -> own !! top = Some (Some c) ->
  (inP (Z.to_nat (Z.of_nat top + d)) -> lev (Z.to_nat (Z.of_nat top + d)) <= lev top -> exists y, own !! Z.to_nat (Z.of_nat top + d) = Some (Some y) /\ joined (KK regs) c y) ->
  core (waits stk top ds) g (KK regs) next own sg.
Proof using All.
  intros HC Hot H. eapply core_pend; [..|exact HC]; [|apply waits_dec].
  intros p y x Hx Hy Hpy Hly Hw Hnw. unfold waits in Hw, Hnw. destruct Hw as [Hw|[-> Hw]]; [tauto|].
  rewrite fmap_cons in Hw. apply elem_of_cons in Hw as [->|Hw]; [|tauto]. assert (x = c) as -> by congruence. auto.
Qed.

Lemma visit_ok n g c st sg top d ds : finv (waits (os_stk st) top (d :: ds)) g c st sg -> d ∈ offs -> top ∉ os_stk st ->
  os_own st !! top = Some (Some c) -> lev top = g -> length (os_regs st) < n ->
  exists st' sg', o_visit n cap img c top st d = Some st' /\ finv (waits (os_stk st') top ds) g c st' sg' /\ top ∉ os_stk st' /\ os_own st' !! top = Some (Some c) /\
    grows (os_own st) (os_own st') /\ free (os_own st') + length (os_stk st') = free (os_own st) + length (os_stk st) /\ length (os_regs st') = length (os_regs st).
Proof using All.
  intros HF Hd Hts Hot Hlt Hn. pose proof (f_core _ _ _ _ _ HF) as HC.
  destruct (k_lab _ _ _ _ _ _ HC _ _ Hot) as (Itop & _). destruct (Hin top d Itop Hd) as [Hz Hql].
  unfold o_visit. rewrite (proj2 (Z.ltb_ge _ _)) by lia. set (q := Z.to_nat (Z.of_nat top + d)) in *.
  destruct (lookup_lt_is_Some_2 _ _ Hql) as [v Hv]. rewrite Hv. destruct Itop as (u & Hu & Hu0). rewrite Hu.
  assert (inP top) as Itop by (exists u; auto).
  assert (lev q = Z.to_nat v) as Eq by (by apply lev_val). assert (lev top = Z.to_nat u) as Et by (by apply lev_val).
  assert (finv (waits (os_stk st) top ds) g c st sg -> exists st' sg', Some st = Some st' /\ finv (waits (os_stk st') top ds) g c st' sg' /\ top ∉ os_stk st' /\ os_own st' !! top = Some (Some c) /\
    grows (os_own st) (os_own st') /\ free (os_own st') + length (os_stk st') = free (os_own st) + length (os_stk st) /\ length (os_regs st') = length (os_regs st)) as Hstay.
  { intros H. exists st, sg. split_and!; auto. intros p x Hp. done. }
  assert (finv (waits (os_stk st) top (d :: ds)) g c st sg -> (inP q -> lev q <= lev top -> False) -> finv (waits (os_stk st) top ds) g c st sg) as Hno.
  { intros [F1 F2 F3 F4 F5 F6] H. constructor; auto. eapply fewer; eauto. intros H1 H2. by destruct (H H1 H2). }
  destruct (v <? 0)%Z eqn:E1.
  { apply Z.ltb_lt in E1. apply Hstay, Hno; auto. intros (v' & Hv' & ?). replace v' with v in * by congruence. lia. }
  apply Z.ltb_ge in E1. destruct (v <=? u)%Z eqn:E2.
  2:{ apply Z.leb_gt in E2. apply Hstay, Hno; auto. intros. lia. }
  apply Z.leb_le in E2. assert (inP q) as Iq by (exists v; auto). assert (adjP top q) as Hadj by (exists d; auto).
  destruct (lookup_lt_is_Some_2 (os_own st) q) as [w Hw]; [rewrite (k_own _ _ _ _ _ _ HC); done|]. rewrite Hw. destruct w as [x|].
  - destruct HF as [_ F2 F3 (bc & F4 & F5 & F6) F7 F8]. destruct st as [regs next own stk]. cbn [os_regs os_next os_own os_stk] in *.
    destruct (absorb_ok (waits stk top (d :: ds)) g regs next own stk sg n c x top q bc) as (regs' & next' & sg' & bc' & E & HC' & HS' & Hl' & A1 & A2 & A3 & A4); auto; [|lia|].
    { intros p y [Hp|[-> _]]; [by apply F8|done]. }
    rewrite E. eexists _, sg'. split; [reflexivity|]. cbn [os_regs os_next os_own os_stk]. split_and!; auto; [|intros p y Hp; done].
    constructor; cbn [os_regs os_next os_own os_stk]; auto; [|lia|eauto]. eapply fewer; eauto.
  - eapply take_ok; eauto. lia.
Qed.

Lemma around_ok n g c top ds st sg : finv (waits (os_stk st) top ds) g c st sg -> (forall d, d ∈ ds -> d ∈ offs) -> top ∉ os_stk st ->
  os_own st !! top = Some (Some c) -> lev top = g -> length (os_regs st) < n ->
  exists st' sg', sweep (o_visit n cap img c top) ds st = Some st' /\ finv (fun p _ => p ∈ os_stk st') g c st' sg' /\
    grows (os_own st) (os_own st') /\ free (os_own st') + length (os_stk st') = free (os_own st) + length (os_stk st) /\ length (os_regs st') = length (os_regs st).
Proof using All.
  revert st sg. induction ds as [|d ds IH]; intros st sg HF Hds Hts Hot Hlt Hn.
  - exists st, sg. split; [done|]. split; [|split_and!; auto; intros p x Hp; done]. destruct HF as [F1 F2 F3 F4 F5 F6]. constructor; auto.
    eapply core_pend; [..|exact F1]; [|apply waits_dec]. intros p q x _ _ _ _ [?|[-> []%elem_of_nil]] ?. done.
  - destruct (visit_ok n g c st sg top d ds) as (st1 & sg1 & E1 & F1 & T1 & O1 & G1 & M1 & L1); auto; [apply Hds, elem_of_list_here|].
    destruct (IH st1 sg1 F1) as (st' & sg' & E & F' & G' & M' & L'); auto; [intros; apply Hds; by apply elem_of_list_further|lia|].
    exists st', sg'. cbn [sweep]. rewrite E1. split; [done|]. split; [done|]. split_and!; [|lia|lia]. intros p x Hp. by apply G', G1.
Qed.

Lemma flood_ok n g c m st sg : finv (fun p _ => p ∈ os_stk st) g c st sg -> length (os_regs st) < n -> free (os_own st) + length (os_stk st) < m ->
  exists st' sg', o_flood m n cap img offs c st = Some st' /\ finv (fun _ _ => False) g c st' sg' /\ os_stk st' = [] /\
    grows (os_own st) (os_own st') /\ length (os_regs st') = length (os_regs st).
Proof using All.
  revert st sg. induction m as [|m IH]; intros st sg HF Hn Hm; [lia|]. cbn [o_flood]. destruct (os_stk st) as [|top k] eqn:Ek.
  - exists st, sg. split; [done|]. split; [|split_and!; auto; intros p x Hp; done]. destruct HF as [F1 F2 F3 F4 F5 F6]. constructor; auto.
    eapply core_pend; [..|exact F1].
    + intros p q x _ _ _ _ Hw. by apply elem_of_nil in Hw.
    + intros p q. right. apply not_elem_of_nil.
  - destruct HF as [F1 F2 F3 F4 F5 F6]. rewrite Ek in F5, F6. apply NoDup_cons in F5 as [N1 N2].
    destruct (F6 top ltac:(apply elem_of_list_here)) as [O1 O2].
    destruct (around_ok n g c top offs (OSt (os_regs st) (os_next st) (os_own st) k) sg) as (st1 & sg1 & E1 & G1 & G2 & G3 & G4); cbn [os_regs os_next os_own os_stk]; auto.
    { constructor; cbn [os_regs os_next os_own os_stk]; auto; [|intros p Hp; apply F6; by apply elem_of_list_further].
      eapply core_pend; [..|exact F1].
      - intros p y x Hx Hy (d & Hd & Hpos & ->) Hly Hw Hnw. exfalso. apply Hnw. apply elem_of_cons in Hw as [->|Hw]; [right|by left].
        split; auto. apply elem_of_list_fmap. eauto.
      - intros p y. destruct (decide (p ∈ top :: k)); tauto. }
    cbn [os_regs os_next os_own os_stk] in *. rewrite E1. cbn [length] in Hm.
    destruct (IH st1 sg1 G1 ltac:(lia) ltac:(lia)) as (st' & sg' & E & H1 & H2 & H3 & H4). exists st', sg'. split_and!; auto; [|lia].
    intros p x Hp. by apply H3, G2.
Qed.

(* ---------- the pass ---------- *)
Record pinv (g : nat) (st : ost) (sg : nat -> list nat) : Prop := {
  p_core : core (fun _ _ => False) g (KK (os_regs st)) (os_next st) (os_own st) sg;
  p_short : shorts (os_regs st);
  p_stk : os_stk st = []
}.

Lemma heads_nd pend g K next own sg : core pend g K next own sg -> NoDup (o_head <$> K).
Proof using All.
  intros HC. apply NoDup_alt. intros i j p Hi Hj. apply list_lookup_fmap_inv in Hi as (a & -> & Ha). apply list_lookup_fmap_inv in Hj as (b & E & Hb).
  pose proof (k_head _ _ _ _ _ _ HC i a Ha) as H1. pose proof (k_head _ _ _ _ _ _ HC j b Hb) as H2. rewrite E in H1. congruence.
Qed.

Lemma regs_room pend g K next own sg p : core pend g K next own sg -> inP p -> own !! p = Some None -> length K < length pts.
Proof using All.
  intros HC Ip Hp. pose proof (in_pts_len (p :: (o_head <$> K))) as H. cbn [length] in H. rewrite fmap_length in H. apply H.
  - apply NoDup_cons. split; [|by eapply heads_nd]. intros (a & -> & Ha)%elem_of_list_fmap. apply elem_of_list_lookup in Ha as [r Ha].
    rewrite (k_head _ _ _ _ _ _ HC r a Ha) in Hp. done.
  - intros q [->|Hq]%elem_of_cons; auto. apply elem_of_list_fmap in Hq as (a & -> & Ha). apply elem_of_list_lookup in Ha as [r Ha].
    pose proof (k_head _ _ _ _ _ _ HC r a Ha) as H1. by apply (k_lab _ _ _ _ _ _ HC) in H1 as (? & _).
Qed.

Lemma seed_ok n g0 st sg p : pinv g0 st sg -> inP p -> g0 <= lev p -> (forall q, inP q -> lev q < lev p -> exists x, os_own st !! q = Some (Some x)) ->
  length pts + 1 < n -> exists g st' sg', o_seed n cap rcap img offs st p = Some st' /\ pinv g st' sg' /\ g <= lev p /\
    grows (os_own st) (os_own st') /\ exists x, os_own st' !! p = Some (Some x).
Proof using All.
  intros [HC HS Hk] Ip Hg Hlow Hn. destruct (Ip) as (v & Hv & Hv0). unfold o_seed. rewrite Hv.
  destruct (lookup_lt_is_Some_2 (os_own st) p) as [w Hw]. { rewrite (k_own _ _ _ _ _ _ HC). by apply inP_lt. }
  rewrite Hw. destruct w as [x|].
  - exists g0, st, sg. split_and!; auto; [by constructor|intros q y Hq; done|eauto].
  - assert (length (os_regs st) < length pts) as Hroom. { rewrite <-(fmap_length strip). by eapply regs_room. }
    rewrite Hk. cbn [length]. rewrite (proj2 (Nat.leb_gt _ _)) by lia. rewrite (proj2 (Nat.leb_gt _ _)) by lia. cbn [orb].
    set (c := length (os_regs st)). rewrite <-(lev_val p v Hv).
    pose proof (core_new (fun _ _ => False) g0 _ _ _ _ p (lev p) v HC Hv Hv0 eq_refl Hg Hw Hlow) as HN. rewrite fmap_length in HN. fold c in HN.
    pose proof (lookup_lt_Some _ _ _ Hw) as Hpl.
    set (a := OReg p p false 0 (lev p) 1 None c fminus1).
    set (st1 := OSt (os_regs st ++ [a]) (os_next st) (<[p := Some c]> (os_own st)) [p]).
    assert (KK (os_regs st1) = KK (os_regs st) ++ [strip (reg_new p (lev p) c)]) as HK by (unfold st1; cbn [os_regs]; by rewrite fmap_app).
    assert (free (os_own st) <= length pts) as Hfl by (apply filter_length).
    destruct (flood_ok n (lev p) c n st1 (<[c := [p]]> sg)) as (st' & sg' & E & F' & K' & G' & L').
    + constructor; unfold st1; cbn [os_regs os_next os_own os_stk].
      * rewrite fmap_app. change (strip <$> [a]) with [strip (reg_new p (lev p) c)]. eapply core_pend; [..|exact HN].
        -- intros q y x _ _ _ _ -> H. exfalso. apply H, elem_of_list_here.
        -- intros q y. destruct (decide (q = p)); tauto.
      * assert (oroot (KK (os_regs st1)) c) as Rc.
        { exists (strip a). rewrite list_lookup_fmap. unfold st1. cbn [os_regs]. rewrite (list_lookup_middle _ [] a c eq_refl). done. }
        unfold st1 in Rc. cbn [os_regs] in Rc. intros r b Hb. apply lookup_app_Some in Hb as [Hb|[Hl Hb]].
        -- destruct (HS r b Hb) as (H1 & [b' H2] & H3 & (t & (bt & H4 & H4') & H5 & H6)). split; [done|]. split; [exists b'; by apply lookup_app_l_Some|]. split; [done|].
           rewrite fmap_app. exists t. split; [exists bt; split; [by apply lookup_app_l_Some|done]|].
           assert (forall x y, ound (KK (os_regs st)) x y -> ound (KK (os_regs st) ++ KK [a]) x y) as HU.
           { intros x y. apply rtc_subrel. intros x' y' (z & Hz & Ez). exists z. split; auto. by apply lookup_app_l_Some. }
           auto.
        -- destruct (r - length (os_regs st)) as [|k] eqn:Er; [|done]. injection Hb as <-. assert (r = c) as -> by (unfold c; lia). cbn [o_short o_par a].
           split; [done|]. split; [rewrite (list_lookup_middle _ [] a c eq_refl); eauto|]. split; [done|]. exists c. split_and!; auto; constructor.
      * rewrite app_length. cbn. unfold c. lia.
      * exists a. rewrite (list_lookup_middle _ [] a c eq_refl). auto.
      * apply NoDup_singleton.
      * intros q ->%elem_of_list_singleton. rewrite list_lookup_insert by done. auto.
    + unfold st1. cbn [os_regs]. rewrite app_length. cbn. lia.
    + unfold st1. cbn [os_own os_stk length]. pose proof (free_take (os_own st) p c Hw ltac:(by apply Hpin)). lia.
    + exists (lev p), st', sg'. split; [exact E|]. destruct F' as [F1 F2 F3 F4 F5 F6]. split; [by constructor|]. split; [done|].
      unfold st1 in G'. cbn [os_own] in G'. split.
      * intros q x Hq. apply G'. rewrite list_lookup_insert_ne; auto. intros ->. congruence.
      * exists c. apply G'. by apply list_lookup_insert.
Qed.

Context (Hsort : forall pre p suf q, pts = pre ++ p :: suf -> q ∈ suf -> lev p <= lev q).

Theorem pass_ok n : length pts + 1 < n -> exists g st sg, o_pass n cap rcap img offs pts [] = Some st /\ pinv g st sg /\ forall p, inP p -> exists x, os_own st !! p = Some (Some x).
Proof using All.
  intros Hn. unfold o_pass.
  destruct (sweep_inv (o_seed n cap rcap img offs) (fun pre st => exists g sg, pinv g st sg /\ (forall q, q ∈ pre -> exists x, os_own st !! q = Some (Some x)) /\
    forall p suf, pts = pre ++ p :: suf -> g <= lev p) pts (OSt [] (replicate (length img) None) (replicate (length img) None) [])) as (st & E & g & sg & H1 & H2 & H3).
  - exists 0, (fun _ => []). split_and!; [|by intros q []%elem_of_nil|lia]. constructor; cbn [os_regs os_next os_own os_stk]; [|done|done].
    constructor; try done; try (by rewrite replicate_length); try lia.
    + intros p x H. apply lookup_replicate in H as [? _]. done.
    + intros r p [? ?]. done.
    + intros p q x H. apply lookup_replicate in H as [? _]. done.
  - intros pre p suf st Ev (g & sg & H1 & H2 & H3). assert (inP p) as Ip. { apply Hpin. rewrite Ev. apply elem_of_app. right. apply elem_of_list_here. }
    destruct (seed_ok n g st sg p H1 Ip (H3 _ _ Ev)) as (g' & st' & sg' & E & P' & Hg' & G' & x & Hx); auto.
    { intros q Iq Hl. apply H2. apply Hpin in Iq. rewrite Ev in Iq. apply elem_of_app in Iq as [|[->|Hq]%elem_of_cons]; [done|lia|].
      pose proof (Hsort _ _ _ _ Ev Hq). lia. }
    exists st'. split; [done|]. exists g', sg'. split; [done|]. split.
    + intros q [Hq| ->%elem_of_list_singleton]%elem_of_app; [|eauto]. destruct (H2 q Hq) as [y Hy]. exists y. by apply G'.
    + intros p' suf' Ev'. assert (suf = p' :: suf') as ->. { rewrite Ev, <-app_assoc in Ev'. by apply app_inv_head in Ev' as [= ->]. }
      etrans; [exact Hg'|]. eapply Hsort; [exact Ev|]. apply elem_of_list_here.
  - exists g, st, sg. split; [done|]. split; [done|]. intros p Ip. apply H2. by apply Hpin.
Qed.
End build.
