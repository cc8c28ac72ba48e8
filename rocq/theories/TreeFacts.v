(* Facts about parent-pointer tables: ancestor chains, the equivalence generated
   by parent links below a level, re-hanging a subtree, counting. Used for joining. *)
From stdpp Require Import sorting relations functions list.
From Verif Require Import Spec TreeSpec.

(* ---------- equivalence closures ---------- *)
Section eqv.
Context {A : Type}.
Implicit Types R : A -> A -> Prop.

Lemma rtsc_refl' R x : rtsc R x x.
Proof. apply rtc_refl. Qed.
Lemma rtsc_sym' R x y : rtsc R x y -> rtsc R y x.
Proof. intros H. by symmetry. Qed.
Lemma rtsc_trans' R x y z : rtsc R x y -> rtsc R y z -> rtsc R x z.
Proof. apply rtc_transitive. Qed.
Lemma rtsc_once' R x y : R x y -> rtsc R x y.
Proof. intros H. apply rtc_once. by left. Qed.
Lemma rtsc_sub R R' x y : (forall a b, R a b -> rtsc R' a b) -> rtsc R x y -> rtsc R' x y.
Proof.
  intros Hs H. induction H as [x|x y z Hxy _ IH]; [apply rtc_refl|].
  eapply rtsc_trans'; [|exact IH]. destruct Hxy as [Hxy|Hxy]; [auto|]. apply rtsc_sym'. auto.
Qed.

(* adding one pair to an equivalence *)
Definition plus R (a b : A) : A -> A -> Prop := fun x y => R x y \/ (x = a /\ y = b).
Lemma rtsc_plus R a b x y : rtsc (plus R a b) x y <->
  rtsc R x y \/ (rtsc R x a /\ rtsc R b y) \/ (rtsc R x b /\ rtsc R a y).
Proof.
  split.
  - intros H. induction H as [x|x y z Hxy _ IH]; [left; apply rtc_refl|].
    assert (rtsc R x y \/ (x = a /\ y = b) \/ (x = b /\ y = a)) as Hs.
    { destruct Hxy as [[H|[-> ->]]|[H|[-> ->]]]; auto.
      - left. by apply rtsc_once'.
      - left. by apply rtsc_sym', rtsc_once'. }
    destruct Hs as [Hs|[[-> ->]|[-> ->]]].
    + destruct IH as [IH|[[I1 I2]|[I1 I2]]].
      * left. by eapply rtsc_trans'.
      * right. left. split; auto. by eapply rtsc_trans'.
      * right. right. split; auto. by eapply rtsc_trans'.
    + destruct IH as [IH|[[I1 I2]|[I1 I2]]].
      * right. left. split; auto. apply rtc_refl.
      * right. left. split; auto. apply rtc_refl.
      * left. auto.
    + destruct IH as [IH|[[I1 I2]|[I1 I2]]].
      * right. right. split; auto. apply rtc_refl.
      * left. auto.
      * right. right. split; auto. apply rtc_refl.
  - assert (forall u v, rtsc R u v -> rtsc (plus R a b) u v) as Hm.
    { intros u v. apply rtsc_sub. intros c d Hcd. apply rtsc_once'. by left. }
    assert (rtsc (plus R a b) a b) as Hab. { apply rtsc_once'. right. auto. }
    intros [H|[[H1 H2]|[H1 H2]]]; auto.
    + eapply rtsc_trans'; [apply Hm, H1|]. eapply rtsc_trans'; [exact Hab|]. auto.
    + eapply rtsc_trans'; [apply Hm, H1|]. eapply rtsc_trans'; [apply rtsc_sym', Hab|]. auto.
Qed.
End eqv.

(* ---------- cardinalities ---------- *)
Lemma card_ext P Q n : (forall p, P p <-> Q p) -> card_is P n -> card_is Q n.
Proof. intros He (l & H1 & H2 & H3). exists l. split; auto. split; auto. intros p. by rewrite H2. Qed.
Lemma card_unique P n m : card_is P n -> card_is P m -> n = m.
Proof.
  intros (l & H1 & H2 & <-) (l' & H1' & H2' & <-). apply Permutation_length.
  apply NoDup_Permutation; auto. intros x. by rewrite H2, H2'.
Qed.
Lemma card_union P Q n m : card_is P n -> card_is Q m -> (forall p, P p -> Q p -> False) ->
  card_is (fun p => P p \/ Q p) (n + m).
Proof.
  intros (l & H1 & H2 & <-) (l' & H1' & H2' & <-) Hd. exists (l ++ l'). split; [|split].
  - apply NoDup_app. split; auto. split; auto. intros x Hx Hx'. apply H2 in Hx. apply H2' in Hx'. eauto.
  - intros p. by rewrite elem_of_app, H2, H2'.
  - by rewrite app_length.
Qed.
Lemma card_diff P Q n m : card_is P n -> card_is Q m -> (forall p, Q p -> P p) ->
  exists k, n = k + m /\ card_is (fun p => P p /\ ~ Q p) k.
Proof.
  intros (l & H1 & H2 & <-) (l' & H1' & H2' & <-) Hs. exists (length (filter (fun x => x ∉ l') l)).
  split.
  - rewrite <-app_length. apply Permutation_length. apply NoDup_Permutation; auto.
    + apply NoDup_app. split; [by apply NoDup_filter|]. split; auto.
      intros x Hx Hx'. apply elem_of_list_filter in Hx as [? _]. done.
    + intros x. rewrite elem_of_app, elem_of_list_filter. split.
      * intros Hx. destruct (decide (x ∈ l')); auto.
      * intros [[_ Hx]|Hx]; auto. apply H2, Hs, H2'. done.
  - exists (filter (fun x => x ∉ l') l). split; [by apply NoDup_filter|]. split; auto.
    intros p. rewrite elem_of_list_filter, H2, H2'. tauto.
Qed.

Section tab.
Context {I : Type} `{EqDecision I}.
Implicit Types T : I -> option (vreg I).

(* levels and dead regions behave, and chains end *)
Record wf T : Prop := {
  wf_par : forall r a t, T r = Some a -> v_par a = Some t ->
    exists b, T t = Some b /\ (v_gray a < v_gray b \/ (v_gray a = v_gray b /\ v_live a = false));
  wf_dead : forall r a, T r = Some a -> v_live a = false ->
    exists t b, v_par a = Some t /\ T t = Some b /\ v_gray b = v_gray a;
  wf_acyc : forall r a, T r = Some a -> exists t b, vunder T r t /\ T t = Some b /\ v_par b = None
}.

Lemma vup_fun T x y z : vup T x y -> vup T x z -> y = z.
Proof. intros (a & Ha & H1) (b & Hb & H2). congruence. Qed.

(* ancestors of a common descendant are comparable *)
Lemma vunder_linear T x y z : vunder T x y -> vunder T x z -> vunder T y z \/ vunder T z y.
Proof.
  intros H. revert z. induction H as [x|x x' y Hx Hy IH]; intros z Hz; auto.
  inversion Hz as [|? x2 ? Hx2 Hz']; subst.
  - right. by eapply rtc_l.
  - rewrite (vup_fun _ _ _ _ Hx2 Hx) in Hz'. auto.
Qed.

Lemma vunder_gray T x y a b : wf T -> T x = Some a -> T y = Some b -> vunder T x y ->
  v_gray a <= v_gray b.
Proof.
  intros HW Hx Hy H. revert a Hx. induction H as [x|x x' y Hu _ IH]; intros a Hx.
  - assert (a = b) as -> by congruence. lia.
  - destruct Hu as (a' & Ha' & Hp). assert (a' = a) as -> by congruence.
    destruct (wf_par _ HW _ _ _ Hx Hp) as (c & Hc & Hg). specialize (IH Hy _ Hc). lia.
Qed.
(* strictly above a live region levels are strictly larger *)
Lemma vunder_live T x y a b : wf T -> T x = Some a -> T y = Some b -> v_live a = true ->
  vunder T x y -> x = y \/ v_gray a < v_gray b.
Proof.
  intros HW Hx Hy Hl H. inversion H as [|? x' ? Hu Hr]; subst; auto. right.
  destruct Hu as (a' & Ha' & Hp). assert (a' = a) as -> by congruence.
  destruct (wf_par _ HW _ _ _ Hx Hp) as (c & Hc & [Hg|[_ Hg]]); [|congruence].
  pose proof (vunder_gray _ _ _ _ _ HW Hc Hy Hr). lia.
Qed.
Lemma vunder_dom T x y a : wf T -> T x = Some a -> vunder T x y -> exists b, T y = Some b.
Proof.
  intros HW Hx H. revert a Hx. induction H as [x|x x' y Hu _ IH]; intros a Hx; eauto.
  destruct Hu as (a' & Ha' & Hp). destruct (wf_par _ HW _ _ _ Ha' Hp) as (c & Hc & _). eauto.
Qed.

(* the finite list of ancestors *)
Lemma chain_list T x t b : vunder T x t -> T t = Some b -> v_par b = None ->
  exists l : list I, forall r, vunder T x r <-> r ∈ l.
Proof.
  intros H Ht Hn. induction H as [x|x x' t Hu _ IH].
  - exists [x]. intros r. rewrite elem_of_list_singleton. split.
    + intros Hr. inversion Hr as [|? y ? Hu _]; subst; auto.
      destruct Hu as (a & Ha & Hp). congruence.
    + intros ->. apply rtc_refl.
  - destruct (IH Ht) as (l & Hl). exists (x :: l). intros r. rewrite elem_of_cons, <-Hl. split.
    + intros Hr. inversion Hr as [|? y ? Hu' Hr']; subst; auto.
      rewrite (vup_fun _ _ _ _ Hu' Hu) in Hr'. auto.
    + intros [->|Hr]; [apply rtc_refl|]. by eapply rtc_l.
Qed.
Lemma vunder_dec T x y : wf T -> vunder T x y \/ ~ vunder T x y.
Proof.
  intros HW. destruct (T x) as [a|] eqn:Hx.
  - destruct (wf_acyc _ HW _ _ Hx) as (t & b & H1 & H2 & H3).
    destruct (chain_list _ _ _ _ H1 H2 H3) as (l & Hl). rewrite Hl.
    destruct (decide (y ∈ l)); auto.
  - destruct (decide (x = y)) as [->|Hne]; [left; apply rtc_refl|]. right. intros H.
    inversion H as [|? z ? Hu _]; subst; auto. destruct Hu as (? & ? & _). congruence.
Qed.

Lemma vunder_antisym T x y a : wf T -> T x = Some a -> vunder T x y -> vunder T y x -> x = y.
Proof.
  intros HW Hx Hxy Hyx. destruct (decide (x = y)) as [|Hne]; auto. exfalso.
  destruct (wf_acyc _ HW _ _ Hx) as (t & b & Ht & Hb & Hn).
  (* walking to the root leaves the cycle x .. y .. x, impossible *)
  assert (forall n z, vunder T x z -> nsteps (vup T) n z t -> vunder T z x -> False) as Hloop.
  { induction n as [|n IH]; intros z Hxz Hn' Hzx.
    - inversion Hn'; subst. assert (t = x) as Htx.
      { inversion Hzx as [|? u ? Hu _]; subst; auto. destruct Hu as (c & Hc & Hp). congruence. }
      subst t. inversion Hxy as [|? u ? Hu _]; subst; auto. destruct Hu as (c & Hc & Hp). congruence.
    - inversion Hn' as [|? ? z' ? Hz Hn'']; subst. apply (IH z'); auto.
      + eapply rtc_r; eauto.
      + inversion Hzx as [|? z2 ? Hz2 Hr]; subst.
        * (* z = x: go around through y *)
          inversion Hxy as [|? x1 ? Hx1 Hr1]; subst; [done|].
          rewrite (vup_fun _ _ _ _ Hz Hx1). by etrans.
        * by rewrite (vup_fun _ _ _ _ Hz Hz2). }
  apply rtc_nsteps in Ht as [n Hn']. eapply (Hloop n x); eauto. all: apply rtc_refl.
Qed.

(* the surviving region a region stands for *)
Lemma real_exists T x a : wf T -> T x = Some a ->
  exists y b, vunder T x y /\ T y = Some b /\ v_live b = true /\ v_gray b = v_gray a /\
    (forall z c, vunder T x z -> T z = Some c -> v_live c = true -> vunder T y z).
Proof.
  intros HW Hx. destruct (wf_acyc _ HW _ _ Hx) as (t & b & Ht & Hb & Hn).
  revert a Hx. induction Ht as [x|x x' t Hu Hr IH]; intros a Hx.
  - assert (a = b) as -> by congruence. exists x, b. split; [apply rtc_refl|]. split; auto.
    split; [|split; auto]. destruct (v_live b) eqn:Hl; auto.
    destruct (wf_dead _ HW _ _ Hb Hl) as (? & ? & ? & _). congruence.
  - destruct (v_live a) eqn:Hl.
    + exists x, a. split; [apply rtc_refl|]. auto.
    + destruct (wf_dead _ HW _ _ Hx Hl) as (x2 & c & Hp & Hc & Hg).
      assert (x2 = x') as ->. { eapply vup_fun; [|exact Hu]. exists a; auto. }
      destruct (IH Hb _ Hc) as (y & d & H1 & H2 & H3 & H4 & H5). exists y, d.
      split; [by eapply rtc_l|]. split; auto. split; auto. split; [congruence|].
      intros z e Hz He Hle. inversion Hz as [|? x3 ? Hu3 Hz']; subst; [congruence|].
      rewrite (vup_fun _ _ _ _ Hu3 Hu) in Hz'. eauto.
Qed.

(* ---------- the equivalence below a level ---------- *)
Definition edge T (g : nat) (x y : I) : Prop :=
  exists a b, T x = Some a /\ v_par a = Some y /\ T y = Some b /\ v_gray b <= g.
Notation E T g := (rtsc (edge T g)).

Lemma edge_vup T g x y : edge T g x y -> vup T x y.
Proof. intros (a & b & ? & ? & ?). exists a. auto. Qed.

Lemma vunder_E T g x y b : wf T -> vunder T x y -> T y = Some b -> v_gray b <= g -> E T g x y.
Proof.
  intros HW H Hy Hg. induction H as [x|x x' y Hu Hr IH]; [apply rtc_refl|].
  destruct Hu as (a & Ha & Hp). destruct (wf_par _ HW _ _ _ Ha Hp) as (c & Hc & _).
  eapply rtc_l; [|apply IH; auto]. left. exists a, c. repeat split; auto.
  pose proof (vunder_gray _ _ _ _ _ HW Hc Hy Hr). lia.
Qed.

Lemma E_common T g x y : wf T -> E T g x y -> x = y \/
  exists r b, vunder T x r /\ vunder T y r /\ T r = Some b /\ v_gray b <= g.
Proof.
  intros HW H. induction H as [x|x y z Hxy _ IH]; auto. right.
  destruct Hxy as [Hxy|Hxy].
  - pose proof (edge_vup _ _ _ _ Hxy) as Hu. destruct Hxy as (a & b & Hx & Hp & Hy & Hg).
    destruct IH as [->|(r & c & H1 & H2 & H3 & H4)].
    + exists z, b. split; [by apply rtc_once|]. split; [apply rtc_refl|]. auto.
    + exists r, c. split; [by eapply rtc_l|]. auto.
  - pose proof (edge_vup _ _ _ _ Hxy) as Hu. destruct Hxy as (a & b & Hy & Hp & Hx & Hg).
    destruct IH as [<-|(r & c & H1 & H2 & H3 & H4)].
    + exists x, b. split; [apply rtc_refl|]. split; [by apply rtc_once|]. auto.
    + inversion H1 as [|? y' ? Hu' Hr]; subst.
      * (* r = y *)
        exists x, b. split; [apply rtc_refl|]. split; [|auto]. eapply rtc_r; eauto.
      * rewrite (vup_fun _ _ _ _ Hu' Hu) in Hr. exists r, c. auto.
Qed.

(* ---------- updating one region ---------- *)
Definition upd T T' (s : I) (v : vreg I) : Prop := forall i, T' i = if decide (i = s) then Some v else T i.

Lemma upd_vup T T' s v x y : upd T T' s v -> x <> s -> vup T' x y <-> vup T x y.
Proof. intros HU Hx. unfold vup. rewrite (HU x). by rewrite decide_False. Qed.

(* paths that stay below s are not affected *)
Lemma upd_below T T' s v x r : upd T T' s v -> vunder T x r -> vunder T r s -> wf T ->
  (exists a, T x = Some a) -> vunder T' x r.
Proof.
  intros HU H Hrs HW [a Ha]. revert a Ha. induction H as [x|x x' r Hu Hr IH]; intros a Ha; [apply rtc_refl|].
  destruct (decide (x = s)) as [->|Hne].
  - (* s -> x' ->* r ->* s would be a cycle *)
    assert (vunder T s r) as Hsr by (by eapply rtc_l).
    assert (s = r) as -> by (by eapply vunder_antisym). apply rtc_refl.
  - destruct Hu as (a' & Ha' & Hp). destruct (wf_par _ HW _ _ _ Ha' Hp) as (c & Hc & _).
    eapply rtc_l; [|eapply IH; eauto]. eapply upd_vup; eauto. exists a'; auto.
Qed.
Lemma upd_avoid T T' s v x r : upd T T' s v -> vunder T x r -> ~ vunder T x s -> vunder T' x r.
Proof.
  intros HU H Hs. induction H as [x|x x' r Hu Hr IH]; [apply rtc_refl|].
  eapply rtc_l; [|apply IH].
  - eapply upd_vup; eauto. intros ->. apply Hs, rtc_refl.
  - intros Hs'. apply Hs. by eapply rtc_l.
Qed.
Lemma upd_avoid_inv T T' s v x r : upd T T' s v -> vunder T' x r -> ~ vunder T x s -> vunder T x r.
Proof.
  intros HU H. induction H as [x|x x' r Hu Hr IH]; intros Hs; [apply rtc_refl|].
  assert (x <> s) as Hne. { intros ->. apply Hs, rtc_refl. }
  apply (upd_vup T T' s v) in Hu; auto. eapply rtc_l; [exact Hu|]. apply IH.
  intros Hs'. apply Hs. by eapply rtc_l.
Qed.

(* re-hanging s below t, where t is not below s *)
Section rehang.
Context T T' s v t (HW : wf T) (HU : upd T T' s v) (Hv : v_par v = Some t)
  (a : vreg I) (Hs : T s = Some a) (Ht : ~ vunder T t s).

Lemma rehang_out x r : ~ vunder T x s -> vunder T' x r <-> vunder T x r.
Proof. intros Hx. split; [|by intros; eapply upd_avoid]. intros H. by eapply upd_avoid_inv. Qed.
Lemma rehang_s : vup T' s t.
Proof. exists v. rewrite (HU s), decide_True by auto. auto. Qed.
Lemma rehang_in x r : (exists b, T x = Some b) -> vunder T x s ->
  vunder T' x r <-> (vunder T x r /\ vunder T r s) \/ vunder T t r.
Proof.
  intros Hx Hxs. split.
  - intros H. revert Hx Hxs. induction H as [x|x x' r Hu Hr IH]; intros Hx Hxs.
    + left. split; auto. apply rtc_refl.
    + destruct (decide (x = s)) as [->|Hne].
      * right. assert (x' = t) as ->. { eapply vup_fun; [exact Hu|exact rehang_s]. }
        by apply rehang_out.
      * apply (upd_vup T T' s v) in Hu; auto.
        assert (vunder T x' s) as Hx's.
        { inversion Hxs as [|? x2 ? Hu2 Hr2]; subst; [done|]. by rewrite (vup_fun _ _ _ _ Hu Hu2). }
        destruct IH as [[H1 H2]|H1]; auto.
        { destruct Hu as (c & Hc & Hp). destruct (wf_par _ HW _ _ _ Hc Hp) as (d & Hd & _). eauto. }
        left. split; auto. by eapply rtc_l.
  - intros [[H1 H2]|H1].
    + by eapply upd_below.
    + assert (vunder T' x s) as Hxs'. { eapply upd_below; eauto. apply rtc_refl. }
      eapply rtc_transitive; [exact Hxs'|]. eapply rtc_l; [exact rehang_s|]. by apply rehang_out.
Qed.
End rehang.
End tab.
