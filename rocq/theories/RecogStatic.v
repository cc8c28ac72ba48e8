(* Facts about the tree that recognition starts from. *)
From stdpp Require Import sorting relations functions list.
From Coq Require Import NArith ZArith SpecFloat.
From Verif Require Import Spec TreeSpec TreeFacts JoinMath FloodModel ConnectModel ConnectProof FloatModel
  RecogModel RecogSpec.

(* SPEC: a forest recognition may start from: a well-formed tree of unclassified or
   merged regions of byte level that know their partition *)
Record rstart (F : forest) : Prop := {
  rs_wf : wf (tab F);
  rs_reg : forall k i a, fget F (k, i) = Some a ->
    g_patch a = k /\ g_gray a <= 255 /\ (g_flag a = 0 \/ g_flag a = 3)
}.

Section static.
Context (F0 : forest) (H0 : rstart F0).
Let HW := rs_wf F0 H0.

(* resolved pointer, resolved parent, distance to the root *)
Definition rp (o : option rref) : option rref :=
  match real (S (nregs F0)) F0 o with Some r => r | None => None end.
Definition RP (x : rref) : option rref :=
  match fget F0 x with Some a => rp (g_par a) | None => None end.
Fixpoint up_len (n : nat) (o : option rref) : nat :=
  match n, o with
  | S n', Some x => match fget F0 x with Some a => S (up_len n' (g_par a)) | None => 0 end
  | _, _ => 0
  end.
Definition dp (o : option rref) : nat := up_len (S (nregs F0)) o.
Definition stored (o : option rref) : Prop := forall x, o = Some x -> is_Some (fget F0 x).

Lemma up_len_ok n x t b m : nsteps (vup (tab F0)) n x t -> tab F0 t = Some b -> v_par b = None -> n < m ->
  up_len m (Some x) = S n.
Proof.
  clear H0 HW. revert n x. induction m as [|m IH]; intros n x Hs Hb Hn Hlt; [lia|].
  destruct n as [|n].
  - inversion Hs; subst. destruct (get_tab _ _ _ Hb) as (a & Ha & ->). cbn [up_len]. rewrite Ha.
    simpl in Hn. rewrite Hn. destruct m; done.
  - inversion Hs as [|? ? y ? Hx Hs']; subst. destruct Hx as (v & Hv & Hp).
    destruct (get_tab _ _ _ Hv) as (a & Ha & ->). cbn [up_len]. rewrite Ha. simpl in Hp. rewrite Hp.
    f_equal. apply (IH n y); auto. lia.
Qed.

Lemma dp_some x a : fget F0 x = Some a -> dp (Some x) = S (dp (g_par a)) /\ dp (Some x) <= nregs F0.
Proof.
  intros Ha. destruct (depth_bound F0 x a HW Ha) as (n & t & b & Hs & Hb & Hn & Hlt).
  unfold dp. rewrite (up_len_ok n x t b) by (auto; lia). split; [|lia]. f_equal.
  destruct n as [|n].
  - inversion Hs; subst. rewrite (tab_get _ _ _ Ha) in Hb. injection Hb as <-. simpl in Hn. by rewrite Hn.
  - inversion Hs as [|? ? y ? Hx Hs']; subst. destruct Hx as (v & Hv & Hp).
    rewrite (tab_get _ _ _ Ha) in Hv. injection Hv as <-. simpl in Hp. rewrite Hp.
    symmetry. eapply up_len_ok; eauto. lia.
Qed.

Lemma par_stored x a : fget F0 x = Some a -> stored (g_par a).
Proof.
  intros Ha t Ht. destruct (wf_par _ HW x (vr a) t (tab_get _ _ _ Ha) Ht) as (b & Hb & _).
  destruct (get_tab _ _ _ Hb) as (c & -> & _). eauto.
Qed.

Lemma rp_none : rp None = None.
Proof. done. Qed.
Lemma rp_live x a : fget F0 x = Some a -> g_flag a <> 3 -> rp (Some x) = Some x.
Proof. clear. intros Ha Hf. unfold rp. cbn [real]. rewrite Ha. by destruct (Nat.eqb_spec (g_flag a) 3). Qed.
Lemma rp_some x a : fget F0 x = Some a -> exists y b, rp (Some x) = Some y /\ fget F0 y = Some b /\
  g_flag b <> 3 /\ vunder (tab F0) x y /\ g_gray b = g_gray a /\
  (forall z c, vunder (tab F0) x z -> tab F0 z = Some c -> v_live c = true -> vunder (tab F0) y z).
Proof.
  intros Ha. destruct (real_ok F0 x a (S (nregs F0)) HW Ha) as (y & d & E & ? & ? & ? & ? & ?); [lia|].
  exists y, d. unfold rp. rewrite E. auto 10.
Qed.
Lemma rp_dead x a : fget F0 x = Some a -> g_flag a = 3 -> rp (Some x) = rp (g_par a).
Proof.
  intros Ha Hf. destruct (wf_dead _ HW x (vr a) (tab_get _ _ _ Ha)) as (t & v & Hp & Hv & Hg).
  { simpl. by rewrite Hf. }
  destruct (get_tab _ _ _ Hv) as (b & Hb & ->). simpl in Hp.
  destruct (real_ok F0 t b (nregs F0) HW Hb) as (y & d & E & _); [lia|].
  destruct (real_ok F0 t b (S (nregs F0)) HW Hb) as (y' & d' & E' & _ & _ & _ & _); [lia|].
  unfold rp. rewrite Hp. rewrite E'. assert (real (S (nregs F0)) F0 (Some x) = real (nregs F0) F0 (Some t)) as ->.
  { set (n := nregs F0). cbn [real]. rewrite Ha, Hf. cbn [Nat.eqb]. by rewrite Hp. }
  rewrite E.
  assert (forall n F o r, real n F o = Some r -> real (S n) F o = Some r) as Hmono.
  { clear. induction n as [|n IH]; intros F o r H; [done|]. cbn [real] in H |- *. destruct o as [x|]; auto.
    destruct (fget F x) as [a|]; auto. destruct (g_flag a =? 3); auto. apply IH in H. exact H. }
  apply Hmono in E. congruence.
Qed.
Lemma rp_stored o : stored o -> stored (rp o).
Proof.
  intros Ho x Hx. destruct o as [y|]; [|done]. destruct (Ho y eq_refl) as [a Ha].
  destruct (rp_some y a Ha) as (z & b & E & Hb & _). rewrite E in Hx. injection Hx as ->. eauto.
Qed.
Lemma rp_eq_none o : stored o -> rp o = None <-> o = None.
Proof.
  intros Ho. split; [|by intros ->]. destruct o as [y|]; auto. destruct (Ho y eq_refl) as [a Ha].
  destruct (rp_some y a Ha) as (z & b & -> & _). done.
Qed.

Lemma RP_some x a y : fget F0 x = Some a -> g_flag a <> 3 -> RP x = Some y -> exists b, fget F0 y = Some b /\
  g_flag b <> 3 /\ sparent (tab F0) x y /\ g_gray a < g_gray b.
Proof.
  intros Ha Hfa. unfold RP. rewrite Ha. destruct (g_par a) as [t|] eqn:Hp; [|done]. intros Hy.
  destruct (wf_par _ HW x (vr a) t (tab_get _ _ _ Ha) Hp) as (v & Hv & Hg).
  destruct (get_tab _ _ _ Hv) as (c & Hc & ->).
  destruct (rp_some t c Hc) as (y' & b & E & Hb & Hfb & Hu & Hgb & Hmin). rewrite E in Hy. injection Hy as ->.
  simpl in Hg. destruct (Nat.eqb_spec (g_flag a) 3) as [|_]; [done|]. simpl in Hg.
  assert (g_gray a < g_gray b) as Hlt by (destruct Hg as [|[_ ?]]; [lia|done]).
  exists b. split; auto. split; auto. split; auto.
  assert (forall d, g_flag d <> 3 -> v_live (vr d) = true) as Hlv.
  { clear. intros d Hd. simpl. destruct (Nat.eqb_spec (g_flag d) 3); done. }
  split; [exists (vr a); split; [by apply tab_get|auto]|]. split; [exists (vr b); split; [by apply tab_get|auto]|].
  split; [intros ->; rewrite Ha in Hb; injection Hb as ->; lia|].
  assert (vup (tab F0) x t) as Hup. { exists (vr a). split; [by apply tab_get|done]. }
  split; [by eapply rtc_l|].
  intros u d Hxu Hd Hl. inversion Hxu as [|? t' ? Hup' Hr]; subst; auto.
  rewrite (vup_fun _ _ _ _ Hup' Hup) in Hr. right. eauto.
Qed.

Lemma RP_none x a : fget F0 x = Some a -> RP x = None <-> g_par a = None.
Proof. intros Ha. unfold RP. rewrite Ha. apply rp_eq_none. by eapply par_stored. Qed.

Lemma sparent_RP x y : sparent (tab F0) x y <-> (exists a, fget F0 x = Some a /\ g_flag a <> 3) /\ RP x = Some y.
Proof.
  split.
  - intros ((a' & Ha' & Hl) & (b' & Hb' & Hlb) & Hne & Hu & Hmin).
    destruct (get_tab _ _ _ Ha') as (a & Ha & ->). split.
    { exists a. split; auto. by apply live_flag. }
    inversion Hu as [|? t ? Hup Hr]; subst; [done|]. destruct Hup as (v & Hv & Hp).
    rewrite (tab_get _ _ _ Ha) in Hv. injection Hv as <-. simpl in Hp.
    destruct (RP x) as [y'|] eqn:E; [|apply (RP_none x a Ha) in E; congruence].
    destruct (RP_some x a y' Ha) as (b2 & Hb2 & Hf2 & Hsp & Hlt); auto. { by apply live_flag. }
    destruct Hsp as (_ & (b2' & Hb2' & Hl2) & Hne2 & Hu2 & Hmin2). f_equal.
    destruct (Hmin y' b2') as [->|H1]; auto; [done|].
    destruct (Hmin2 y b') as [->|H2]; auto; [done|].
    eapply vunder_antisym; eauto.
  - intros ((a & Ha & Hf) & E). by destruct (RP_some x a y Ha Hf E) as (b & _ & _ & ? & _).
Qed.

Lemma dp_rp o : stored o -> dp (rp o) <= dp o.
Proof.
  remember (dp o) as n eqn:En. assert (dp o <= n) as Hle by lia. clear En. revert o Hle.
  induction n as [|n IH]; intros o Hle Ho.
  - destruct o as [x|]; [|done]. destruct (Ho x eq_refl) as [a Ha]. destruct (dp_some x a Ha) as [H _]. lia.
  - destruct o as [x|]; [|unfold dp; simpl; lia]. destruct (Ho x eq_refl) as [a Ha].
    destruct (decide (g_flag a = 3)) as [Hf|Hf].
    + rewrite (rp_dead x a Ha Hf). destruct (dp_some x a Ha) as [H _].
      assert (dp (rp (g_par a)) <= n); [|lia]. apply IH; [lia|]. by eapply par_stored.
    + rewrite (rp_live x a Ha Hf). done.
Qed.
Lemma dp_RP x a y : fget F0 x = Some a -> RP x = Some y -> dp (Some y) < dp (Some x).
Proof.
  intros Ha E. destruct (dp_some x a Ha) as [H _]. rewrite H. unfold RP in E. rewrite Ha in E. rewrite <-E.
  apply Nat.lt_succ_r. apply dp_rp. by eapply par_stored.
Qed.

(* ---------- climbing to the level of the threshold ---------- *)
Definition gray0 (x : rref) : nat := match fget F0 x with Some a => g_gray a | None => 0 end.
Definition size0 (x : rref) : nat := match fget F0 x with Some a => g_size a | None => 0 end.
Definition live0 (x : rref) : Prop := exists a, fget F0 x = Some a /\ g_flag a <> 3.

Lemma live0_RP x y : live0 x -> RP x = Some y -> live0 y /\ gray0 x < gray0 y.
Proof.
  intros (a & Ha & Hf) E. destruct (RP_some x a y Ha Hf E) as (b & Hb & Hfb & _ & Hlt).
  split; [by exists b|]. unfold gray0. by rewrite Ha, Hb.
Qed.

Fixpoint top_n (n : nat) (thr : Z) (x : rref) : rref :=
  match n with
  | O => x
  | S n' => match RP x with
            | Some y => if (Z.of_nat (gray0 y) <=? thr)%Z then top_n n' thr y else x
            | None => x
            end
  end.
Definition top (thr : Z) (x : rref) : rref := top_n (nregs F0) thr x.

Lemma top_n_ext thr x n m : live0 x -> dp (Some x) <= n -> dp (Some x) <= m -> top_n n thr x = top_n m thr x.
Proof.
  revert x m. induction n as [|n IH]; intros x m Hx Hn Hm.
  - destruct Hx as (a & Ha & _). destruct (dp_some x a Ha) as [H _]. lia.
  - destruct m as [|m].
    { destruct Hx as (a & Ha & _). destruct (dp_some x a Ha) as [H _]. lia. }
    cbn [top_n]. destruct (RP x) as [y|] eqn:E; auto. destruct (_ <=? _)%Z; auto.
    pose proof Hx as (a & Ha & _). pose proof (dp_RP x a y Ha E). apply IH; [|lia..]. by eapply live0_RP.
Qed.
Lemma dp_le x : live0 x -> dp (Some x) <= nregs F0.
Proof. intros (a & Ha & _). by destruct (dp_some x a Ha). Qed.
Lemma top_up thr x y : live0 x -> RP x = Some y -> (Z.of_nat (gray0 y) <= thr)%Z -> top thr x = top thr y.
Proof.
  intros Hx E Hle. pose proof (dp_le x Hx). unfold top at 1. destruct (live0_RP x y Hx E) as [Hy _].
  destruct Hx as (a & Ha & Hf). pose proof (dp_RP x a y Ha E). destruct (nregs F0) as [|n] eqn:En; [lia|].
  cbn [top_n]. rewrite E. destruct (Z.leb_spec (Z.of_nat (gray0 y)) thr); [|lia].
  unfold top. apply top_n_ext; auto; lia.
Qed.
Lemma top_stop thr x : live0 x -> (forall y, RP x = Some y -> (thr < Z.of_nat (gray0 y))%Z) -> top thr x = x.
Proof.
  intros Hx Hs. unfold top. destruct (nregs F0) as [|n]; auto. cbn [top_n]. destruct (RP x) as [y|]; auto.
  specialize (Hs y eq_refl). destruct (Z.leb_spec (Z.of_nat (gray0 y)) thr); [lia|done].
Qed.

(* induction along surviving ancestors *)
Lemma live0_ind (Q : rref -> Prop) :
  (forall x, live0 x -> (forall y, RP x = Some y -> Q y) -> Q x) -> forall x, live0 x -> Q x.
Proof.
  intros H x. remember (dp (Some x)) as n eqn:En. assert (dp (Some x) <= n) as Hle by lia. clear En.
  revert x Hle. induction n as [|n IH]; intros x Hle Hx.
  - destruct Hx as (a & Ha & _). destruct (dp_some x a Ha) as [Hd _]. lia.
  - apply H; auto. intros y E. pose proof Hx as (a & Ha & _). pose proof (dp_RP x a y Ha E).
    apply IH; [lia|]. by eapply live0_RP.
Qed.

Lemma top_spec thr x : live0 x -> live0 (top thr x) /\
  (forall y, RP (top thr x) = Some y -> (thr < Z.of_nat (gray0 y))%Z) /\
  (top thr x = x \/ (Z.of_nat (gray0 (top thr x)) <= thr)%Z) /\
  vunder (tab F0) x (top thr x) /\
  (forall u, live0 u -> vunder (tab F0) x u -> (Z.of_nat (gray0 u) <= thr)%Z -> vunder (tab F0) u (top thr x)).
Proof.
  intros Hx. revert x Hx. apply (live0_ind (fun x => _)). intros x Hx IH.
  destruct (RP x) as [y|] eqn:E.
  - destruct (proj2 (sparent_RP x y) (conj Hx E)) as (_ & (vb & Hvb & _) & Hne & Hu & Hmin).
    destruct (Z.leb_spec (Z.of_nat (gray0 y)) thr) as [Hle|Hlt].
    + rewrite (top_up thr x y Hx E Hle). destruct (IH y eq_refl) as (I1 & I2 & I3 & I4 & I5).
      split; auto. split; auto. split; [right; destruct I3 as [->|?]; [lia|auto]|]. split; [etrans; [exact Hu|exact I4]|].
      intros u Hlu Hxu Hg. destruct Hlu as (c & Hc & Hfc).
      destruct (Hmin u (vr c) Hxu (tab_get _ _ _ Hc)) as [->|H1].
      { simpl. destruct (Nat.eqb_spec (g_flag c) 3); done. }
      * etrans; [exact Hu|exact I4].
      * apply I5; auto. by exists c.
    + assert (top thr x = x) as Ht. { apply top_stop; auto. intros y' Hy'. rewrite E in Hy'. injection Hy' as <-. lia. }
      rewrite Ht. split; auto. split; [intros y' Hy'; rewrite E in Hy'; injection Hy' as <-; lia|].
      split; auto. split; [apply rtc_refl|]. intros u Hlu Hxu Hg. destruct Hlu as (c & Hc & Hfc).
      destruct (Hmin u (vr c) Hxu (tab_get _ _ _ Hc)) as [->|H1]; [|apply rtc_refl|].
      { simpl. destruct (Nat.eqb_spec (g_flag c) 3); done. }
      exfalso. pose proof (vunder_gray _ _ _ _ _ HW Hvb (tab_get _ _ _ Hc) H1) as Hgg.
      destruct (get_tab _ _ _ Hvb) as (b & Hb & ->). unfold gray0 in *. rewrite Hc, Hb in *. simpl in Hgg. lia.
  - assert (top thr x = x) as Ht. { apply top_stop; auto. intros y' Hy'. congruence. }
    rewrite Ht. split; auto. split; [intros y' Hy'; congruence|]. split; auto. split; [apply rtc_refl|].
    intros u Hlu Hxu Hg. destruct Hx as (a & Ha & Hf). apply (RP_none x a Ha) in E.
    inversion Hxu as [|? t ? (v & Hv & Hp) Hr]; subst; [apply rtc_refl|].
    rewrite (tab_get _ _ _ Ha) in Hv. injection Hv as <-. simpl in Hp. congruence.
Qed.

(* the variation of a region, as a function of the tree *)
Definition VAR (P : rparam) (x : rref) : flt :=
  let thr := (Z.of_nat (gray0 x) + p_delta P)%Z in
  let t := top thr x in
  if (match RP t with Some _ => true | None => false end) || (Z.of_nat (gray0 t) =? thr)%Z
  then f32_growth (size0 t) (size0 x) else fminus1.
Definition BASE (P : rparam) (x : rref) : bool :=
  negb (fgt (VAR P x) (p_stable P) || bad_limits P (size0 x) (RP x)).

(* defined variations pass down to children of the adjacent level *)
Definition has_var (P : rparam) (x : rref) : bool :=
  let thr := (Z.of_nat (gray0 x) + p_delta P)%Z in
  let t := top thr x in
  (match RP t with Some _ => true | None => false end) || (Z.of_nat (gray0 t) =? thr)%Z.

Lemma has_var_child P x y : live0 x -> RP x = Some y -> gray0 y = gray0 x + 1 ->
  has_var P y = true -> has_var P x = true.
Proof.
  intros Hx E Hg Hy. destruct (live0_RP x y Hx E) as [Hly _]. unfold has_var in *.
  set (tx := (Z.of_nat (gray0 x) + p_delta P)%Z) in *.
  replace (Z.of_nat (gray0 y) + p_delta P)%Z with (tx + 1)%Z in Hy by (unfold tx; lia).
  destruct (RP (top tx x)) as [z|] eqn:Ez; [done|]. cbn [orb]. exfalso.
  (* the climb from x ends at the root *)
  assert ((Z.of_nat (gray0 y) <= tx)%Z) as Hle.
  { destruct (Z.leb_spec (Z.of_nat (gray0 y)) tx) as [|Hlt]; auto. exfalso.
    rewrite (top_stop tx x) in Ez; auto; [congruence|]. intros y' Hy'. rewrite E in Hy'. injection Hy' as <-. lia. }
  rewrite (top_up tx x y) in Ez; auto.
  destruct (top_spec tx y Hly) as (T1 & T2 & T3 & T4 & T5).
  assert (top (tx + 1) y = top tx y) as Ht.
  { clear - Hly Ez HW. revert y Hly Ez. apply (live0_ind (fun y => RP (top tx y) = None -> top (tx + 1) y = top tx y)). intros y Hy IH Ez.
    destruct (RP y) as [z|] eqn:E.
    - destruct (Z.leb_spec (Z.of_nat (gray0 z)) tx) as [Hle|Hlt].
      + rewrite (top_up tx y z) in *; auto. rewrite (top_up (tx + 1) y z); auto. lia.
      + rewrite (top_stop tx y) in Ez; auto; [congruence|]. intros y' Hy'. rewrite E in Hy'. injection Hy' as <-. lia.
    - rewrite !top_stop; auto; intros ??; congruence. }
  rewrite Ht, Ez in Hy. cbn [orb] in Hy. apply Z.eqb_eq in Hy.
  destruct T3 as [T3|T3]; [rewrite T3 in Hy|]; lia.
Qed.
End static.
