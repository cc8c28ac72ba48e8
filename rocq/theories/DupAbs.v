(* Duplicate removal on an abstract tree. *)
From stdpp Require Import sorting relations functions list.
Local Open Scope nat_scope.

Section defs.
Context {I : Type} `{EqDecision I}.
Context (RP : I -> option I) (size : I -> nat) (big : I -> bool) (near : nat -> nat -> bool) (N : nat).

(* the unclassified regions on the way up from o that are near to the size st *)
Fixpoint awalk (n : nat) (fl : I -> nat) (st : nat) (o : option I) : list I :=
  match n, o with
  | S n', Some y =>
      if big y then [] else if negb (near st (size y)) then [] else
      if fl y =? 0 then y :: awalk n' fl st (RP y) else awalk n' fl st (RP y)
  | _, _ => []
  end.
(* the list of one candidate and the position of the kept one *)
Definition adup (fl : I -> nat) (x : I) : list I := x :: awalk N fl (size x) (RP x).
Definition amid (fl : I -> nat) (x : I) : nat := length (adup fl x) / 2.
Definition akeep (fl : I -> nat) (x : I) : I := nth (amid fl x) (adup fl x) x.
Definition aend (fl : I -> nat) (x : I) : I := List.last (adup fl x) x.
Definition amore (fl : I -> nat) (x : I) : list I :=
  if 0 <? amid fl x then awalk N fl (size (akeep fl x)) (RP (aend fl x)) else [].
Definition amarked (fl : I -> nat) (x : I) : list I := adup fl x ++ amore fl x.
Definition astep (fl : I -> nat) (x : I) : I -> nat :=
  if fl x =? 0 then
    fun z => if decide (z = akeep fl x) then 2 else if decide (z ∈ amarked fl x) then 1 else fl z
  else fl.
End defs.

Section props.
Context {I : Type} `{EqDecision I}.
Context (RP : I -> option I) (size gray : I -> nat) (big : I -> bool) (near : nat -> nat -> bool) (N : nat).
Context (L : I -> Prop) (d : I -> nat).
Context (HL : forall x y, L x -> RP x = Some y -> L y /\ size x < size y /\ gray x < gray y /\ d y < d x).
Context (HN : forall x, L x -> d x <= N).
Context (Hbig : forall x y, L x -> L y -> size x <= size y -> big x = true -> big y = true).
Context (Hmono : forall x y z, L x -> L y -> L z -> size x <= size y -> size y <= size z ->
  near (size x) (size z) = true -> near (size x) (size y) = true).
Notation awalk := (awalk RP size big near). Notation adup := (adup RP size big near N).
Notation akeep := (akeep RP size big near N). Notation aend := (aend RP size big near N).
Notation amid := (amid RP size big near N).
Notation amore := (amore RP size big near N). Notation amarked := (amarked RP size big near N).
Notation astep := (astep RP size big near N).

Definition up (x y : I) : Prop := RP x = Some y.
Notation anc := (rtc up).
Notation sanc := (tc up).

Lemma anc_L x y : L x -> anc x y -> L y.
Proof. intros Hx H. induction H as [|x z y Hxz _ IH]; auto. apply IH. by eapply HL. Qed.
Lemma sanc_lt x y : L x -> sanc x y -> L y /\ size x < size y /\ gray x < gray y.
Proof.
  intros Hx H. induction H as [x y H|x z y H _ IH].
  - destruct (HL x y Hx H) as (? & ? & ? & ?). auto.
  - destruct (HL x z Hx H) as (H1 & ? & ? & ?). destruct (IH H1) as (? & ? & ?). split; auto. lia.
Qed.
Lemma anc_le x y : L x -> anc x y -> L y /\ size x <= size y /\ gray x <= gray y.
Proof.
  intros Hx [->|H]%rtc_tc; [auto|]. destruct (sanc_lt x y Hx H) as (? & ? & ?). split; auto. lia.
Qed.
Lemma anc_linear x y z : anc x y -> anc x z -> anc y z \/ anc z y.
Proof.
  clear. intros H. revert z. induction H as [x|x u y Hu Huy IH]; intros z Hz; auto.
  apply rtc_inv in Hz as [->|(u' & Hu' & Hz)].
  - right. by eapply rtc_l.
  - unfold up in *. assert (u' = u) as -> by congruence. auto.
Qed.
Lemma sanc_irrefl x : L x -> ~ sanc x x.
Proof. intros Hx H. destruct (sanc_lt x x Hx H) as (_ & ? & _). lia. Qed.
Lemma anc_antisym x y : L x -> anc x y -> anc y x -> x = y.
Proof.
  intros Hx [->|H]%rtc_tc H2; auto. exfalso. apply (sanc_irrefl x Hx). by eapply tc_rtc_r.
Qed.

Lemma sanc_l x y z : anc x y -> sanc y z -> sanc x z.
Proof. apply tc_rtc_l. Qed.
Lemma sanc_inv x y : sanc x y -> exists z, RP x = Some z /\ (y = z \/ sanc z y).
Proof. clear. intros H. destruct H as [x y H|x z y H H']; eauto. Qed.
Lemma awalk_spec n fl x t : L x -> L t -> size t <= size x -> d x <= n ->
  (forall y, y ∈ awalk n fl (size t) (RP x) <-> sanc x y /\ fl y = 0 /\ big y = false /\ near (size t) (size y) = true) /\
  StronglySorted sanc (awalk n fl (size t) (RP x)).
Proof.
  revert x. induction n as [|n IH]; intros x Hx Ht Hle Hn.
  - assert (RP x = None) as E. { destruct (RP x) as [y|] eqn:E; auto. destruct (HL x y Hx E) as (_ & _ & _ & ?). lia. }
    rewrite E. split; [|constructor]. intros y. split; [intros Hy; by apply elem_of_nil in Hy|].
    intros [(z & Hz & _)%sanc_inv _]. congruence.
  - destruct (RP x) as [y|] eqn:E; cbn [DupAbs.awalk].
    2: { split; [|constructor]. intros y. split; [intros Hy; by apply elem_of_nil in Hy|].
      intros [(z & Hz & _)%sanc_inv _]. congruence. }
    destruct (HL x y Hx E) as (Hy & Hsz & _ & Hdy).
    assert (forall z, sanc x z <-> z = y \/ sanc y z) as Hsx.
    { intros z. split.
      - intros (z' & Hz & H)%sanc_inv. assert (z' = y) as -> by congruence. auto.
      - intros [->|H]; [by apply tc_once|]. by eapply tc_l. }
    assert (forall z, sanc x z -> L z /\ size y <= size z) as Hup.
    { intros z [->|H]%Hsx; [auto|]. destruct (sanc_lt y z Hy H) as (? & ? & _). split; auto. lia. }
    destruct (big y) eqn:Eb.
    { split; [|constructor]. intros z. split; [intros Hz; by apply elem_of_nil in Hz|]. intros (H1 & _ & H3 & _).
      destruct (Hup z H1) as [Hz Hyz]. rewrite (Hbig y z Hy Hz Hyz Eb) in H3. done. }
    destruct (near (size t) (size y)) eqn:En; cbn [negb].
    2: { split; [|constructor]. intros z. split; [intros Hz; by apply elem_of_nil in Hz|]. intros (H1 & _ & _ & H4).
      destruct (Hup z H1) as [Hz Hyz]. rewrite (Hmono t y z) in En; auto; [done|lia]. }
    destruct (IH y) as [IH1 IH2]; auto; [lia|lia|]. destruct (Nat.eqb_spec (fl y) 0) as [Hf|Hf].
    + split.
      * intros z. rewrite elem_of_cons, IH1, Hsx. split.
        -- intros [->|(? & ? & ? & ?)]; auto 10.
        -- intros ([->|?] & ? & ? & ?); auto.
      * constructor; auto. apply Forall_forall. intros z Hz. apply IH1 in Hz as [? _]. auto.
    + split; auto. intros z. rewrite IH1, Hsx. split.
      * intros (? & ? & ? & ?). auto.
      * intros ([->|?] & ? & ? & ?); [done|auto].
Qed.

(* ---------- the marked regions of one candidate ---------- *)
Lemma sorted_last {A} (R : A -> A -> Prop) l (x : A) : StronglySorted R (x :: l) ->
  List.last (x :: l) x ∈ x :: l /\ forall z, z ∈ x :: l -> z = List.last (x :: l) x \/ R z (List.last (x :: l) x).
Proof.
  clear. assert (forall (l : list A) x u v, List.last (x :: l) u = List.last (x :: l) v) as Hd.
  { clear. induction l as [|y l IH]; intros x u v; [done|].
    change (List.last (y :: l) u = List.last (y :: l) v). apply IH. }
  revert x. induction l as [|y l IH]; intros x Hs.
  - cbn. split; [by apply elem_of_list_here|]. intros z Hz. apply elem_of_list_singleton in Hz. auto.
  - inversion Hs as [|? ? Hs' Hx]; subst. destruct (IH y Hs') as [IH1 IH2].
    change (List.last (x :: y :: l) x) with (List.last (y :: l) x). rewrite (Hd l y x y).
    split; [by apply elem_of_list_further|]. intros z [->|Hz]%elem_of_cons; auto.
    right. rewrite Forall_forall in Hx. by apply Hx.
Qed.
Lemma nth_in (l : list I) n x : n < length l -> nth n l x ∈ l.
Proof. clear. intros H. apply elem_of_list_In. by apply nth_In. Qed.

Lemma adup_spec fl x : L x -> fl x = 0 -> big x = false ->
  (forall y, y ∈ adup fl x <-> y = x \/ (sanc x y /\ fl y = 0 /\ big y = false /\ near (size x) (size y) = true)) /\
  StronglySorted sanc (adup fl x).
Proof.
  intros Hx Hf Hb. destruct (awalk_spec N fl x x Hx Hx) as [W1 W2]; auto. unfold DupAbs.adup. split.
  - intros y. rewrite elem_of_cons, W1. done.
  - constructor; auto. apply Forall_forall. intros z Hz. by apply W1 in Hz as [? _].
Qed.
Lemma akeep_in fl x : akeep fl x ∈ adup fl x.
Proof.
  clear. unfold DupAbs.akeep. apply nth_in. unfold DupAbs.amid. unfold DupAbs.adup at 2. cbn [length].
  apply Nat.div_lt; [unfold DupAbs.adup; cbn [length]; lia|lia].
Qed.
Lemma amid_zero fl x : amid fl x = 0 -> adup fl x = [x].
Proof.
  clear. unfold DupAbs.amid, DupAbs.adup. destruct (DupAbs.awalk _ _ _ _ _ _ _ _) as [|y l]; auto. cbn [length].
  intros H. exfalso. assert (2 * 1 <= S (S (length l))) as H1 by lia.
  pose proof (Nat.div_le_lower_bound (S (S (length l))) 2 1). lia.
Qed.

Record mspec (fl : I -> nat) (x m : I) (M : list I) : Prop := {
  ms_nodup : NoDup M;
  ms_x : x ∈ M;
  ms_m : m ∈ M;
  ms_xm : anc x m;
  ms_in : forall z, z ∈ M -> anc x z /\ fl z = 0 /\ big z = false;
  ms_near : m = x \/ near (size x) (size m) = true;
  ms_between : forall z, anc x z -> anc z m -> fl z = 0 -> z ∈ M;
  ms_above : forall y, sanc m y -> fl y = 0 -> big y = false -> near (size m) (size y) = true -> y ∈ M;
  ms_range : forall z, z ∈ M -> z = x \/ near (size x) (size z) = true \/ (sanc m z /\ near (size m) (size z) = true)
}.
Lemma mspec_ok fl x : L x -> fl x = 0 -> big x = false -> mspec fl x (akeep fl x) (amarked fl x).
Proof.
  intros Hx Hf Hb. destruct (adup_spec fl x Hx Hf Hb) as [D1 D2]. pose proof (akeep_in fl x) as Hm.
  assert (forall z, z ∈ adup fl x -> anc x z /\ L z) as Hanc.
  { intros z [->|(H & _)]%D1; [split; [apply rtc_refl|done]|]. split; [by apply tc_rtc|]. by destruct (sanc_lt x z Hx H). }
  assert (forall z, z ∈ adup fl x -> big z = false /\ fl z = 0) as Hdb.
  { intros z [->|(_ & ? & ? & _)]%D1; auto. }
  set (m := akeep fl x) in *. set (e := aend fl x).
  assert (e ∈ adup fl x /\ forall z, z ∈ adup fl x -> z = e \/ sanc z e) as [He1 He2] by (by apply sorted_last).
  destruct (Hanc m Hm) as [Hxm HLm]. destruct (Hanc e He1) as [Hxe HLe].
  assert (anc m e) as Hme. { apply rtc_tc. by apply He2. }
  destruct (anc_le m e HLm Hme) as (_ & Hsme & _). destruct (anc_le x m Hx Hxm) as (_ & Hsxm & _).
  destruct (anc_le x e Hx Hxe) as (_ & Hsxe & _).
  destruct (awalk_spec N fl e m HLe HLm Hsme) as [W1 W2]; [by apply HN|].
  assert (forall z, z ∈ amore fl x -> sanc e z /\ fl z = 0 /\ big z = false /\ near (size m) (size z) = true) as Hmore.
  { intros z Hz. unfold DupAbs.amore in Hz. destruct (0 <? amid fl x); [|by apply elem_of_nil in Hz]. by apply W1. }
  assert (m = x \/ near (size x) (size m) = true) as Hnear. { destruct (proj1 (D1 m) Hm) as [?|(_ & _ & _ & ?)]; auto. }
  unfold DupAbs.amarked. constructor; auto.
  - apply NoDup_app. assert (forall l, (forall z, z ∈ l -> L z) -> StronglySorted sanc l -> NoDup l) as Hnd.
    { clear - HL. intros l Hl Hs. induction Hs as [|z l Hs IH Hz]; constructor.
      - intros Hin. rewrite Forall_forall in Hz. apply (sanc_irrefl z); auto. apply Hl, elem_of_list_here.
      - apply IH. intros u Hu. apply Hl. by apply elem_of_list_further. }
    split; [apply Hnd; auto; intros z Hz; by apply Hanc|]. split.
    + intros z Hz Hz2. apply Hmore in Hz2 as [Hez _]. destruct (Hanc z Hz) as [_ HLz].
      apply (sanc_irrefl z HLz). destruct (He2 z Hz) as [->|H]; auto. by eapply tc_transitive.
    + unfold DupAbs.amore. destruct (0 <? amid fl x); [|constructor]. apply Hnd; auto.
      intros z Hz. apply W1 in Hz as [Hz _]. by destruct (sanc_lt e z HLe Hz).
  - apply elem_of_app. left. apply D1. auto.
  - apply elem_of_app. auto.
  - intros z [Hz|Hz]%elem_of_app.
    + destruct (Hanc z Hz). destruct (Hdb z Hz). auto.
    + destruct (Hmore z Hz) as (H1 & ? & ? & _). split; auto. etrans; [exact Hxe|]. by apply tc_rtc.
  - intros z Hxz Hzm Hfz. apply elem_of_app. left. apply D1. apply rtc_tc in Hxz as [<-|Hxz]; auto. right.
    destruct (sanc_lt x z Hx Hxz) as (HLz & Hsxz & _). destruct (anc_le z m HLz Hzm) as (_ & Hszm & _). split; auto. split; auto. split.
    + destruct (big z) eqn:Eb; auto. destruct (Hdb m Hm) as [Hbm _]. by rewrite (Hbig z m HLz HLm Hszm Eb) in Hbm.
    + destruct Hnear as [Hmx|Hn]; [rewrite Hmx in Hszm; lia|]. apply (Hmono x z m); auto. lia.
  - intros y Hmy Hfy Hby Hny. destruct (sanc_lt m y HLm Hmy) as (HLy & Hsmy & _). apply elem_of_app.
    destruct (decide (amid fl x = 0)) as [E0|E0].
    + left. apply amid_zero in E0. assert (m = x) as Emx by (rewrite E0 in Hm; by apply elem_of_list_singleton in Hm).
      apply D1. right. rewrite Emx in *. auto.
    + assert (e <> x) as Hex.
      { intros Eex. assert (forall z, z ∈ adup fl x -> z = x) as Hall.
        { intros z Hz. destruct (Hanc z Hz) as [Hxz _]. destruct (He2 z Hz) as [->|Hze]; auto. exfalso.
          apply (sanc_irrefl x Hx). rewrite Eex in Hze. by eapply tc_rtc_l. }
        apply E0. unfold DupAbs.amid. assert (length (adup fl x) = 1) as ->; auto.
        unfold DupAbs.adup in Hall |- *. destruct (awalk N fl (size x) (RP x)) as [|z l] eqn:Ew; auto. exfalso.
        unfold DupAbs.adup in D2. rewrite Ew in D2. apply StronglySorted_inv in D2 as [_ Hfz].
        assert (z = x) as ->. { apply Hall. apply elem_of_list_further, elem_of_list_here. }
        apply Forall_cons in Hfz as [Hfz _]. by apply (sanc_irrefl x Hx). }
      destruct (proj1 (D1 e) He1) as [|(_ & _ & Hbe & Hne)]; [done|].
      assert (anc m y) as Hmy' by (by apply tc_rtc).
      destruct (anc_linear m e y Hme Hmy') as [Hey|Hye].
      * apply rtc_tc in Hey as [<-|Hey]; auto. right. unfold DupAbs.amore. destruct (Nat.ltb_spec 0 (amid fl x)); [|lia]. by apply W1.
      * left. apply D1. right. destruct (anc_le y e HLy Hye) as (_ & Hsye & _). split; [exact (sanc_l _ _ _ Hxm Hmy)|]. split; auto. split; auto.
        apply (Hmono x y e); auto. lia.
  - intros z [Hz|Hz]%elem_of_app.
    + apply D1 in Hz as [?|(_ & _ & _ & ?)]; auto.
    + destruct (Hmore z Hz) as (H1 & _ & _ & ?). right. right. split; auto. exact (sanc_l _ _ _ Hme H1).
Qed.

Lemma astep_spec fl x z : fl x = 0 -> astep fl x z =
  if decide (z = akeep fl x) then 2 else if decide (z ∈ amarked fl x) then 1 else fl z.
Proof. clear. intros Hf. unfold DupAbs.astep. by rewrite Hf. Qed.
Lemma astep_skip fl x : fl x <> 0 -> astep fl x = fl.
Proof. clear. intros Hf. unfold DupAbs.astep. by destruct (Nat.eqb_spec (fl x) 0). Qed.

(* ---------- the whole run ---------- *)
Definition arun (fl : I -> nat) (l : list I) : I -> nat := foldl astep fl l.

Section run.
Context (fl0 : I -> nat) (l : list I).
Context (Hfl0 : forall z, fl0 z <> 2).
Context (Hl : forall z, z ∈ l <-> L z /\ fl0 z = 0).
Context (Hlb : forall z, z ∈ l -> big z = false).

Record ainv (fl : I -> nat) (pre : list I) : Prop := {
  ai_out : forall z, fl0 z <> 0 -> fl z = fl0 z;
  ai_in : forall z, fl0 z = 0 -> fl z <= 2;
  ai_pre : forall z, z ∈ pre -> fl z <> 0;
  ai_L : forall z, fl z = 2 -> L z /\ fl0 z = 0;
  ai_cov : forall z, L z -> fl0 z = 0 -> fl z = 1 -> exists c m, L c /\ L m /\ fl0 c = 0 /\ fl m = 2 /\ anc c z /\ anc c m /\
    (anc z m \/ anc m z) /\ (z = c \/ near (size c) (size z) = true) /\ (m = c \/ near (size c) (size m) = true);
  ai_val : forall a b, fl a = 2 -> fl b = 0 -> L b -> sanc a b -> near (size a) (size b) = false
}.

Lemma ainv_start : ainv fl0 [].
Proof.
  constructor; auto.
  - intros z ->. lia.
  - intros z Hz. by apply elem_of_nil in Hz.
  - intros z Hz. by apply Hfl0 in Hz.
  - intros z _ H1 H2. congruence.
  - intros a b Ha. by apply Hfl0 in Ha.
Qed.

Lemma ainv_step fl pre x : x ∈ l -> ainv fl pre -> ainv (astep fl x) (pre ++ [x]).
Proof.
  intros Hxl HA. destruct (proj1 (Hl x) Hxl) as [Hx Hx0]. destruct (decide (fl x = 0)) as [Hf|Hf].
  2: { rewrite astep_skip by auto. destruct HA. constructor; auto. intros z [?|Hz]%elem_of_app; auto.
    apply elem_of_list_singleton in Hz. by subst. }
  pose proof (mspec_ok fl x Hx Hf (Hlb x Hxl)) as HM. set (m := akeep fl x) in *. set (M := amarked fl x) in *.
  assert (forall z, astep fl x z = if decide (z = m) then 2 else if decide (z ∈ M) then 1 else fl z) as Hst
    by (intros; by apply astep_spec).
  assert (forall z, z ∈ M -> L z /\ fl z = 0 /\ fl0 z = 0) as HMin.
  { intros z Hz. destruct (ms_in _ _ _ _ HM z Hz) as (H1 & H2 & H3). split; [by eapply anc_L|]. split; auto.
    destruct (decide (fl0 z = 0)) as [|Hn]; auto. rewrite (ai_out _ _ HA z Hn) in H2. done. }
  destruct (HMin m (ms_m _ _ _ _ HM)) as (HLm & Hfm & H0m). constructor.
  - intros z Hz. rewrite Hst. destruct (decide (z = m)) as [->|]; [congruence|]. destruct (decide (z ∈ M)) as [Hin|].
    + destruct (HMin z Hin) as (_ & _ & ?). congruence.
    + by apply HA.
  - intros z Hz. rewrite Hst. destruct (decide (z = m)); [lia|]. destruct (decide (z ∈ M)); [lia|]. by apply HA.
  - intros z Hz. rewrite Hst. destruct (decide (z = m)); [lia|]. destruct (decide (z ∈ M)) as [|Hn]; [lia|].
    apply elem_of_app in Hz as [Hz|Hz]; [by apply HA|]. apply elem_of_list_singleton in Hz as ->. exfalso. apply Hn, HM.
  - intros z. rewrite Hst. destruct (decide (z = m)) as [->|]; [auto|]. destruct (decide (z ∈ M)); [done|]. apply HA.
  - intros z Hz Hz0. rewrite Hst. destruct (decide (z = m)) as [->|Hzm]; [done|]. destruct (decide (z ∈ M)) as [Hin|Hn].
    + intros _. destruct (ms_in _ _ _ _ HM z Hin) as (Hxz & _ & _).
      destruct (ms_range _ _ _ _ HM z Hin) as [->|[Hn|[Hmz Hn]]].
      * exists x, m. rewrite Hst, decide_True by auto. split; auto. split; auto. split; auto. split; auto. split; [apply rtc_refl|].
        pose proof (ms_xm _ _ _ _ HM). split; auto. split; auto. split; auto. apply HM.
      * exists x, m. rewrite Hst, decide_True by auto. pose proof (ms_xm _ _ _ _ HM). do 6 (split; auto). split; [by eapply anc_linear|].
        split; auto. apply HM.
      * exists m, m. rewrite Hst, decide_True by auto. assert (anc m z) by (by apply tc_rtc). do 5 (split; auto). split; [apply rtc_refl|]. auto.
    + intros H1. destruct (ai_cov _ _ HA z Hz Hz0 H1) as (c & m' & ? & ? & ? & Hv & ? & ? & ? & ? & ?).
      exists c, m'. split; auto. split; auto. split; auto. split; auto. rewrite Hst. destruct (decide (m' = m)); auto.
      destruct (decide (m' ∈ M)) as [Hin'|]; auto. destruct (HMin m' Hin') as (_ & ? & _). congruence.
  - intros a b Ha Hb HLb Hab. rewrite Hst in Ha, Hb. destruct (decide (b = m)); [done|]. destruct (decide (b ∈ M)) as [|Hnb]; [done|].
    destruct (decide (a = m)) as [->|].
    + destruct (near (size m) (size b)) eqn:En; auto. exfalso. apply Hnb. apply (ms_above _ _ _ _ HM); auto. apply Hlb. apply Hl. split; auto.
      destruct (decide (fl0 b = 0)) as [|Hn]; auto. rewrite (ai_out _ _ HA b Hn) in Hb. done.
    + destruct (decide (a ∈ M)); [done|]. by apply HA.
Qed.

Lemma ainv_run : ainv (arun fl0 l) l.
Proof.
  assert (forall suf pre fl, l = pre ++ suf -> ainv fl pre -> ainv (foldl astep fl suf) l) as H.
  { induction suf as [|x suf IH]; intros pre fl E HA; cbn [foldl].
    - rewrite app_nil_r in E. by rewrite E.
    - apply (IH (pre ++ [x])); [by rewrite <-app_assoc|]. apply ainv_step; auto. rewrite E, elem_of_app, elem_of_cons. auto. }
  apply (H l []); auto. apply ainv_start.
Qed.

(* every candidate ends up kept or removed *)
Lemma arun_flags z : L z -> fl0 z = 0 -> arun fl0 l z = 1 \/ arun fl0 l z = 2.
Proof.
  intros Hz H0. destruct ainv_run as [_ A2 A3 _ _ _]. specialize (A2 z H0). specialize (A3 z).
  assert (z ∈ l) as Hin by (by apply Hl). specialize (A3 Hin). lia.
Qed.

(* ---------- no near duplicates, for a threshold below 1 ---------- *)
Context (Hdis : forall a c b, L a -> L c -> L b -> anc a b -> anc c b -> ~ anc a c -> ~ anc c a -> size a + size c <= size b).
Context (Hhalf : forall x y, L x -> L y -> size x <= size y -> near (size x) (size y) = true -> size y < 2 * size x).
Context (Hsort : StronglySorted (fun x y => gray x <= gray y) l).

Record binv (fl : I -> nat) (pre : list I) : Prop := {
  bi_a : ainv fl pre;
  bi_vv : forall a b, fl a = 2 -> fl b = 2 -> sanc a b -> near (size a) (size b) = false;
  bi_uv : forall a b, L a -> fl a = 0 -> fl b = 2 -> sanc a b -> near (size a) (size b) = false
}.
Lemma binv_step fl pre x suf : l = pre ++ x :: suf -> binv fl pre -> binv (astep fl x) (pre ++ [x]).
Proof.
  intros El [HA HV HU]. assert (x ∈ l) as Hxl by (rewrite El, elem_of_app, elem_of_cons; auto).
  destruct (proj1 (Hl x) Hxl) as [Hx Hx0]. pose proof (ainv_step fl pre x Hxl HA) as HA'.
  constructor; auto.
  - destruct (decide (fl x = 0)) as [Hf|Hf]; [|by rewrite astep_skip].
    pose proof (mspec_ok fl x Hx Hf (Hlb x Hxl)) as HM. set (m := akeep fl x) in *. set (M := amarked fl x) in *.
    assert (forall z, astep fl x z = if decide (z = m) then 2 else if decide (z ∈ M) then 1 else fl z) as Hst
      by (intros; by apply astep_spec).
    destruct (ms_in _ _ _ _ HM m (ms_m _ _ _ _ HM)) as (Hxm & Hfm & _). pose proof (anc_L x m Hx Hxm) as HLm.
    intros a b Ha Hb Hab. rewrite Hst in Ha, Hb.
    destruct (decide (a = m)) as [->|]; destruct (decide (b = m)) as [->|].
    + exfalso. by apply (sanc_irrefl m).
    + destruct (decide (b ∈ M)); [done|]. by apply HU.
    + destruct (decide (a ∈ M)); [done|]. by apply (ai_val _ _ HA).
    + destruct (decide (a ∈ M)); [done|]. destruct (decide (b ∈ M)); [done|]. by apply HV.
  - destruct (decide (fl x = 0)) as [Hf|Hf]; [|by rewrite astep_skip].
    pose proof (mspec_ok fl x Hx Hf (Hlb x Hxl)) as HM. set (m := akeep fl x) in *. set (M := amarked fl x) in *.
    assert (forall z, astep fl x z = if decide (z = m) then 2 else if decide (z ∈ M) then 1 else fl z) as Hst
      by (intros; by apply astep_spec).
    destruct (ms_in _ _ _ _ HM m (ms_m _ _ _ _ HM)) as (Hxm & Hfm & _). pose proof (anc_L x m Hx Hxm) as HLm.
    intros a b HLa Ha Hb Hab. rewrite Hst in Ha, Hb. destruct (decide (a = m)); [done|]. destruct (decide (a ∈ M)) as [|HnM]; [done|].
    destruct (decide (b = m)) as [->|].
    2: { destruct (decide (b ∈ M)); [done|]. by apply HU. }
    destruct (near (size a) (size m)) eqn:En; auto. exfalso.
    assert (anc a m) as Ham by (by apply tc_rtc). destruct (sanc_lt a m HLa Hab) as (_ & Hsam & _).
    assert (fl0 a = 0) as Ha0. { destruct (decide (fl0 a = 0)) as [|Hn]; auto. rewrite (ai_out _ _ HA a Hn) in Ha. done. }
    assert (a ∈ l) as Hal by (by apply Hl).
    assert (~ anc x a) as N1. { intros Hxa. apply HnM. by apply HM. }
    assert (~ anc a x) as N2.
    { intros [->|Hax]%rtc_tc; [apply HnM, HM|]. destruct (sanc_lt a x HLa Hax) as (_ & _ & Hg).
      rewrite El in Hal. apply elem_of_app in Hal as [Hp|Hp]; [by apply (ai_pre _ _ HA a Hp)|].
      apply elem_of_cons in Hp as [->|Hp]; [lia|].
      rewrite El in Hsort. clear - Hsort Hp Hg. induction pre as [|u pre IH]; cbn in Hsort; inversion Hsort as [|? ? H1 H2]; subst; auto.
      rewrite Forall_forall in H2. specialize (H2 a Hp). cbn in H2. lia. }
    destruct (ms_near _ _ _ _ HM) as [Emx|Hnx]; [by rewrite Emx in Ham|].
    destruct (anc_le x m Hx Hxm) as (_ & Hsxm & _).
    pose proof (Hdis a x m HLa Hx HLm Ham Hxm N2 N1). pose proof (Hhalf x m Hx HLm Hsxm Hnx).
    pose proof (Hhalf a m HLa HLm ltac:(lia) En). lia.
Qed.
Lemma binv_run : binv (arun fl0 l) l.
Proof.
  assert (forall suf pre fl, l = pre ++ suf -> binv fl pre -> binv (foldl astep fl suf) l) as H.
  { induction suf as [|x suf IH]; intros pre fl E HB; cbn [foldl].
    - rewrite app_nil_r in E. by rewrite E.
    - apply (IH (pre ++ [x])); [by rewrite <-app_assoc|]. by eapply binv_step. }
  apply (H l []); auto. constructor; [apply ainv_start| |]; intros a b; [intros Ha|intros _ _ Hb]; exfalso; by eapply Hfl0.
Qed.
End run.

(* ---------- candidates that are not nested do not disturb each other ---------- *)
Definition rng (fl : I -> nat) (x z : I) : Prop :=
  anc x z /\ (z = x \/ near (size x) (size z) = true \/ (sanc (akeep fl x) z /\ near (size (akeep fl x)) (size z) = true)).

Lemma awalk_local n fl fl' st x : (forall z, sanc x z -> near st (size z) = true -> fl' z = fl z) ->
  awalk n fl' st (RP x) = awalk n fl st (RP x).
Proof.
  clear. revert x. induction n as [|n IH]; intros x H; [done|]. destruct (RP x) as [y|] eqn:E; [|done]. cbn [DupAbs.awalk].
  destruct (big y); auto. destruct (near st (size y)) eqn:En; auto. cbn [negb].
  rewrite (H y) by (auto; by apply tc_once). rewrite IH; auto. intros z Hz Hn. apply H; auto. by eapply tc_l.
Qed.
Lemma awalk_ext n fl fl' st o : (forall z, fl' z = fl z) -> awalk n fl' st o = awalk n fl st o.
Proof.
  clear. intros H. revert o. induction n as [|n IH]; intros o; [done|]. destruct o as [y|]; [|done]. cbn [DupAbs.awalk].
  by rewrite H, !IH.
Qed.
Lemma astep_ext fl fl' x : (forall z, fl' z = fl z) -> forall z, astep fl' x z = astep fl x z.
Proof.
  clear. intros H z. unfold DupAbs.astep. rewrite H. destruct (fl x =? 0); auto.
  assert (adup fl' x = adup fl x) as Ed. { unfold DupAbs.adup. f_equal. by apply awalk_ext. }
  assert (akeep fl' x = akeep fl x) as Ek. { unfold DupAbs.akeep, DupAbs.amid. by rewrite Ed. }
  assert (amarked fl' x = amarked fl x) as ->.
  { unfold DupAbs.amarked, DupAbs.amore, DupAbs.aend, DupAbs.amid. rewrite Ed, Ek. f_equal. destruct (0 <? _); auto. by apply awalk_ext. }
  by rewrite Ek, H.
Qed.
Lemma arun_ext fl fl' l : (forall z, fl' z = fl z) -> forall z, arun fl' l z = arun fl l z.
Proof.
  clear. unfold arun. revert fl fl'. induction l as [|x l IH]; intros fl fl' H z; cbn [foldl]; auto.
  apply IH. by apply astep_ext.
Qed.

Lemma step_local fl fl' x : L x -> fl x = 0 -> big x = false -> (forall z, rng fl x z -> fl' z = fl z) ->
  akeep fl' x = akeep fl x /\ amarked fl' x = amarked fl x.
Proof.
  intros Hx Hf Hb H.
  assert (adup fl' x = adup fl x) as Ed.
  { unfold DupAbs.adup. f_equal. apply awalk_local. intros z Hz Hn. apply H. split; [by apply tc_rtc|]. auto. }
  assert (akeep fl' x = akeep fl x) as Ek. { unfold DupAbs.akeep, DupAbs.amid. by rewrite Ed. }
  split; auto. unfold DupAbs.amarked, DupAbs.amore, DupAbs.aend, DupAbs.amid. rewrite Ed, Ek. f_equal.
  destruct (0 <? _); auto. apply awalk_local. intros z Hz Hn. apply H.
  destruct (adup_spec fl x Hx Hf Hb) as [D1 D2]. destruct (sorted_last _ _ _ D2) as [He1 He2].
  change (sanc (aend fl x) z) in Hz. change (aend fl x ∈ adup fl x) in He1.
  assert (forall u, u ∈ adup fl x -> u = aend fl x \/ sanc u (aend fl x)) as He3 by exact He2.
  assert (anc x (aend fl x)) as Hxe. { apply D1 in He1 as [->|(Hs & _)]; [apply rtc_refl|by apply tc_rtc]. }
  split; [etrans; [exact Hxe|by apply tc_rtc]|]. right. right. split; auto.
  apply (sanc_l _ (aend fl x)); auto. apply rtc_tc. apply He3. apply akeep_in.
Qed.

Section comm.
Context (Hdis : forall a c b, L a -> L c -> L b -> anc a b -> anc c b -> ~ anc a c -> ~ anc c a -> size a + size c <= size b).
Context (Hhalf : forall x y, L x -> L y -> size x <= size y -> near (size x) (size y) = true -> size y < 2 * size x).

Lemma keep_facts fl x : L x -> fl x = 0 -> big x = false ->
  L (akeep fl x) /\ anc x (akeep fl x) /\ size x <= size (akeep fl x) /\
  (akeep fl x = x \/ size (akeep fl x) < 2 * size x).
Proof.
  intros Hx Hf Hb. pose proof (mspec_ok fl x Hx Hf Hb) as HM. pose proof (ms_xm _ _ _ _ HM) as Hxm.
  destruct (anc_le x _ Hx Hxm) as (HLm & Hs & _). split; auto. split; auto. split; auto.
  destruct (ms_near _ _ _ _ HM) as [?|Hn]; auto.
Qed.

(* two nested kept regions above disjoint candidates leave no room for a common region *)
Lemma nested_keep x c mx mc z : L x -> L c -> L mx -> L mc -> L z -> ~ anc x c -> ~ anc c x ->
  anc x mx -> anc c mc -> anc mx mc -> anc mc z -> (mx = x \/ size mx < 2 * size x) -> (mc = c \/ size mc < 2 * size c) ->
  size z < 2 * size mx -> False.
Proof.
  intros Hx Hc Hmx Hmc Hz N1 N2 A1 A2 A3 A4 B1 B2 B3.
  assert (anc x mc) as A5 by (etrans; [exact A1|exact A3]).
  destruct B2 as [->|B2]; [done|]. destruct (anc_le mc z Hmc A4) as (_ & S1 & _).
  pose proof (Hdis x c mc Hx Hc Hmc A5 A2 N1 N2) as D1.
  assert (~ anc c mx) as N3.
  { intros H. pose proof (Hdis x c mx Hx Hc Hmx A1 H N1 N2). destruct B1 as [->|B1]; [done|]. lia. }
  assert (~ anc mx c) as N4. { intros H. apply N1. etrans; [exact A1|exact H]. }
  pose proof (Hdis mx c mc Hmx Hc Hmc A3 A2 N4 N3). lia.
Qed.

Lemma rng_disjoint fl fl' x c z : L x -> L c -> ~ anc x c -> ~ anc c x ->
  fl x = 0 -> fl' c = 0 -> big x = false -> big c = false -> rng fl x z -> rng fl' c z -> False.
Proof.
  intros Hx Hc N1 N2 Fx Fc Bx Bc [A1 R1] [A2 R2].
  destruct (keep_facts fl x Hx Fx Bx) as (Lmx & Ax & Sx & Kx). destruct (keep_facts fl' c Hc Fc Bc) as (Lmc & Ac & Sc & Kc).
  set (mx := akeep fl x) in *. set (mc := akeep fl' c) in *.
  destruct (anc_le x z Hx A1) as (Hz & S1 & _). destruct (anc_le c z Hc A2) as (_ & S2 & _).
  assert (exists u, L u /\ anc x u /\ anc u z /\ size z < 2 * size u /\ (u = x \/ size u < 2 * size x)) as (u & Lu & U1 & U2 & U3 & U4).
  { destruct R1 as [->|[R|[R R']]]; [done| |].
    - exists x. split; auto. split; [apply rtc_refl|]. split; auto.
    - exists mx. split; auto. split; auto. split; [by apply tc_rtc|]. split; auto. apply Hhalf; auto. apply sanc_lt in R; auto. lia. }
  assert (exists v, L v /\ anc c v /\ anc v z /\ size z < 2 * size v /\ (v = c \/ size v < 2 * size c)) as (v & Lv & V1 & V2 & V3 & V4).
  { destruct R2 as [->|[R|[R R']]]; [done| |].
    - exists c. split; auto. split; [apply rtc_refl|]. split; auto.
    - exists mc. split; auto. split; auto. split; [by apply tc_rtc|]. split; auto. apply Hhalf; auto. apply sanc_lt in R; auto. lia. }
  destruct (decide (size u + size v <= size z)) as [|Hn]; [lia|].
  (* u and v are nested *)
  assert (~ (~ anc u v /\ ~ anc v u)) as NN. { intros [M1 M2]. pose proof (Hdis u v z Lu Lv Hz U2 V2 M1 M2). lia. }
  apply NN. split; intros Huv.
  - by apply (nested_keep x c u v z).
  - by apply (nested_keep c x v u z).
Qed.

Lemma marked_rng fl x z : L x -> fl x = 0 -> big x = false -> z ∈ amarked fl x -> rng fl x z.
Proof.
  intros Hx Hf Hb Hz. pose proof (mspec_ok fl x Hx Hf Hb) as HM. split; [by apply HM|]. by apply (ms_range _ _ _ _ HM).
Qed.
Lemma astep_out fl x z : L x -> fl x = 0 -> big x = false -> ~ rng fl x z -> astep fl x z = fl z.
Proof.
  intros Hx Hf Hb Hn. pose proof (mspec_ok fl x Hx Hf Hb) as HM. rewrite astep_spec by auto.
  destruct (decide (z = akeep fl x)) as [->|]; [exfalso; apply Hn, marked_rng; auto; apply HM|].
  destruct (decide (z ∈ amarked fl x)); auto. exfalso. by apply Hn, marked_rng.
Qed.
Lemma rng_self fl x : rng fl x x.
Proof. clear. split; [apply rtc_refl|]. auto. Qed.
Lemma astep_mono fl x z : fl z <> 0 -> astep fl x z <> 0.
Proof. clear. intros H. unfold DupAbs.astep. destruct (_ =? 0); auto. destruct (decide _); auto. destruct (decide _); auto. Qed.

Lemma astep_comm fl x c : L x -> L c -> big x = false -> big c = false -> ~ anc x c -> ~ anc c x ->
  forall z, astep (astep fl x) c z = astep (astep fl c) x z.
Proof.
  intros Hx Hc Bx Bc N1 N2 z.
  destruct (decide (fl x = 0)) as [Fx|Fx].
  2: { rewrite (astep_skip fl x Fx), (astep_skip (astep fl c) x); auto. by apply astep_mono. }
  destruct (decide (fl c = 0)) as [Fc|Fc].
  2: { rewrite (astep_skip fl c Fc), (astep_skip (astep fl x) c); auto. by apply astep_mono. }
  assert (forall w, rng fl c w -> astep fl x w = fl w) as H1.
  { intros w Hw. apply astep_out; auto. intros Hr. by apply (rng_disjoint fl fl x c w). }
  assert (forall w, rng fl x w -> astep fl c w = fl w) as H2.
  { intros w Hw. apply astep_out; auto. intros Hr. by apply (rng_disjoint fl fl x c w). }
  assert (astep fl x c = 0) as Fc' by (rewrite H1; auto; apply rng_self).
  assert (astep fl c x = 0) as Fx' by (rewrite H2; auto; apply rng_self).
  destruct (step_local fl (astep fl x) c) as [K1 M1]; auto. destruct (step_local fl (astep fl c) x) as [K2 M2]; auto.
  rewrite (astep_spec (astep fl x) c), (astep_spec (astep fl c) x), K1, M1, K2, M2 by auto.
  rewrite (astep_spec fl x), (astep_spec fl c) by auto.
  pose proof (mspec_ok fl x Hx Fx Bx) as HX. pose proof (mspec_ok fl c Hc Fc Bc) as HC.
  assert (forall w, w ∈ amarked fl x -> w ∈ amarked fl c -> False) as Hdj.
  { intros w W1 W2. apply (rng_disjoint fl fl x c w); auto; by apply marked_rng. }
  pose proof (ms_m _ _ _ _ HX). pose proof (ms_m _ _ _ _ HC).
  destruct (decide (z = akeep fl c)) as [E1|]; destruct (decide (z = akeep fl x)) as [E2|]; auto.
  - rewrite E1. destruct (decide (akeep fl c ∈ amarked fl x)); auto. exfalso. eauto.
  - rewrite E2. destruct (decide (akeep fl x ∈ amarked fl c)); auto. exfalso. eauto.
  - destruct (decide (z ∈ amarked fl c)); destruct (decide (z ∈ amarked fl x)); auto.
Qed.

(* the order of the candidates of one gray level does not matter *)
Lemma arun_front l1 x l2 fl : L x -> big x = false -> (forall y, y ∈ l1 -> L y /\ big y = false /\ ~ anc x y /\ ~ anc y x) ->
  forall z, arun fl (l1 ++ x :: l2) z = arun fl (x :: l1 ++ l2) z.
Proof.
  intros Hx Bx. revert fl. induction l1 as [|y l1 IH]; intros fl H1 z; [done|].
  change (arun (astep fl y) (l1 ++ x :: l2) z = arun (astep (astep fl x) y) (l1 ++ l2) z).
  rewrite IH by (intros u Hu; apply H1; by apply elem_of_list_further).
  change (arun (astep (astep fl y) x) (l1 ++ l2) z = arun (astep (astep fl x) y) (l1 ++ l2) z).
  destruct (H1 y) as (? & ? & ? & ?); [apply elem_of_list_here|]. apply arun_ext. by apply astep_comm.
Qed.
Lemma arun_perm l l' fl : l ≡ₚ l' -> NoDup l ->
  StronglySorted (fun x y => gray x <= gray y) l -> StronglySorted (fun x y => gray x <= gray y) l' ->
  (forall x, x ∈ l -> L x /\ big x = false) -> forall z, arun fl l z = arun fl l' z.
Proof.
  revert l' fl. induction l as [|x l IH]; intros l' fl Hp Hnd Hs Hs' Hall z.
  - apply Permutation_nil in Hp. by subst.
  - apply NoDup_cons in Hnd as [Hx Hnd]. apply StronglySorted_inv in Hs as [Hs Hmin]. rewrite Forall_forall in Hmin.
    assert (x ∈ l') as Hin by (rewrite <-Hp; apply elem_of_list_here).
    apply elem_of_list_split in Hin as (l1 & l2 & ->).
    assert (l ≡ₚ l1 ++ l2) as Hp' by (by apply Permutation_cons_app_inv with x).
    destruct (Hall x) as [HLx Bx]; [apply elem_of_list_here|].
    rewrite arun_front; auto.
    + apply (IH (l1 ++ l2)); auto.
      * clear - Hs'. induction l1 as [|y l1 IH]; cbn in *; apply StronglySorted_inv in Hs' as [H1 H2]; auto.
        constructor; [by apply IH|]. apply Forall_app in H2 as [H2 H3]. apply Forall_cons in H3 as [_ H3]. by apply Forall_app.
      * intros y Hy. apply Hall. by apply elem_of_list_further.
    + intros y Hy. assert (y ∈ l) as Hyl by (rewrite Hp'; apply elem_of_app; auto).
      destruct (Hall y) as [HLy By]; [by apply elem_of_list_further|]. split; auto. split; auto.
      assert (gray y <= gray x) as G1.
      { clear - Hs' Hy. induction l1 as [|u l1 IH]; [by apply elem_of_nil in Hy|]. cbn in Hs'.
        apply StronglySorted_inv in Hs' as [H1 H2]. apply elem_of_cons in Hy as [->|Hy]; auto.
        rewrite Forall_forall in H2. apply H2. apply elem_of_app. right. apply elem_of_list_here. }
      pose proof (Hmin y Hyl) as G2. cbn in G2. assert (x <> y) as Hne by (intros ->; done). split; intros A.
      * apply rtc_tc in A as [?|A]; [done|]. apply sanc_lt in A; auto. lia.
      * apply rtc_tc in A as [?|A]; [done|]. apply sanc_lt in A; auto. lia.
Qed.
End comm.
End props.
