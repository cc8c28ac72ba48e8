(* The pixel lists of Fast MSER V1 while two partial trees are joined: cutting a
   region's pixels out of the list of its ancestors and putting one list behind another. *)
From stdpp Require Import sorting relations functions list.
From Coq Require Import ZArith.
From Verif Require Import FloodModel V1JoinModel V1Heap.
Local Open Scope nat_scope.

(* ---------- bounding boxes ---------- *)
Definition isbox (xy : rref -> nat * nat) (a : wreg) (l : list rref) : Prop :=
  (forall q, q ∈ l -> w_left a <= fst (xy q) <= w_right a /\ w_top a <= snd (xy q) <= w_bot a) /\
  (exists q, q ∈ l /\ fst (xy q) = w_left a) /\ (exists q, q ∈ l /\ fst (xy q) = w_right a) /\
  (exists q, q ∈ l /\ snd (xy q) = w_top a) /\ (exists q, q ∈ l /\ snd (xy q) = w_bot a).
Definition samebox (a b : wreg) : Prop :=
  w_left a = w_left b /\ w_right a = w_right b /\ w_top a = w_top b /\ w_bot a = w_bot b.

Lemma isbox_ext xy a l l' : (forall q, q ∈ l <-> q ∈ l') -> isbox xy a l -> isbox xy a l'.
Proof.
  intros H (H1 & (q1 & Q1 & E1) & (q2 & Q2 & E2) & (q3 & Q3 & E3) & (q4 & Q4 & E4)).
  split; [intros q Hq; apply H1; by apply H|].
  split_and!; [exists q1|exists q2|exists q3|exists q4]; split; auto; by apply H.
Qed.
Lemma isbox_same xy a b l : samebox a b -> isbox xy a l -> isbox xy b l.
Proof. intros (H1 & H2 & H3 & H4). unfold isbox. by rewrite H1, H2, H3, H4. Qed.
Lemma isbox_adjust xy a c l l' : isbox xy a l -> isbox xy c l' -> isbox xy (wadjust a c) (l ++ l').
Proof.
  intros (A0 & (a1 & A1 & B1) & (a2 & A2 & B2) & (a3 & A3 & B3) & (a4 & A4 & B4))
    (C0 & (c1 & C1 & D1) & (c2 & C2 & D2) & (c3 & C3 & D3) & (c4 & C4 & D4)).
  unfold isbox, wadjust; cbn [w_left w_right w_top w_bot].
  destruct (Nat.ltb_spec (w_left c) (w_left a)); destruct (Nat.ltb_spec (w_right a) (w_right c));
    destruct (Nat.ltb_spec (w_top c) (w_top a)); destruct (Nat.ltb_spec (w_bot a) (w_bot c));
    (split; [intros q [Hq|Hq]%elem_of_app; [specialize (A0 q Hq)|specialize (C0 q Hq)]; lia|]);
    setoid_rewrite elem_of_app; split_and!; eauto.
Qed.

(* ---------- an order of surviving regions ---------- *)
Section lists.
Context (xy : rref -> nat * nat) (pin : rref -> Prop) (labq : rref -> rref) (pg : rref -> nat).

(* L: the surviving regions, W x r: x lies below r (or is r), g: levels *)
Record order (L : rref -> Prop) (W : rref -> rref -> Prop) (g : rref -> nat) : Prop := {
  o_refl : forall r, L r -> W r r;
  o_trans : forall x y z, L y -> L z -> W x y -> W y z -> W x z;
  o_lin : forall x y z, L y -> L z -> W x y -> W x z -> W y z \/ W z y;
  o_gray : forall x y, L x -> L y -> W x y -> x = y \/ g x < g y;
  o_top : forall r, L r -> exists t, L t /\ W r t /\ forall y, L y -> W t y -> y = t;
  o_lab : forall q r, pin q -> L r -> W (labq q) r -> pg q <= g r
}.

(* x lies below r with no cut in between *)
Definition reach (W : rref -> rref -> Prop) (K : list rref) (x r : rref) : Prop :=
  W x r /\ forall k, k ∈ K -> W x k -> W k r -> k = r.

Record lists (L : rref -> Prop) (W : rref -> rref -> Prop) (g : rref -> nat)
  (R : list (list wreg)) (P : pts) (M K : list rref) (St : rref -> Prop) (seg : rref -> list rref) : Prop := {
  l_cut : forall k, k ∈ K -> L k;
  l_dup : forall r, L r -> NoDup (seg r);
  l_mem : forall r q, L r -> q ∈ seg r <-> pin q /\ reach W K (labq q) r;
  l_reg : forall r, L r -> exists a h z t, get2 R r = Some a /\ w_gray a = g r /\
    head (seg r) = Some h /\ w_head a = Some h /\ pg h = g r /\
    last (seg r) = Some z /\ w_tail a = Some t /\ (t = z \/ (St r /\ r ∉ K /\ rt P t z)) /\
    exists D, (forall q, q ∈ D -> exists k, k ∈ K /\ q ∈ seg k) /\ (D = [] \/ St r) /\ isbox xy a (seg r ++ D);
  l_nest : forall r y, L r -> L y -> reach W K y r -> exists A B, seg r = A ++ seg y ++ B;
  l_chain : forall r, L r -> (r ∈ K \/ forall y, L y -> W r y -> y = r) -> dseg P None (seg r) None;
  l_ref : forall q, pin q -> rf P q <> None -> q ∈ M /\ exists k, k ∈ K /\ q ∈ seg k;
  l_marks : forall q, q ∈ M -> pdom P q
}.

Section ord.
Context (L : rref -> Prop) (W : rref -> rref -> Prop) (g : rref -> nat) (HO : order L W g).

Lemma o_anti x y : L x -> L y -> W x y -> W y x -> x = y.
Proof using HO.
  intros Hx Hy H1 H2. destruct (o_gray _ _ _ HO x y Hx Hy H1); auto.
  destruct (o_gray _ _ _ HO y x Hy Hx H2); auto. lia.
Qed.

(* lists of comparable regions only meet *)
Lemma meet_comparable R P M K St seg a b q : lists L W g R P M K St seg -> L a -> L b ->
  q ∈ seg a -> q ∈ seg b -> W a b \/ W b a.
Proof using HO.
  intros HL Ha Hb Qa Qb. apply (l_mem _ _ _ _ _ _ _ _ _ HL) in Qa as [_ [Qa _]]; [|done].
  apply (l_mem _ _ _ _ _ _ _ _ _ HL) in Qb as [_ [Qb _]]; [|done]. exact (o_lin _ _ _ HO _ _ _ Ha Hb Qa Qb).
Qed.
(* two list owners have different pixels *)
Definition owner (K : list rref) (r : rref) : Prop := r ∈ K \/ forall y, L y -> W r y -> y = r.
Lemma owners_disjoint R P M K St seg a b q : lists L W g R P M K St seg -> L a -> L b ->
  owner K a -> owner K b -> q ∈ seg a -> q ∈ seg b -> a = b.
Proof using HO.
  intros HL Ha Hb Oa Ob Qa Qb.
  pose proof (meet_comparable _ _ _ _ _ _ _ _ _ HL Ha Hb Qa Qb) as Hc.
  apply (l_mem _ _ _ _ _ _ _ _ _ HL) in Qa as [_ [Qa Ka]]; [|done].
  apply (l_mem _ _ _ _ _ _ _ _ _ HL) in Qb as [_ [Qb Kb]]; [|done].
  destruct Hc as [Hab|Hba].
  - destruct Oa as [Oa|Oa]; [by apply Kb|]. symmetry. by apply Oa.
  - destruct Ob as [Ob|Ob]; [symmetry; by apply Ka|]. by apply Ob.
Qed.
(* regions not below a cut have a tail whose references end at the last pixel *)
Lemma tail_rt R P M K St seg r a t z : lists L W g R P M K St seg -> L r ->
  (forall k, k ∈ K -> ~ W r k) -> get2 R r = Some a -> w_tail a = Some t -> last (seg r) = Some z -> rt P t z.
Proof using HO.
  intros HL Hr Hk Ha Ht Hz.
  destruct (l_reg _ _ _ _ _ _ _ _ _ HL r Hr) as (a2 & h & z2 & t2 & A1 & A2 & A3 & A4 & A5 & A6 & A7 & A8 & _).
  assert (a2 = a) as -> by congruence. assert (z2 = z) as -> by congruence. assert (t2 = t) as -> by congruence.
  assert (pdom P z) as Hdz.
  { destruct (o_top _ _ _ HO r Hr) as (u & Hu & Hru & Htop).
    pose proof (l_chain _ _ _ _ _ _ _ _ _ HL u Hu (or_intror Htop)) as Hd.
    destruct (l_nest _ _ _ _ _ _ _ _ _ HL u r Hu Hr) as (A & B & E).
    { split; [done|]. intros k Hk' H _. by destruct (Hk k Hk'). }
    eapply dseg_dom; [exact Hd|]. rewrite E. apply elem_of_app. right. apply elem_of_app. left.
    by apply last_Some_elem_of. }
  destruct A8 as [->|(_ & _ & ?)]; [|done]. apply rt_here; [done|].
  destruct (rf P z) as [u|] eqn:Hrf; [|done]. exfalso.
  apply last_Some_elem_of in Hz.
  destruct (l_ref _ _ _ _ _ _ _ _ _ HL z) as (_ & k & Hk' & Hzk); [by apply (l_mem _ _ _ _ _ _ _ _ _ HL) in Hz as [? _]|congruence|].
  pose proof (l_cut _ _ _ _ _ _ _ _ _ HL k Hk') as Lk.
  destruct (meet_comparable _ _ _ _ _ _ _ _ _ HL Hr Lk Hz Hzk) as [H|H]; [by destruct (Hk k Hk')|].
  apply (l_mem _ _ _ _ _ _ _ _ _ HL) in Hz as [_ [Q1 Q2]]; [|done].
  apply (l_mem _ _ _ _ _ _ _ _ _ HL) in Hzk as [_ [Q3 _]]; [|done].
  pose proof (Q2 k Hk' Q3 H) as ->. apply (Hk r Hk'). by apply (o_refl _ _ _ HO).
Qed.
End ord.

(* the region table only changes in fields that do not matter here *)
Definition rsame (R R' : list (list wreg)) : Prop := forall r a, get2 R r = Some a ->
  exists a', get2 R' r = Some a' /\ w_gray a' = w_gray a /\ w_head a' = w_head a /\ w_tail a' = w_tail a /\ samebox a a'.

Lemma lists_ext L W g L' W' g' R R' P M K (St St' : rref -> Prop) seg :
  (forall r, L r <-> L' r) -> (forall x r, L r -> W x r <-> W' x r) -> (forall r, L r -> g r = g' r) ->
  rsame R R' -> (forall r, L r -> St r -> St' r) ->
  lists L W g R P M K St seg -> lists L' W' g' R' P M K St' seg.
Proof.
  intros HL HW Hg HR HS [H1 H2 H3 H4 H5 H6 H7 H8].
  assert (forall x r, L r -> reach W K x r <-> reach W' K x r) as Hre.
  { intros x r Hr. unfold reach. rewrite (HW x r Hr). split; intros [Q1 Q2]; (split; [done|]); intros k Hk;
      pose proof (H1 k Hk) as Lk; specialize (Q2 k Hk); rewrite (HW _ _ Lk), (HW _ _ Hr) in *; auto. }
  constructor.
  - intros k Hk. apply HL; auto.
  - intros r Hr. apply HL in Hr; auto.
  - intros r q Hr. apply HL in Hr. rewrite <-(Hre _ _ Hr). auto.
  - intros r Hr. apply HL in Hr. destruct (H4 r Hr) as (a & h & z & t & A1 & A2 & A3 & A4 & A5 & A6 & A7 & A8 & D & D1 & D2 & D3).
    destruct (HR _ _ A1) as (a' & B1 & B2 & B3 & B4 & B5). exists a', h, z, t.
    rewrite <-(Hg _ Hr). split_and!; auto; try congruence.
    + destruct A8 as [?|(? & ? & ?)]; auto.
    + exists D. split; [done|]. split; [destruct D2; auto|]. by eapply isbox_same.
  - intros r y Hr Hy. apply HL in Hr, Hy. rewrite <-(Hre _ _ Hr). auto.
  - intros r Hr Ho. apply HL in Hr. apply H6; auto. destruct Ho as [?|Ho]; auto. right.
    intros y Hy Hy'. apply Ho; [by apply HL|]. by apply HW.
  - auto.
  - auto.
Qed.

(* ---------- cutting a region out ---------- *)
Lemma filter_all (A X : list rref) : (forall q, q ∈ A -> q ∉ X) -> filter (.∉ X) A = A.
Proof.
  induction A as [|i A IH]; intros H; [done|]. rewrite filter_cons_True by (apply H, elem_of_cons; auto).
  f_equal. apply IH. intros q Hq. apply H, elem_of_cons; auto.
Qed.
Lemma filter_none (A X : list rref) : (forall q, q ∈ A -> q ∈ X) -> filter (.∉ X) A = [].
Proof.
  induction A as [|i A IH]; intros H; [done|]. rewrite filter_cons_False.
  - apply IH. intros q Hq. apply H, elem_of_cons; auto.
  - intros Hn. apply Hn, H, elem_of_cons; auto.
Qed.

(* the change of a region record made by disconnect *)
Definition dchange (r : rref) (par : option rref) (u : Z) (y : rref) (a a' : wreg) : Prop :=
  w_gray a' = w_gray a /\ w_flag a' = w_flag a /\ w_bnd a' = w_bnd a /\ w_patch a' = w_patch a /\
  w_un a' = w_un a /\ w_head a' = w_head a /\ samebox a a' /\
  w_par a' = (if decide (y = r) then par else w_par a) /\
  w_size a' = (if decide (par = Some y) then w_size a - u else w_size a)%Z.

Definition cutseg (seg : rref -> list rref) (r y : rref) : list rref :=
  if decide (y <> r /\ default r (head (seg r)) ∈ seg y) then filter (.∉ seg r) (seg y) else seg y.

Section disc.
Context (L : rref -> Prop) (W : rref -> rref -> Prop) (g : rref -> nat) (HO : order L W g).
Context (R : list (list wreg)) (P : pts) (M K : list rref) (St : rref -> Prop) (seg : rref -> list rref)
  (HL : lists L W g R P M K St seg).
Context (r : rref) (Lr : L r) (Hnk : forall k, k ∈ K -> ~ W r k)
  (Hst : forall y, L y -> St y -> W y r -> y = r).

Notation seg' := (cutseg seg r).

Lemma reach_up a : L a -> W r a -> reach W K r a.
Proof using Hnk. intros La H. split; [done|]. intros k Hk H1 _. by destruct (Hnk k Hk). Qed.
Lemma up_split a : L a -> W r a -> exists A B, seg a = A ++ seg r ++ B.
Proof using Hnk HL Lr. intros La H. apply (l_nest _ _ _ _ _ _ _ _ _ HL); auto. by apply reach_up. Qed.
Lemma seg'_up a : L a -> W r a -> a <> r -> seg' a = filter (.∉ seg r) (seg a).
Proof using Hnk HL Lr.
  intros La H Hne. destruct (l_reg _ _ _ _ _ _ _ _ _ HL r Lr) as (_ & h & _ & _ & _ & _ & A3 & _).
  unfold cutseg. rewrite A3, decide_True; [done|]. split; [done|]. destruct (up_split a La H) as (A & B & ->).
  rewrite !elem_of_app. right. left. by apply head_Some_elem_of.
Qed.
Lemma seg'_other a : L a -> (a = r \/ ~ W r a) -> seg' a = seg a.
Proof using Hnk HL Lr HO.
  intros La H. unfold cutseg. rewrite decide_False; [done|]. intros [Hne Hh].
  destruct (l_reg _ _ _ _ _ _ _ _ _ HL r Lr) as (_ & h & _ & _ & _ & _ & A3 & _ & A5 & _).
  rewrite A3 in Hh. cbn in Hh. destruct H as [->|H]; [done|].
  apply (l_mem _ _ _ _ _ _ _ _ _ HL) in Hh as [Hp [Q1 Q2]]; [|done].
  apply head_Some_elem_of in A3. apply (l_mem _ _ _ _ _ _ _ _ _ HL) in A3 as [_ [Q3 _]]; [|done].
  destruct (o_lin _ _ _ HO _ _ _ La Lr Q1 Q3) as [Har|]; [|done].
  destruct (o_gray _ _ _ HO a r La Lr Har) as [?|Hlt]; [done|].
  pose proof (o_lab _ _ _ HO h a Hp La Q1). lia.
Qed.
(* whether a region lies above r *)
Lemma above_dec a : L a -> (W r a /\ a <> r) \/ a = r \/ ~ W r a.
Proof using Hnk HL Lr HO.
  intros La. destruct (decide (a = r)) as [|Hne]; [auto|].
  destruct (l_reg _ _ _ _ _ _ _ _ _ HL r Lr) as (_ & h & _ & _ & _ & _ & A3 & _ & A5 & _).
  destruct (decide (h ∈ seg a)) as [Hh|Hh].
  - left. split; [|done]. apply (l_mem _ _ _ _ _ _ _ _ _ HL) in Hh as [Hp [Q1 Q2]]; [|done].
    apply head_Some_elem_of in A3. apply (l_mem _ _ _ _ _ _ _ _ _ HL) in A3 as [_ [Q3 _]]; [|done].
    destruct (o_lin _ _ _ HO _ _ _ La Lr Q1 Q3) as [Har|]; [|done].
    destruct (o_gray _ _ _ HO a r La Lr Har) as [?|Hlt]; [done|].
    pose proof (o_lab _ _ _ HO h a Hp La Q1). lia.
  - right. right. intros H. apply Hh. destruct (up_split a La H) as (A & B & ->).
    rewrite !elem_of_app. right. left. by apply head_Some_elem_of.
Qed.
(* reaching with the new cut *)
Lemma reach_cut_up x a : L a -> W r a -> a <> r -> reach W (r :: K) x a <-> reach W K x a /\ ~ W x r.
Proof using HO.
  intros La Hra Hne. split.
  - intros [H1 H2]. split.
    + split; [done|]. intros k Hk. apply H2, elem_of_cons; auto.
    + intros Hx. apply Hne. symmetry. apply H2; auto. apply elem_of_cons; auto.
  - intros [[H1 H2] H3]. split; [done|]. intros k [->|Hk]%elem_of_cons; [done|auto].
Qed.
Lemma reach_cut_other x a : L a -> (a = r \/ ~ W r a) -> reach W (r :: K) x a <-> reach W K x a.
Proof using HO.
  intros La Hra. split.
  - intros [H1 H2]. split; [done|]. intros k Hk. apply H2, elem_of_cons; auto.
  - intros [H1 H2]. split; [done|]. intros k [->|Hk]%elem_of_cons; [|auto].
    intros _ H. destruct Hra; [done|done].
Qed.
(* inside a list of an ancestor, the pixels of r are those below r *)
Lemma in_r q a : L a -> W r a -> a <> r -> q ∈ seg a -> q ∈ seg r <-> W (labq q) r.
Proof using Hnk HL Lr HO.
  intros La Hra Hne Hq. apply (l_mem _ _ _ _ _ _ _ _ _ HL) in Hq as [Hp [Q1 Q2]]; [|done].
  rewrite (l_mem _ _ _ _ _ _ _ _ _ HL r q Lr). split; [by intros [_ [? _]]|]. intros H. split; [done|].
  split; [done|]. intros k Hk H1 H2. pose proof (l_cut _ _ _ _ _ _ _ _ _ HL k Hk) as Lk.
  assert (k = a) as -> by (apply Q2; auto; by apply (o_trans _ _ _ HO k r a)).
  by destruct (Hnk a Hk).
Qed.
Lemma up_not_cut a : L a -> W r a -> forall k, k ∈ K -> ~ W a k.
Proof using Hnk HL Lr HO.
  intros La Hra k Hk H. apply (Hnk k Hk). pose proof (l_cut _ _ _ _ _ _ _ _ _ HL k Hk) as Lk.
  by apply (o_trans _ _ _ HO r a k).
Qed.

Lemma disc_lists R' P' M' z t (par : option rref) u :
  (* the region table *)
  (forall y a, get2 R y = Some a -> exists a', get2 R' y = Some a' /\ dchange r par u y a a' /\
     w_tail a' = (if decide (y = r) then Some z else w_tail a)) ->
  last (seg r) = Some z -> (exists a, get2 R r = Some a /\ w_tail a = Some t) -> psame P P' ->
  (* the links *)
  (forall A B top, L top -> W r top -> (forall y, L y -> W top y -> y = top) -> seg top = A ++ seg r ++ B ->
    (forall q, nx P' q = if decide (q = z) then None else if decide (last A = Some q) then head B else nx P q) /\
    (forall q, pv P' q = if decide (Some q = head (seg r)) then None else if decide (head B = Some q) then last A else pv P q)) ->
  (* the references *)
  (forall v y, rt P v y -> (exists a, L a /\ W r a /\ a <> r /\ last (seg a) = Some y /\ y <> z) -> rt P' v y) ->
  (forall v y, rt P v y -> y <> z -> rt P' v y) ->
  (forall A a v, rt P v z -> L a -> W r a -> a <> r -> seg a = A ++ seg r ->
    exists p, last A = Some p /\ rt P' v p) ->
  (forall q, rf P' q <> None -> rf P q <> None \/ (q = z /\ q ∈ M')) ->
  (forall q, q ∈ M -> q ∈ M') -> (forall q, q ∈ M' -> q ∈ M \/ q = z) ->
  lists L W g R' P' M' (r :: K) (fun y => St y \/ (W r y /\ y <> r)) seg'.
Proof using Hnk HL Lr HO Hst.
  intros HR Hz [ar [Har Hart]] HS Hlinks Hrt1 Hrt2 Hrt3 Hrf HM1 HM2.
  pose proof (fun q => l_mem _ _ _ _ _ _ _ _ _ HL r q Lr) as Hmemr.
  constructor.
  - intros k [->|Hk]%elem_of_cons; [done|]. by apply (l_cut _ _ _ _ _ _ _ _ _ HL).
  - intros a La. pose proof (l_dup _ _ _ _ _ _ _ _ _ HL a La). unfold cutseg. case_decide; [by apply NoDup_filter|done].
  - intros a q La. destruct (above_dec a La) as [[H Hne]|H].
    + rewrite (seg'_up a La H Hne), elem_of_list_filter, (reach_cut_up _ a La H Hne). split.
      * intros [Hq1 Hq2]. rewrite (in_r q a La H Hne Hq2) in Hq1.
        apply (l_mem _ _ _ _ _ _ _ _ _ HL) in Hq2 as [? ?]; [|done]. done.
      * intros (Hp & Hr1 & Hr2). assert (q ∈ seg a) as Hq by (by apply (l_mem _ _ _ _ _ _ _ _ _ HL)).
        split; [|done]. by rewrite (in_r q a La H Hne Hq).
    + rewrite (seg'_other a La H), (reach_cut_other _ a La H). by apply (l_mem _ _ _ _ _ _ _ _ _ HL).
  - intros a La.
    destruct (l_reg _ _ _ _ _ _ _ _ _ HL a La) as (b & h & za & ta & A1 & A2 & A3 & A4 & A5 & A6 & A7 & A8 & D & D1 & D2 & D3).
    destruct (HR a b A1) as (b' & B1 & (C1 & C2 & C3 & C4 & C5 & C6 & C7 & C8 & C9) & B3).
    assert (forall q, q ∈ D -> exists k, k ∈ r :: K /\ q ∈ seg' k) as HD.
    { intros q Hq. destruct (D1 q Hq) as (k & Hk & Hqk). exists k. split; [apply elem_of_cons; auto|].
      rewrite seg'_other; [done|by apply (l_cut _ _ _ _ _ _ _ _ _ HL)|]. right. auto. }
    destruct (above_dec a La) as [[H Hne]|H].
    + (* above r *)
      rewrite (seg'_up a La H Hne). destruct (up_split a La H) as (A & B & E).
      pose proof (l_dup _ _ _ _ _ _ _ _ _ HL a La) as ND. rewrite E in ND.
      apply NoDup_app in ND as (NA & NAL & NLB). apply NoDup_app in NLB as (NL & NLB' & NB).
      assert (filter (.∉ seg r) (seg a) = A ++ B) as EF.
      { rewrite E, !filter_app, filter_all, filter_none, filter_all; auto.
        - intros q Hq Hr. by apply (NLB' q Hr).
        - intros q Hq Hr. apply (NAL q Hq). apply elem_of_app; auto. }
      assert (A <> []) as HA.
      { intros ->. rewrite E in A3. destruct (l_reg _ _ _ _ _ _ _ _ _ HL r Lr) as (_ & hr & _ & _ & _ & _ & R3 & _ & R5 & _).
        assert (hr = h) as ->. { destruct (seg r); [done|]. cbn in *. congruence. }
        destruct (o_gray _ _ _ HO r a Lr La H) as [?|Hlt]; [congruence|]. lia. }
      rewrite EF.
      assert (rt P ta za) as Hrta.
      { eapply (tail_rt L W g HO _ _ _ _ _ _ _ _ _ _ HL La); eauto. by apply up_not_cut. }
      assert (exists z', last (A ++ B) = Some z' /\ rt P' ta z') as (z' & Hz' & Hrt').
      { destruct (decide (za = z)) as [->|Hzz].
        - assert (B = []) as ->.
          { destruct B as [|i B] using rev_ind; [done|]. exfalso. rewrite E, !app_assoc, last_snoc in A6.
            injection A6 as ->. apply (NLB' z); [by apply last_Some_elem_of|]. apply elem_of_app. right.
            by apply elem_of_list_singleton. }
          rewrite app_nil_r in E. destruct (Hrt3 A a ta Hrta La H Hne E) as (p & Hp & Hrp).
          exists p. by rewrite app_nil_r.
        - exists za. split; [|apply Hrt1; eauto 10].
          destruct B as [|i B _] using rev_ind.
          + rewrite E, app_nil_r, last_app, Hz in A6. congruence.
          + rewrite E, !app_assoc, last_snoc in A6. rewrite app_assoc, last_snoc. done. }
      exists b', h, z', ta. split_and!; auto; try congruence.
      * destruct A as [|i A]; [done|]. rewrite E in A3. done.
      * rewrite B3, decide_False by done. done.
      * right. split_and!; auto.
        -- intros [?|Hk]%elem_of_cons; [done|]. apply (up_not_cut a La H a Hk). by apply (o_refl _ _ _ HO).
      * exists (seg r ++ D). split_and!.
        -- intros q [Hq|Hq]%elem_of_app; auto. exists r. split; [apply elem_of_cons; auto|].
           rewrite seg'_other; auto.
        -- right. auto.
        -- eapply isbox_same; [exact C7|]. eapply isbox_ext; [|exact D3]. intros q. rewrite E, !elem_of_app. tauto.
    + rewrite (seg'_other a La H). exists b', h, za, (if decide (a = r) then z else ta). split_and!; auto; try congruence.
      * rewrite B3. by case_decide.
      * destruct (decide (a = r)) as [->|Hne]; [left; congruence|].
        destruct A8 as [?|(S1 & S2 & S3)]; [by left|]. right.
        split; [by left|]. split; [by intros [?|?]%elem_of_cons|]. apply Hrt2; [done|].
        intros ->. apply last_Some_elem_of in Hz, A6.
        destruct (meet_comparable L W g HO _ _ _ _ _ _ _ _ _ HL La Lr A6 Hz) as [H'|H'].
        -- apply Hne. auto.
        -- destruct H; auto.
      * exists D. split; [done|]. split; [destruct D2; auto|]. by eapply isbox_same.
  - intros a y La Ly Hre. destruct (above_dec a La) as [[H Hne]|H].
    + rewrite (reach_cut_up _ a La H Hne) in Hre. destruct Hre as [Hre Hny].
      destruct (l_nest _ _ _ _ _ _ _ _ _ HL a y La Ly Hre) as (A & B & E).
      rewrite (seg'_up a La H Hne), E, !filter_app.
      exists (filter (.∉ seg r) A), (filter (.∉ seg r) B). f_equal. f_equal.
      destruct (above_dec y Ly) as [[H' Hne']|H'].
      * by rewrite (seg'_up y Ly H' Hne').
      * rewrite (seg'_other y Ly H'). apply filter_all. intros q Hq Hr.
        destruct (meet_comparable L W g HO _ _ _ _ _ _ _ _ _ HL Ly Lr Hq Hr) as [?|?]; [done|].
        destruct H' as [-> | ?]; [|done]. by apply Hny.
    + rewrite (reach_cut_other _ a La H) in Hre.
      rewrite (seg'_other a La H). destruct (l_nest _ _ _ _ _ _ _ _ _ HL a y La Ly Hre) as (A & B & E).
      exists A, B. rewrite (seg'_other y Ly); [done|].
      destruct (decide (y = r)) as [->|Hyr]; [by left|]. right. intros Hry.
      destruct Hre as [Hya _]. destruct H as [-> | H].
      * apply Hyr. by apply (o_anti L W g HO).
      * apply H. by eapply (o_trans _ _ _ HO r y a).
  - intros a La Ho.
    destruct (o_top _ _ _ HO r Lr) as (u0 & Hu & Hru & Htop).
    destruct (up_split u0 Hu Hru) as (A & B & E).
    pose proof (l_chain _ _ _ _ _ _ _ _ _ HL u0 Hu (or_intror Htop)) as Hd.
    pose proof (l_dup _ _ _ _ _ _ _ _ _ HL u0 Hu) as ND. rewrite E in Hd, ND.
    destruct (l_reg _ _ _ _ _ _ _ _ _ HL r Lr) as (_ & hr & _ & _ & _ & _ & R3 & _).
    destruct (Hlinks A B u0 Hu Hru Htop E) as [LN LV].
    destruct (cut_out P P' A (seg r) B hr z HS ND R3 Hz Hd LN) as (X1 & X2 & X3).
    { intros q. rewrite LV, R3. destruct (decide (q = hr)) as [->|]; [by rewrite decide_True|by rewrite decide_False by congruence]. }
    destruct (decide (a = r)) as [->|Har'].
    { rewrite seg'_other; auto. }
    destruct (decide (a = u0)) as [->|Hau].
    { rewrite (seg'_up u0 Hu Hru Har'), E, !filter_app.
      apply NoDup_app in ND as (NA & NAL & NLB). apply NoDup_app in NLB as (NL & NLB' & NB).
      rewrite filter_all, filter_none, filter_all; auto.
      - intros q Hq Hr. by apply (NLB' q Hr).
      - intros q Hq Hr. apply (NAL q Hq). apply elem_of_app; auto. }
    assert (~ W r a) as Hnra.
    { intros H. destruct Ho as [[?|Hk]%elem_of_cons|Ho]; [done|by apply (Hnk a Hk)|].
      destruct (o_lin _ _ _ HO r a u0 La Hu H Hru) as [H'|H'].
      - apply Hau. symmetry. by apply Ho.
      - apply Hau. by apply Htop. }
    rewrite seg'_other; auto. apply X3.
    + intros q Hq Hq'. rewrite <-E in Hq'. apply Hau.
      eapply (owners_disjoint L W g HO _ _ _ K _ _ _ _ _ HL La Hu); eauto.
      * destruct Ho as [[?|Hk]%elem_of_cons|Ho]; [done|by left|by right].
      * by right.
    + apply (l_chain _ _ _ _ _ _ _ _ _ HL); auto. destruct Ho as [[?|Hk]%elem_of_cons|Ho]; auto. done.
  - intros q Hpq Hq. destruct (Hrf q Hq) as [H|[-> H]].
    + destruct (l_ref _ _ _ _ _ _ _ _ _ HL q Hpq H) as (Hm & k & Hk & Hqk). split; [auto|]. exists k.
      split; [apply elem_of_cons; auto|]. rewrite seg'_other; auto. by apply (l_cut _ _ _ _ _ _ _ _ _ HL).
    + split; [done|]. exists r. split; [apply elem_of_cons; auto|]. rewrite seg'_other; auto. by apply last_Some_elem_of.
  - intros q Hq. apply (psame_dom P P' q HS). destruct (HM2 q Hq) as [?| ->]; [by apply (l_marks _ _ _ _ _ _ _ _ _ HL)|].
    assert (rt P t z) as Hrtz by (eapply (tail_rt L W g HO _ _ _ _ _ _ _ _ _ _ HL Lr); eauto).
    by destruct (rt_end _ _ _ Hrtz).
Qed.
End disc.
End lists.
