(* Duplicate removal on two trees with the same shape. *)
From stdpp Require Import sorting relations functions list.
From Verif Require Import DupAbs.
Local Open Scope nat_scope.

Section trans.
Context {I1 I2 : Type} `{EqDecision I1} `{EqDecision I2}.
Context (RP1 : I1 -> option I1) (size1 : I1 -> nat) (big1 : I1 -> bool) (N1 : nat) (d1 : I1 -> nat).
Context (RP2 : I2 -> option I2) (size2 : I2 -> nat) (big2 : I2 -> bool) (N2 : nat) (d2 : I2 -> nat).
Context (near : nat -> nat -> bool) (R : I1 -> I2 -> Prop).
Context (Hsize : forall x y, R x y -> size1 x = size2 y).
Context (Hbig : forall x y, R x y -> big1 x = big2 y).
Context (Hfun : forall x y x' y', R x y -> R x' y' -> x = x' <-> y = y').
Context (HRPs : forall x y x', R x y -> RP1 x = Some x' -> exists y', RP2 y = Some y' /\ R x' y').
Context (HRPn : forall x y, R x y -> RP1 x = None -> RP2 y = None).
Context (Hd1 : forall x x2 y, R x x2 -> RP1 x = Some y -> d1 y < d1 x) (HN1 : forall x y, R x y -> d1 x <= N1).
Context (Hd2 : forall x x1 y, R x1 x -> RP2 x = Some y -> d2 y < d2 x) (HN2 : forall x y, R x y -> d2 y <= N2).

Definition flR (f1 : I1 -> nat) (f2 : I2 -> nat) : Prop := forall x y, R x y -> f1 x = f2 y.

Lemma awalk_trans f1 f2 st : flR f1 f2 -> forall n1 n2 x y, R x y -> d1 x <= n1 -> d2 y <= n2 ->
  Forall2 R (awalk RP1 size1 big1 near n1 f1 st (RP1 x)) (awalk RP2 size2 big2 near n2 f2 st (RP2 y)).
Proof.
  intros Hf. induction n1 as [|n1 IH]; intros n2 x y Hxy Hn1 Hn2.
  - destruct (RP1 x) as [x'|] eqn:E1; [pose proof (Hd1 x y x' Hxy E1); lia|].
    rewrite (HRPn x y Hxy E1). destruct n2; constructor.
  - destruct (RP1 x) as [x'|] eqn:E1; [|rewrite (HRPn x y Hxy E1); destruct n2; constructor].
    destruct (HRPs x y x' Hxy E1) as (y' & E2 & Hxy'). rewrite E2. pose proof (Hd1 x y x' Hxy E1). pose proof (Hd2 y x y' Hxy E2).
    destruct n2 as [|n2]; [lia|]. cbn [awalk]. rewrite (Hbig x' y' Hxy'), (Hsize x' y' Hxy'), (Hf x' y' Hxy').
    destruct (big2 y'); [constructor|]. destruct (negb (near st (size2 y'))); [constructor|].
    assert (Forall2 R (awalk RP1 size1 big1 near n1 f1 st (RP1 x')) (awalk RP2 size2 big2 near n2 f2 st (RP2 y'))) as Hr by (apply IH; auto; lia).
    destruct (f2 y' =? 0); auto.
Qed.
Notation adup1 := (adup RP1 size1 big1 near N1). Notation adup2 := (adup RP2 size2 big2 near N2).
Notation akeep1 := (akeep RP1 size1 big1 near N1). Notation akeep2 := (akeep RP2 size2 big2 near N2).
Notation amarked1 := (amarked RP1 size1 big1 near N1). Notation amarked2 := (amarked RP2 size2 big2 near N2).
Notation astep1 := (astep RP1 size1 big1 near N1). Notation astep2 := (astep RP2 size2 big2 near N2).

Lemma nth_trans l1 l2 n x y : Forall2 R l1 l2 -> R x y -> R (nth n l1 x) (nth n l2 y).
Proof. clear. intros H. revert n. induction H as [|u v l1 l2 Huv _ IH]; intros [|n] Hxy; cbn; auto. Qed.
Lemma last_trans l1 l2 x y : Forall2 R l1 l2 -> R x y -> R (List.last l1 x) (List.last l2 y).
Proof.
  clear. intros H. induction H as [|u v l1 l2 Huv H2 IH]; intros Hxy; cbn; auto.
  destruct H2; auto.
Qed.
Lemma elem_trans l1 l2 x y : Forall2 R l1 l2 -> R x y -> x ∈ l1 <-> y ∈ l2.
Proof.
  intros H Hxy. induction H as [|u v l1 l2 Huv _ IH]; [split; intros ?%elem_of_nil; done|].
  rewrite !elem_of_cons, IH, (Hfun _ _ _ _ Hxy Huv). done.
Qed.
Lemma adup_trans f1 f2 x y : flR f1 f2 -> R x y -> Forall2 R (adup1 f1 x) (adup2 f2 y).
Proof.
  intros Hf Hxy. unfold adup. constructor; auto. rewrite (Hsize x y Hxy). apply awalk_trans; eauto.
Qed.
Lemma akeep_trans f1 f2 x y : flR f1 f2 -> R x y -> R (akeep1 f1 x) (akeep2 f2 y).
Proof.
  intros Hf Hxy. unfold akeep, amid. pose proof (adup_trans f1 f2 x y Hf Hxy) as H. rewrite (Forall2_length _ _ _ H).
  by apply nth_trans.
Qed.
Lemma amarked_trans f1 f2 x y : flR f1 f2 -> R x y -> Forall2 R (amarked1 f1 x) (amarked2 f2 y).
Proof.
  intros Hf Hxy. unfold amarked. pose proof (adup_trans f1 f2 x y Hf Hxy) as H. apply Forall2_app; auto.
  unfold amore, amid. rewrite (Forall2_length _ _ _ H). destruct (0 <? _); [|constructor].
  assert (R (aend RP1 size1 big1 near N1 f1 x) (aend RP2 size2 big2 near N2 f2 y)) as He by (by apply last_trans).
  rewrite (Hsize _ _ (akeep_trans f1 f2 x y Hf Hxy)). apply awalk_trans; eauto.
Qed.
Lemma astep_trans f1 f2 x y : flR f1 f2 -> R x y -> flR (astep1 f1 x) (astep2 f2 y).
Proof.
  intros Hf Hxy. unfold astep. rewrite (Hf x y Hxy). destruct (f2 y =? 0); auto. intros u v Huv.
  pose proof (Hfun _ _ _ _ Huv (akeep_trans f1 f2 x y Hf Hxy)) as H1. pose proof (elem_trans _ _ u v (amarked_trans f1 f2 x y Hf Hxy) Huv) as H2.
  repeat case_decide; try done; try (exfalso; tauto). by apply Hf.
Qed.
Lemma arun_trans l1 l2 : Forall2 R l1 l2 -> forall f1 f2, flR f1 f2 ->
  flR (arun RP1 size1 big1 near N1 f1 l1) (arun RP2 size2 big2 near N2 f2 l2).
Proof. intros H. induction H as [|x y l1 l2 Hxy _ IH]; intros f1 f2 Hf; cbn; auto. apply IH. by apply astep_trans. Qed.

Lemma NoDup_trans l1 l2 : Forall2 R l1 l2 -> NoDup l1 -> NoDup l2.
Proof.
  intros H. induction H as [|x y l1 l2 Hxy H IH]; intros Hn; constructor; apply NoDup_cons in Hn as [Hn1 Hn2]; auto.
  by rewrite <- (elem_trans l1 l2 x y).
Qed.
End trans.
