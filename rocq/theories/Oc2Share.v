(* The quotient of sizes with which the OpenCV-style extraction tests the diversity. *)
From Coq Require Import ZArith Reals Psatz SpecFloat.
From Flocq Require Import Core BinarySingleNaN.
From Verif Require Import FloatModel FloatFacts RecogModel GrowthFacts Oc2Seg.
Local Open Scope Z_scope.
#[local] Existing Instance Hprec.
#[local] Existing Instance Hmax.

Lemma share_ok n z : 0 <= n <= z -> 0 < z < 2 ^ 31 ->
  exists x : b64, SFdiv 53 1024 (f64_of_int n) (f64_of_int z) = B2SF x /\ is_finite x = true /\ B2R x = rnd (IZR n / IZR z).
Proof.
  intros H1 H2. destruct (of_int_ok n) as (a & Ea & Ra & Fa); [lia|]. destruct (of_int_ok z) as (b & Eb & Rb & Fb); [lia|].
  exists (Bdiv mode_NE a b). rewrite Ea, Eb. split; [apply div_equiv|].
  assert (IZR z <> 0)%R as Hne by (apply IZR_neq; lia).
  pose proof (Bdiv_correct 53 1024 Hprec Hmax mode_NE a b) as H. rewrite Ra, Rb in H. specialize (H Hne).
  rewrite Rlt_bool_true in H.
  - destruct H as (H & H' & _). split; [congruence|exact H].
  - apply Rle_lt_trans with (bpow radix2 32); [|apply bpow_le_emax].
    apply abs_round_le_generic; [apply fexp_correct; exact Hprec|apply valid_rnd_round_mode| |].
    + apply generic_format_bpow. unfold SpecFloat.fexp, SpecFloat.emin. lia.
    + assert (1 <= IZR z)%R as Hs by (apply IZR_le; lia). assert (0 <= IZR n)%R as Hn by (apply IZR_le; lia).
      rewrite Rabs_pos_eq.
      * apply Rle_trans with (IZR n).
        -- unfold Rdiv. rewrite <-(Rmult_1_r (IZR n)) at 2. apply Rmult_le_compat_l; [exact Hn|]. rewrite <-Rinv_1. apply Rinv_le; lra.
        -- change (bpow radix2 32) with (IZR (2 ^ 32)). apply IZR_le. lia.
      * apply Rmult_le_pos; [exact Hn|]. left. apply Rinv_0_lt_compat. lra.
Qed.

(* the share of the new pixels is larger if there are more of them *)
Lemma diverse_mono P z s s' : (0 < z)%nat -> (s <= s' <= z)%nat -> Z.of_nat z < 2 ^ 31 -> diverse P z s' = true -> diverse P z s = true.
Proof.
  intros H1 H2 H3. unfold diverse. destruct (share_ok (Z.of_nat z - Z.of_nat s') (Z.of_nat z)) as (a & -> & Fa & Ra); [lia|lia|].
  destruct (share_ok (Z.of_nat z - Z.of_nat s) (Z.of_nat z)) as (b & -> & Fb & Rb); [lia|lia|].
  destruct (threshold_ok (p_dup P)) as (t & ->). destruct (is_finite t) eqn:Ft.
  - rewrite !fgt_real by assumption. intros H. apply Rlt_bool_true. destruct (Rlt_bool_spec (B2R t) (B2R a)) as [Hlt|]; [|discriminate].
    eapply Rlt_le_trans; [exact Hlt|]. rewrite Ra, Rb. apply round_le; [apply fexp_correct; exact Hprec|apply valid_rnd_round_mode|].
    apply div_le; lia.
  - rewrite (fgt_special a b t) by assumption. intros H. exact H.
Qed.
Lemma diverse_same P z : (0 < z)%nat -> Z.of_nat z < 2 ^ 31 -> fge (p_dup P) fzero = true -> diverse P z z = false.
Proof.
  intros H1 H2 Hd. unfold diverse. rewrite Z.sub_diag. destruct (share_ok 0 (Z.of_nat z)) as (a & Ea & Fa & Ra); [lia|lia|]. rewrite Ea.
  unfold Rdiv in Ra. rewrite Rmult_0_l, round_0 in Ra by (apply valid_rnd_round_mode).
  apply nonneg_f64 in Hd. destruct (threshold_ok (p_dup P)) as (t & Et). rewrite Et in *.
  destruct (is_finite t) eqn:Ft.
  - rewrite fgt_real by assumption. apply Rlt_bool_false. rewrite Ra. unfold fge, SFleb, fzero in Hd. change (SFcompare (S754_zero false) (B2SF t)) with (Bcompare (B754_zero false : b64) t) in Hd.
    rewrite Bcompare_correct in Hd by (assumption || reflexivity). cbn [B2R] in Hd. destruct (Rcompare_spec 0 (B2R t)); try discriminate; lra.
  - destruct t as [s|s| |s m e B]; try discriminate; destruct a as [s0|s0| |s0 m0 e0 B0]; try discriminate; try destruct s; try destruct s0; try reflexivity; discriminate.
Qed.
