(* The relative growth in double precision: monotone, and at least 1 for doubled sizes.
   Uses the proofs about IEEE arithmetic of the Flocq library (over the standard
   library's real numbers). *)
From Coq Require Import ZArith Reals Psatz SpecFloat.
From Flocq Require Import Core BinarySingleNaN.
From Verif Require Import FloatModel FloatFacts.
Local Open Scope Z_scope.

Definition Hprec : Prec_gt_0 53 := eq_refl.
Definition Hmax : Prec_lt_emax 53 1024 := eq_refl.
#[local] Existing Instance Hprec.
#[local] Existing Instance Hmax.
Notation b64 := (binary_float 53 1024).
Notation rnd := (round radix2 (SpecFloat.fexp 53 1024) (round_mode mode_NE)).

Lemma rne_equiv s m l : round_nearest_even m l = choice_mode mode_NE s m l.
Proof. destruct l as [|c]; [reflexivity|]. destruct c; try reflexivity. cbn. unfold Round.cond_incr. destruct (Z.even m); reflexivity. Qed.
Lemma round_aux_equiv s m e l :
  SpecFloat.binary_round_aux 53 1024 s m e l = BinarySingleNaN.binary_round_aux 53 1024 mode_NE s m e l.
Proof.
  unfold SpecFloat.binary_round_aux, BinarySingleNaN.binary_round_aux. destruct (shr_fexp _ _ _ _ _) as [a b]. cbn.
  rewrite (rne_equiv s). reflexivity.
Qed.
Lemma normalize_equiv m e z :
  SpecFloat.binary_normalize 53 1024 m e z = B2SF (BinarySingleNaN.binary_normalize 53 1024 Hprec Hmax mode_NE m e z).
Proof.
  assert (forall s p, SpecFloat.binary_round 53 1024 s p e = BinarySingleNaN.binary_round 53 1024 mode_NE s p e) as H.
  { intros s p. unfold SpecFloat.binary_round, BinarySingleNaN.binary_round, shl_align_fexp.
    destruct (shl_align _ _ _) as [a b]. apply round_aux_equiv. }
  destruct m as [|p|p]; cbn; [reflexivity| |]; rewrite B2SF_SF2B; apply H.
Qed.
Lemma div_equiv (x y : b64) : SFdiv 53 1024 (B2SF x) (B2SF y) = B2SF (Bdiv mode_NE x y).
Proof.
  destruct x as [sx|sx| |sx mx ex Bx], y as [sy|sy| |sy my ey By]; try reflexivity.
  cbn [B2SF SFdiv Bdiv]. rewrite B2SF_SF2B. destruct (SFdiv_core_binary _ _ _ _ _ _) as [[mz ez] lz]. apply round_aux_equiv.
Qed.

(* a 32 bit integer is represented exactly *)
Lemma bpow_le_emax : (bpow radix2 32 < bpow radix2 1024)%R.
Proof. apply bpow_lt. lia. Qed.
Lemma of_int_ok z : Z.abs z < 2 ^ 32 -> exists x : b64, f64_of_int z = B2SF x /\ B2R x = IZR z /\ is_finite x = true.
Proof.
  intros Hz. exists (BinarySingleNaN.binary_normalize 53 1024 Hprec Hmax mode_NE z 0 false). split; [apply normalize_equiv|].
  pose proof (binary_normalize_correct 53 1024 Hprec Hmax mode_NE z 0 false) as H.
  assert (F2R (Float radix2 z 0) = IZR z) as E by (unfold F2R; cbn; ring). cbv zeta in H. rewrite E in H.
  assert (rnd (IZR z) = IZR z) as Er.
  { apply round_generic; [apply valid_rnd_round_mode|]. rewrite <-E. apply generic_format_F2R. intros Hne. rewrite E.
    unfold cexp, SpecFloat.fexp, SpecFloat.emin. apply Z.max_lub; [|lia].
    assert (mag radix2 (IZR z) <= 32)%Z as Hm; [|lia].
    apply mag_le_bpow; [apply IZR_neq; intros ->; apply Hne; reflexivity|]. rewrite <-abs_IZR.
    change (bpow radix2 32) with (IZR (2 ^ 32)). apply IZR_lt. exact Hz. }
  rewrite Er in H. rewrite Rlt_bool_true in H.
  - destruct H as (H1 & H2 & _). split; assumption.
  - rewrite <-abs_IZR. eapply Rlt_trans; [|apply bpow_le_emax]. change (bpow radix2 32) with (IZR (2 ^ 32)). apply IZR_lt. exact Hz.
Qed.

Lemma growth_ok big small : (0 < small)%nat -> (small <= big)%nat -> Z.of_nat big < 2 ^ 31 ->
  exists x : b64, f64_growth big small = B2SF x /\ is_finite x = true /\
    B2R x = rnd (IZR (Z.of_nat big - Z.of_nat small) / IZR (Z.of_nat small)).
Proof.
  intros H1 H2 H3. destruct (of_int_ok (Z.of_nat big - Z.of_nat small)) as (a & Ea & Ra & Fa); [lia|].
  destruct (of_int_ok (Z.of_nat small)) as (b & Eb & Rb & Fb); [lia|].
  exists (Bdiv mode_NE a b). unfold f64_growth. rewrite Ea, Eb. split; [apply div_equiv|].
  assert (IZR (Z.of_nat small) <> 0)%R as Hne by (apply IZR_neq; lia).
  pose proof (Bdiv_correct 53 1024 Hprec Hmax mode_NE a b) as H. rewrite Ra, Rb in H. specialize (H Hne).
  rewrite Rlt_bool_true in H.
  - destruct H as (H & H' & _). split; [congruence|exact H].
  - apply Rle_lt_trans with (bpow radix2 32); [|apply bpow_le_emax].
    apply abs_round_le_generic; [apply fexp_correct; exact Hprec|apply valid_rnd_round_mode| |].
    + apply generic_format_bpow. unfold SpecFloat.fexp, SpecFloat.emin. lia.
    + assert (1 <= IZR (Z.of_nat small))%R as Hs by (apply IZR_le; lia).
      assert (0 <= IZR (Z.of_nat big - Z.of_nat small))%R as Hn by (apply IZR_le; lia).
      rewrite Rabs_pos_eq.
      * apply Rle_trans with (IZR (Z.of_nat big - Z.of_nat small)).
        -- unfold Rdiv. rewrite <-(Rmult_1_r (IZR (Z.of_nat big - Z.of_nat small))) at 2. apply Rmult_le_compat_l; [exact Hn|].
           rewrite <-Rinv_1. apply Rinv_le; lra.
        -- change (bpow radix2 32) with (IZR (2 ^ 32)). apply IZR_le. lia.
      * apply Rmult_le_pos; [exact Hn|]. left. apply Rinv_0_lt_compat. lra.
Qed.

(* the threshold is a double, too *)
Lemma threshold_ok d : exists t : b64, f64_of_f32 d = B2SF t.
Proof.
  destruct d as [s|s| |s m e]; cbn [f64_of_f32].
  - exists (B754_zero s). reflexivity.
  - exists (B754_infinity s). reflexivity.
  - exists B754_nan. reflexivity.
  - eexists. apply normalize_equiv.
Qed.

Lemma fgt_real (a b : b64) : is_finite a = true -> is_finite b = true -> fgt (B2SF a) (B2SF b) = Rlt_bool (B2R b) (B2R a).
Proof.
  intros Ha Hb. unfold fgt, SFltb. change (SFcompare (B2SF b) (B2SF a)) with (Bcompare b a).
  rewrite Bcompare_correct by assumption. unfold Rlt_bool. destruct (Rcompare _ _); reflexivity.
Qed.
Lemma fgt_special (a a' b : b64) : is_finite a = true -> is_finite a' = true -> is_finite b = false ->
  fgt (B2SF a) (B2SF b) = fgt (B2SF a') (B2SF b).
Proof.
  intros Ha Ha' Hb. destruct b as [s|s| |s m e Bb]; try discriminate; destruct a, a'; try discriminate; destruct s; reflexivity.
Qed.

Lemma div_le a b s : 0 < s -> a <= b -> (IZR a / IZR s <= IZR b / IZR s)%R.
Proof.
  intros Hs Hab. unfold Rdiv. apply Rmult_le_compat_r; [|apply IZR_le; exact Hab]. left. apply Rinv_0_lt_compat. apply IZR_lt. exact Hs.
Qed.

(* a larger region grows at least as much *)
Lemma growth_mono d s p q : (0 < s)%nat -> (s <= p)%nat -> (p <= q)%nat -> Z.of_nat q < 2 ^ 31 ->
  fgt (f64_growth p s) (f64_of_f32 d) = true -> fgt (f64_growth q s) (f64_of_f32 d) = true.
Proof.
  intros H1 H2 H3 H4. destruct (growth_ok p s) as (a & -> & Fa & Ra); [assumption|assumption|lia|].
  destruct (growth_ok q s) as (b & -> & Fb & Rb); [assumption|lia|lia|].
  destruct (threshold_ok d) as (t & ->). destruct (is_finite t) eqn:Ft.
  - rewrite !fgt_real by assumption. intros H. apply Rlt_bool_true. destruct (Rlt_bool_spec (B2R t) (B2R a)) as [Hlt|]; [|discriminate].
    eapply Rlt_le_trans; [exact Hlt|]. rewrite Ra, Rb. apply round_le; [apply fexp_correct; exact Hprec|apply valid_rnd_round_mode|].
    apply div_le; lia.
  - rewrite (fgt_special a b t) by assumption. intros H. exact H.
Qed.

(* below a threshold of 1 a near region is less than twice as large *)
Lemma growth_half d s p : (0 < s)%nat -> (2 * s <= p)%nat -> Z.of_nat p < 2 ^ 31 ->
  fgt (f64_of_int 1) (f64_of_f32 d) = true -> fgt (f64_growth p s) (f64_of_f32 d) = true.
Proof.
  intros H1 H2 H3. destruct (growth_ok p s) as (a & -> & Fa & Ra); [assumption|lia|lia|].
  destruct (of_int_ok 1) as (o & -> & Ro & Fo); [lia|]. destruct (threshold_ok d) as (t & ->).
  destruct (is_finite t) eqn:Ft.
  - rewrite !fgt_real by assumption. intros H. apply Rlt_bool_true. destruct (Rlt_bool_spec (B2R t) (B2R o)) as [Hlt|]; [|discriminate].
    eapply Rlt_le_trans; [exact Hlt|]. rewrite Ra, Ro. apply round_ge_generic; [apply fexp_correct; exact Hprec|apply valid_rnd_round_mode| |].
    + change (IZR 1) with (bpow radix2 0). apply generic_format_bpow. unfold SpecFloat.fexp, SpecFloat.emin. lia.
    + assert (IZR (Z.of_nat s) / IZR (Z.of_nat s) = 1)%R as <-. { apply Rinv_r. apply IZR_neq. lia. }
      apply div_le; lia.
  - rewrite (fgt_special o a t) by assumption. intros H. exact H.
Qed.

(* a larger region is not near under a threshold that is not positive *)
Lemma growth_pos d s p : (0 < s)%nat -> (s < p)%nat -> Z.of_nat p < 2 ^ 31 -> fge fzero d = true ->
  fgt (f64_growth p s) (f64_of_f32 d) = true.
Proof.
  intros H1 H2 H3 Hd. destruct (growth_ok p s) as (a & -> & Fa & Ra); [assumption|lia|assumption|].
  assert (0 < B2R a)%R as Hpos.
  { rewrite Ra. apply Rlt_le_trans with (bpow radix2 (-31)); [apply bpow_gt_0|].
    apply round_ge_generic; [apply fexp_correct; exact Hprec|apply valid_rnd_round_mode| |].
    - apply generic_format_bpow. unfold SpecFloat.fexp, SpecFloat.emin. lia.
    - apply Rle_trans with (1 / IZR (Z.of_nat s))%R; [|apply div_le; lia]. unfold Rdiv. rewrite Rmult_1_l.
      change (bpow radix2 (-31)) with (/ IZR (2 ^ 31))%R. apply Rinv_le; [apply IZR_lt; lia|]. apply IZR_le. lia. }
  assert (exists m e, B2SF a = S754_finite false m e) as (m & e & ->).
  { destruct a as [sa|sa| |sa m e Ba]; try discriminate; cbn in Hpos; [lra|]. destruct sa; [|exists m, e; reflexivity].
    exfalso. revert Hpos. apply Rle_not_lt. apply F2R_le_0. cbn. lia. }
  assert (fge (SFopp d) fzero = true) as Hn.
  { unfold fge, SFleb, fzero in *. destruct d as [[]|[]| |[] ? ?]; try discriminate; reflexivity. }
  apply nonneg_f64 in Hn. destruct (f64_opp d) as [E|[[s1 E1] [s2 E2]]].
  - rewrite <-E in Hn. destruct (f64_of_f32 d) as [[]|[]| |[] ? ?]; try discriminate; reflexivity.
  - destruct (f64_of_f32 d) as [[]|[]| |[] ? ?]; try discriminate; reflexivity.
Qed.
