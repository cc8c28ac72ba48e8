(* Facts about the float operations of recognition that need no real numbers. *)
From Coq Require Import ZArith Lia SpecFloat Bool.
From Verif Require Import FloatModel.
Open Scope Z_scope.

Lemma digits_spec p : 2 ^ (Zpos (digits2_pos p) - 1) <= Zpos p < 2 ^ Zpos (digits2_pos p).
Proof.
  induction p as [p IH|p IH|]; cbn [digits2_pos]; [| |cbn; lia];
    rewrite Pos2Z.inj_succ; replace (Z.succ (Zpos (digits2_pos p)) - 1) with (Z.succ (Zpos (digits2_pos p) - 1)) by lia;
    rewrite !Z.pow_succ_r by lia; lia.
Qed.
Lemma digits_lt p n : 0 <= n -> Zpos p < 2 ^ n -> Zpos (digits2_pos p) <= n.
Proof.
  intros Hn H. pose proof (digits_spec p) as [H1 _].
  enough (Zpos (digits2_pos p) - 1 < n) by lia.
  apply (Z.pow_lt_mono_r_iff 2); lia.
Qed.
Lemma digits_le p n : 0 <= n -> 2 ^ n <= Zpos p -> n + 1 <= Zpos (digits2_pos p).
Proof.
  intros Hn H. pose proof (digits_spec p) as [_ H2].
  enough (n < Zpos (digits2_pos p)) by lia. apply (Z.pow_lt_mono_r_iff 2); lia.
Qed.
Lemma digits_eq p n : 0 <= n -> 2 ^ n <= Zpos p < 2 ^ (n + 1) -> Zpos (digits2_pos p) = n + 1.
Proof.
  intros Hn [H1 H2]. pose proof (digits_le p n Hn H1). pose proof (digits_lt p (n + 1) ltac:(lia) H2). lia.
Qed.

(* n-fold application *)
Fixpoint itn {A} (n : nat) (f : A -> A) (x : A) : A := match n with O => x | S n' => f (itn n' f x) end.
Lemma iter_swap {A} (f : A -> A) n x : itn n f (f x) = f (itn n f x).
Proof. induction n as [|n IH]; cbn [itn]; [reflexivity|]. rewrite IH. reflexivity. Qed.
Lemma iter_plus {A} (f : A -> A) n m x : itn (n + m) f x = itn n f (itn m f x).
Proof. induction n as [|n IH]; cbn [itn Nat.add]; [reflexivity|]. rewrite IH. reflexivity. Qed.
Lemma iter_pos_nat {A} (f : A -> A) p x : iter_pos f p x = itn (Pos.to_nat p) f x.
Proof.
  revert x. induction p as [p IH|p IH|]; intros x; cbn [iter_pos].
  - rewrite !IH, Pos2Nat.inj_xI. cbn [itn]. rewrite <-iter_swap.
    replace (2 * Pos.to_nat p)%nat with (Pos.to_nat p + Pos.to_nat p)%nat by lia.
    rewrite iter_plus. reflexivity.
  - rewrite !IH, Pos2Nat.inj_xO. replace (2 * Pos.to_nat p)%nat with (Pos.to_nat p + Pos.to_nat p)%nat by lia.
    rewrite iter_plus. reflexivity.
  - reflexivity.
Qed.

Lemma shr_1_m r : 0 <= shr_m r -> shr_m (shr_1 r) = shr_m r / 2.
Proof.
  destruct r as [m rr s]. cbn [shr_m]. intros Hm. destruct m as [|[p|p|]|p]; cbn [shr_1 shr_m]; try reflexivity; try lia.
  - rewrite (Pos2Z.inj_xI p). apply (Z.div_unique _ 2 _ 1); lia.
  - rewrite (Pos2Z.inj_xO p). apply (Z.div_unique _ 2 _ 0); lia.
Qed.
Lemma shr_iter n r : 0 <= shr_m r -> shr_m (itn n shr_1 r) = shr_m r / 2 ^ Z.of_nat n.
Proof.
  intros Hm. induction n as [|n IH].
  - cbn [itn]. rewrite Z.pow_0_r, Z.div_1_r. reflexivity.
  - cbn [itn]. rewrite shr_1_m.
    + rewrite IH. rewrite Nat2Z.inj_succ, Z.pow_succ_r by lia. rewrite Z.div_div by lia.
      f_equal. lia.
    + rewrite IH. apply Z.div_pos; lia.
Qed.
Lemma shr_ok m l e n : 0 <= m -> 0 <= n ->
  shr_m (fst (shr (shr_record_of_loc m l) e n)) = m / 2 ^ n /\ snd (shr (shr_record_of_loc m l) e n) = e + n.
Proof.
  intros Hm Hn. assert (shr_m (shr_record_of_loc m l) = m) as Hr by (destruct l as [|[]]; reflexivity).
  destruct n as [|p|p]; [| |lia]; cbn [shr].
  - rewrite Z.pow_0_r, Z.div_1_r. cbn [fst snd]. split; [exact Hr|lia].
  - cbn [fst snd]. split; [|reflexivity]. rewrite iter_pos_nat, shr_iter by (rewrite Hr; exact Hm).
    rewrite Hr. rewrite positive_nat_Z. reflexivity.
Qed.

(* rounding a mantissa with enough digits gives a normal number *)
Lemma round_normal s m e l :
  let d := Zpos (digits2_pos m) in
  24 <= d -> -149 <= e -> d + e <= 127 ->
  exists m' e', binary_round_aux 24 128 s (Zpos m) e l = S754_finite s m' e' /\
    2 ^ 23 <= Zpos m' < 2 ^ 24 /\ d + e - 24 <= e' <= d + e - 23.
Proof.
  intros d Hd He Hde. unfold binary_round_aux. pose proof (digits_spec m) as [D1 D2]. fold d in D1, D2.
  assert (shr_fexp 24 128 (Zpos m) e l = shr (shr_record_of_loc (Zpos m) l) e (d - 24)) as E1.
  { unfold shr_fexp. f_equal. cbn [Zdigits2]. fold d. unfold fexp, emin. lia. }
  rewrite E1. clear E1. pose proof (shr_ok (Zpos m) l e (d - 24) ltac:(lia) ltac:(lia)) as [S1 S2].
  destruct (shr (shr_record_of_loc (Zpos m) l) e (d - 24)) as [r1 e1]. cbn [fst snd] in S1, S2.
  assert (2 ^ 23 <= shr_m r1 < 2 ^ 24) as Hb.
  { rewrite S1. assert (2 ^ (d - 1) = 2 ^ 23 * 2 ^ (d - 24)) as P1 by (rewrite <-Z.pow_add_r by lia; f_equal; lia).
    assert (2 ^ d = 2 ^ 24 * 2 ^ (d - 24)) as P2 by (rewrite <-Z.pow_add_r by lia; f_equal; lia).
    assert (0 < 2 ^ (d - 24)) by (apply Z.pow_pos_nonneg; lia). split.
    - apply Z.div_le_lower_bound; lia.
    - apply Z.div_lt_upper_bound; lia. }
  set (q := round_nearest_even (shr_m r1) (loc_of_shr_record r1)).
  assert (2 ^ 23 <= q <= 2 ^ 24) as Hq.
  { unfold q, round_nearest_even. destruct (loc_of_shr_record r1) as [|[]]; try lia. destruct (Z.even _); lia. }
  clearbody q. destruct q as [|q|q]; [lia| |lia].
  assert (Zpos q = 2 ^ 24 \/ Zpos q < 2 ^ 24) as [Hq24|Hlt] by lia.
  - injection Hq24 as ->. assert (shr_fexp 24 128 16777216 e1 loc_Exact =
      shr (shr_record_of_loc 16777216 loc_Exact) e1 1) as E2.
    { unfold shr_fexp. f_equal. cbn [Zdigits2]. change (Zpos (digits2_pos 16777216)) with 25.
      unfold fexp, emin. lia. }
    rewrite E2. cbn [shr iter_pos shr_record_of_loc shr_1 shr_m]. destruct (Z.leb_spec (e1 + 1) (128 - 24)) as [|Hc]; [|lia].
    exists 8388608%positive, (e1 + 1). split; [reflexivity|]. split; [cbn; lia|lia].
  - assert (Zpos (digits2_pos q) = 24) as Hdq by (apply (digits_eq q 23); cbn in *; lia).
    assert (shr_fexp 24 128 (Zpos q) e1 loc_Exact = shr (shr_record_of_loc (Zpos q) loc_Exact) e1 0) as E2.
    { unfold shr_fexp. f_equal. cbn [Zdigits2]. rewrite Hdq. unfold fexp, emin. lia. }
    rewrite E2. cbn [shr shr_record_of_loc shr_m]. destruct (Z.leb_spec e1 (128 - 24)) as [|Hc]; [|lia].
    exists q, e1. split; [reflexivity|]. split; [lia|lia].
Qed.

(* converting a positive int *)
Lemma f32_pos m : Zpos m < 2 ^ 31 -> exists m' e', f32_of_int (Zpos m) = S754_finite false m' e' /\
  2 ^ 23 <= Zpos m' < 2 ^ 24 /\ -24 <= e' <= 8.
Proof.
  intros Hm. unfold f32_of_int. cbn [binary_normalize]. unfold binary_round.
  set (d := Zpos (digits2_pos m)). assert (d <= 31) as Hd by (apply digits_lt; lia).
  assert (1 <= d) as Hd1 by (unfold d; lia).
  assert (fexp 24 128 (d + 0) = d - 24) as -> by (unfold fexp, emin; lia).
  pose proof (digits_spec m) as [D1 D2]. fold d in D1, D2. unfold shl_align.
  destruct (d - 24 - 0) as [|p|p] eqn:Ed.
  - destruct (round_normal false m 0 loc_Exact) as (m' & e' & R1 & R2 & R3); fold d; try lia.
    exists m', e'. split; [exact R1|]. split; [exact R2|]. fold d in R3. lia.
  - destruct (round_normal false m 0 loc_Exact) as (m' & e' & R1 & R2 & R3); fold d; try lia.
    exists m', e'. split; [exact R1|]. split; [exact R2|]. fold d in R3. lia.
  - assert (Zpos (digits2_pos (shift_pos p m)) = 24) as Hds.
    { apply (digits_eq _ 23); [lia|]. rewrite shift_pos_correct, Z.pow_pos_fold.
      assert (2 ^ 23 = 2 ^ Zpos p * 2 ^ (d - 1)) as -> by (rewrite <-Z.pow_add_r by lia; f_equal; lia).
      assert (2 ^ (23 + 1) = 2 ^ Zpos p * 2 ^ d) as -> by (rewrite <-Z.pow_add_r by lia; f_equal; lia).
      assert (0 < 2 ^ Zpos p) by (apply Z.pow_pos_nonneg; lia). nia. }
    destruct (round_normal false (shift_pos p m) (d - 24) loc_Exact) as (m' & e' & R1 & R2 & R3); rewrite ?Hds; try lia.
    exists m', e'. split; [exact R1|]. split; [exact R2|]. rewrite Hds in R3. lia.
Qed.

(* growths are zero or positive normal numbers, never infinite *)
Lemma growth_shape big small : (0 < small)%nat -> (small <= big)%nat -> Z.of_nat big < 2 ^ 31 ->
  (big = small /\ f32_growth big small = S754_zero false) \/
  exists m e, f32_growth big small = S754_finite false m e /\ 2 ^ 23 <= Zpos m < 2 ^ 24 /\ e < 104.
Proof.
  intros Hs Hle Hb. unfold f32_growth.
  destruct (Z.of_nat small) as [|ms|ms] eqn:Es; [lia| |lia].
  destruct (f32_pos ms) as (m2 & e2 & E2 & M2 & X2); [lia|]. rewrite E2.
  destruct (Z.of_nat big - Zpos ms) as [|md|md] eqn:Ed; [| |lia].
  - left. split; [lia|]. reflexivity.
  - right. destruct (f32_pos md) as (m1 & e1 & E1 & M1 & X1); [lia|]. rewrite E1. cbn [SFdiv xorb].
    assert (Zpos (digits2_pos m1) = 24) as D1 by (apply (digits_eq m1 23); lia).
    assert (Zpos (digits2_pos m2) = 24) as D2 by (apply (digits_eq m2 23); lia).
    unfold SFdiv_core_binary. cbn [Zdigits2]. rewrite D1, D2.
    assert (Z.min (fexp 24 128 (24 + e1 - (24 + e2))) (e1 - e2) = e1 - e2 - 24) as -> by (unfold fexp, emin; lia).
    replace (e1 - e2 - (e1 - e2 - 24)) with 24 by lia.
    assert (Z.shiftl (Zpos m1) 24 = Zpos m1 * 2 ^ 24) as -> by (rewrite Z.shiftl_mul_pow2 by lia; reflexivity).
    pose proof (Z.div_eucl_eq (Zpos m1 * 2 ^ 24) (Zpos m2) ltac:(lia)) as Hdiv.
    assert (Z.div_eucl (Zpos m1 * 2 ^ 24) (Zpos m2) =
      (Zpos m1 * 2 ^ 24 / Zpos m2, (Zpos m1 * 2 ^ 24) mod Zpos m2)) as ->.
    { unfold Z.div, Z.modulo. destruct (Z.div_eucl _ _). reflexivity. }
    assert (2 ^ 23 <= Zpos m1 * 2 ^ 24 / Zpos m2 < 2 ^ 25) as Hq.
    { split; [apply Z.div_le_lower_bound|apply Z.div_lt_upper_bound]; lia. }
    destruct (Zpos m1 * 2 ^ 24 / Zpos m2) as [|q|q]; [lia| |lia].
    assert (24 <= Zpos (digits2_pos q)) as Q1 by (apply (digits_le q 23); lia).
    assert (Zpos (digits2_pos q) <= 25) as Q2 by (apply (digits_lt q 25); lia).
    destruct (round_normal false q (e1 - e2 - 24) (new_location (Zpos m2) ((Zpos m1 * 2 ^ 24) mod Zpos m2)))
      as (m' & e' & R1 & R2 & R3); try lia.
    exists m', e'. split; [exact R1|]. split; [exact R2|]. lia.
Qed.

Lemma growth_nonneg big small : (0 < small)%nat -> (small <= big)%nat -> Z.of_nat big < 2 ^ 31 ->
  fge (f32_growth big small) fzero = true.
Proof.
  intros H1 H2 H3. destruct (growth_shape big small H1 H2 H3) as [[_ ->]|(m & e & -> & _)]; reflexivity.
Qed.
Lemma growth_same n : (0 < n)%nat -> Z.of_nat n < 2 ^ 31 -> f32_growth n n = fzero.
Proof.
  intros H1 H2. unfold f32_growth. rewrite Z.sub_diag. destruct (Z.of_nat n) as [|m|m] eqn:E; [lia| |lia].
  destruct (f32_pos m) as (m2 & e2 & -> & _); [lia|]. reflexivity.
Qed.
(* no growth exceeds FLT_MAX *)
Definition flt_max : flt := S754_finite false 16777215 104.
Lemma growth_max big small : (0 < small)%nat -> (small <= big)%nat -> Z.of_nat big < 2 ^ 31 ->
  fgt (f32_growth big small) flt_max = false.
Proof.
  intros H1 H2 H3. destruct (growth_shape big small H1 H2 H3) as [[_ ->]|(m & e & -> & Hm & He)]; [reflexivity|].
  unfold fgt, flt_max, SFltb, SFcompare. destruct (Z.compare_spec 104 e); reflexivity || lia.
Qed.
Lemma minus1_neg : fge fminus1 fzero = false.
Proof. reflexivity. Qed.

(* the order of the difference does not matter for the comparison *)
Lemma round_aux_opp p x s m e l : binary_round_aux p x (negb s) m e l = SFopp (binary_round_aux p x s m e l).
Proof.
  unfold binary_round_aux. destruct (shr_fexp _ _ _ _ _) as [r1 e1]. destruct (shr_fexp _ _ _ _ _) as [r2 e2].
  destruct (shr_m r2); try reflexivity. destruct (_ <=? _); reflexivity.
Qed.
Lemma normalize_opp p x m e : m <> 0 -> binary_normalize p x (- m) e false = SFopp (binary_normalize p x m e false).
Proof.
  destruct m as [|m|m]; [lia| |]; intros _; cbn [Z.opp binary_normalize]; unfold binary_round;
    destruct (shl_align _ _ _); [apply (round_aux_opp p x false)|].
  rewrite <-(round_aux_opp p x true). reflexivity.
Qed.
(* equal up to the sign of zero *)
Definition same_order (a b : flt) : Prop :=
  a = b \/ ((exists s, a = S754_zero s) /\ exists s, b = S754_zero s).
Lemma same_order_gt a b n : same_order a b -> fgt a n = fgt b n.
Proof.
  intros [->|[[s ->] [s' ->]]]; [reflexivity|]. unfold fgt, SFltb, SFcompare. destruct n; reflexivity.
Qed.
Lemma sub_opp p x a b : same_order (SFopp (SFsub p x a b)) (SFsub p x b a).
Proof.
  destruct a as [sa|sa| |sa ma ea], b as [sb|sb| |sb mb eb]; cbn [SFsub SFopp]; try (left; reflexivity).
  - destruct sa, sb; right; split; eexists; reflexivity.
  - left. rewrite negb_involutive. reflexivity.
  - left. rewrite negb_involutive. reflexivity.
  - left. destruct sa, sb; reflexivity.
  - left. rewrite negb_involutive. reflexivity.
  - rewrite (Z.min_comm eb ea). set (u := cond_Zopp sa _). set (w := cond_Zopp sb _).
    replace (w - u) with (- (u - w)) by lia. destruct (Z.eq_dec (u - w) 0) as [->|Hne].
    + right. split; eexists; reflexivity.
    + left. rewrite normalize_opp by exact Hne. reflexivity.
Qed.
Lemma f64_opp v : same_order (SFopp (f64_of_f32 v)) (f64_of_f32 (SFopp v)).
Proof.
  destruct v as [s|s| |s m e]; cbn [f64_of_f32 SFopp]; try (left; reflexivity). left.
  destruct s; cbn [negb cond_Zopp Z.opp binary_normalize]; unfold binary_round; destruct (shl_align _ _ _).
  - rewrite <-(round_aux_opp 53 1024 true). reflexivity.
  - rewrite <-(round_aux_opp 53 1024 false). reflexivity.
Qed.
Lemma f64_zero v : (exists s, v = S754_zero s) -> exists s, f64_of_f32 v = S754_zero s.
Proof. intros [s ->]. exists s. reflexivity. Qed.
Lemma diff_opp a b n : fgt (SFopp (var_diff a b)) n = fgt (var_diff b a) n.
Proof.
  unfold var_diff. rewrite (same_order_gt _ _ n (f64_opp (SFsub 24 128 a b))).
  apply same_order_gt. destruct (sub_opp 24 128 a b) as [->|[H1 H2]]; [left; reflexivity|].
  right. split; apply f64_zero; assumption.
Qed.

(* a non-negative similarity is exceeded in one direction at most *)
Lemma nonneg_f64 n : fge n fzero = true -> fge (f64_of_f32 n) fzero = true.
Proof.
  destruct n as [s|s| |s m e]; try (intros H; exact H). destruct s; [discriminate|]. intros _.
  cbn [f64_of_f32 cond_Zopp binary_normalize]. unfold binary_round. destruct (shl_align _ _ _) as [z ez].
  unfold binary_round_aux. destruct (shr_fexp 53 1024 (Zpos z) ez loc_Exact) as [r1 e1] eqn:E1.
  assert (0 <= shr_m r1) as H1.
  { unfold shr_fexp in E1. destruct (fexp 53 1024 (Zdigits2 (Zpos z) + ez) - ez) as [|q|q] eqn:Eq.
    - pose proof (shr_ok (Zpos z) loc_Exact ez 0 ltac:(lia) ltac:(lia)) as [S1 _]. rewrite E1 in S1. cbn [fst] in S1.
      rewrite S1. apply Z.div_pos; lia.
    - pose proof (shr_ok (Zpos z) loc_Exact ez (Zpos q) ltac:(lia) ltac:(lia)) as [S1 _]. rewrite E1 in S1. cbn [fst] in S1.
      rewrite S1. apply Z.div_pos; lia.
    - cbn [shr] in E1. injection E1 as <- <-. cbn. lia. }
  set (q := round_nearest_even (shr_m r1) (loc_of_shr_record r1)).
  assert (0 <= q) as Hq.
  { unfold q, round_nearest_even. destruct (loc_of_shr_record r1) as [|[]]; try lia. destruct (Z.even _); lia. }
  clearbody q. destruct (shr_fexp 53 1024 q e1 loc_Exact) as [r2 e2] eqn:E2.
  assert (0 <= shr_m r2) as H2.
  { unfold shr_fexp in E2. destruct (fexp 53 1024 (Zdigits2 q + e1) - e1) as [|u|u] eqn:Eq.
    - pose proof (shr_ok q loc_Exact e1 0 ltac:(lia) ltac:(lia)) as [S1 _]. rewrite E2 in S1. cbn [fst] in S1.
      rewrite S1. apply Z.div_pos; lia.
    - pose proof (shr_ok q loc_Exact e1 (Zpos u) ltac:(lia) ltac:(lia)) as [S1 _]. rewrite E2 in S1. cbn [fst] in S1.
      rewrite S1. apply Z.div_pos; lia.
    - cbn [shr] in E2. injection E2 as <- <-. cbn. lia. }
  destruct (shr_m r2) as [|m2|m2]; [reflexivity| |lia]. destruct (_ <=? _); reflexivity.
Qed.
Lemma gt_exclusive d n : fge n fzero = true -> fgt d n = true -> fgt (SFopp d) n = false.
Proof.
  unfold fge, fgt, SFleb, SFltb, SFcompare, fzero, SFopp.
  destruct n as [sn|sn| |sn mn en], d as [sd|sd| |sd md ed]; try discriminate; try reflexivity;
    destruct sn; try discriminate; destruct sd; try discriminate; reflexivity.
Qed.
Lemma worse_exclusive n a b : fge n fzero = true ->
  fgt (var_diff b a) (f64_of_f32 n) = true -> fgt (var_diff a b) (f64_of_f32 n) = false.
Proof.
  intros Hn H. rewrite <-diff_opp. apply gt_exclusive; [|exact H]. apply nonneg_f64. exact Hn.
Qed.
