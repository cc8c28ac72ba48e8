(* Bit-level facts about the pixel words of the four-neighbour layout. *)
From Coq Require Import NArith ZArith Lia List.
Import ListNotations.
From Coq Require Import ZifyBool ZifyNat ZifyN.
From Verif Require Import FloodModel.
Local Open Scope N_scope.

(* cfg4 with the directions in one of two orders (see Grid.dperm) *)
Definition cfgd (ms : bool) (w h : nat) (gm : N) (patch : nat) : fcfg :=
  let rs := Z.of_nat (w + 2) in
  FCfg w h 29 0xe0000000 (u32 (N.shiftl 5 29))
    (if ms then [0; 1; -1; rs; - rs]%Z else [0; 1; - rs; -1; rs]%Z) gm patch.

(* A waiting word is the direction number in the top three bits. *)
Lemma dword4 ms w h gm pt d : (d < 8)%nat -> dword (cfgd ms w h gm pt) d = N.of_nat d * 2 ^ 29.
Proof.
  intros H. unfold dword, u32, cfgd. cbn [k_shift].
  rewrite N.shiftl_mul_pow2. apply N.mod_small.
  change (2 ^ 32) with (8 * 2 ^ 29). nia.
Qed.

Lemma bnd4 ms w h gm pt : k_bnd (cfgd ms w h gm pt) = 5 * 2 ^ 29.
Proof. reflexivity. Qed.

Lemma mask4 ms w h gm pt : k_mask (cfgd ms w h gm pt) = N.shiftl 7 29.
Proof. reflexivity. Qed.

Lemma land_disjoint a b n : b < 2 ^ n -> N.land (N.shiftl a n) b = 0.
Proof.
  intros H. apply N.bits_inj_0. intros i. rewrite N.land_spec.
  destruct (N.ltb_spec i n) as [Hi|Hi].
  - rewrite N.shiftl_spec_low by auto. reflexivity.
  - replace b with (b mod 2 ^ n) by (apply N.mod_small; auto).
    rewrite N.mod_pow2_bits_high by auto. apply Bool.andb_false_r.
Qed.
Lemma lor_disjoint a b n : b < 2 ^ n -> N.lor (a * 2 ^ n) b = a * 2 ^ n + b.
Proof.
  intros H. rewrite <- N.shiftl_mul_pow2.
  rewrite <- N.lxor_lor, <- N.add_nocarry_lxor; auto using land_disjoint.
Qed.

Lemma land_top a b : b < 2 ^ 29 ->
  N.land (a * 2 ^ 29 + b) (N.shiftl 7 29) = N.shiftl (N.land a 7) 29.
Proof.
  intros H. rewrite <- lor_disjoint, N.land_lor_distr_l by auto.
  rewrite <- N.shiftl_mul_pow2, <- N.shiftl_land.
  rewrite (N.land_comm b), land_disjoint by auto. apply N.lor_0_r.
Qed.

Lemma land_top_nz a b : b < 2 ^ 29 -> 0 < a < 8 ->
  N.land (a * 2 ^ 29 + b) (N.shiftl 7 29) <> 0.
Proof.
  intros Hb Ha. rewrite land_top by auto. intros H.
  apply N.shiftl_eq_0_iff in H.
  assert (a = 1 \/ a = 2 \/ a = 3 \/ a = 4 \/ a = 5 \/ a = 6 \/ a = 7) as E by lia.
  intuition subst; discriminate.
Qed.

Lemma shiftr_top a b : b < 2 ^ 29 -> N.shiftr (a * 2 ^ 29 + b) 29 = a.
Proof.
  intros H. rewrite N.shiftr_div_pow2, N.div_add_l by discriminate.
  rewrite N.div_small by auto. apply N.add_0_r.
Qed.

Lemma decode_done r : r < 2 ^ 29 -> u32 (5 * 2 ^ 29 + r + 2 ^ 32 - 5 * 2 ^ 29) = r.
Proof.
  intros H. unfold u32.
  replace (5 * 2 ^ 29 + r + 2 ^ 32 - 5 * 2 ^ 29) with (r + 1 * 2 ^ 32) by lia.
  rewrite N.mod_add by discriminate. apply N.mod_small. change (2 ^ 32) with (8 * 2 ^ 29). lia.
Qed.
