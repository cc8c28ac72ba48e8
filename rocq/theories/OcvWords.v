(* Pixel words of the OpenCV3-style extraction: three bits of direction above 29 bits
   of the offset of the next pixel. *)
From stdpp Require Import sorting relations functions list.
From Coq Require Import NArith ZArith.
From Verif Require Import FloodModel WordBits OcvModel.
Local Open Scope nat_scope.

(* the word with direction d and next offset n *)
Definition oword (d n : nat) : N := (N.of_nat d * 2 ^ 29 + N.of_nat n)%N.

(* an offset that fits into the low bits *)
Notation fits29 n := (N.lt (N.of_nat n) (N.pow 2 29)).


Lemma oword_next d n : fits29 n -> get_next (oword d n) = N.of_nat n.
Proof.
  intros H. unfold get_next, next_mask, oword. rewrite N.land_ones.
  rewrite N.add_comm, N.mod_add by done. by apply N.mod_small.
Qed.
Lemma oword_dir d n : fits29 n -> get_dir (oword d n) = N.of_nat d.
Proof.
  intros H. unfold get_dir, oword. rewrite N.shiftr_div_pow2.
  rewrite N.div_add_l by done. rewrite (N.div_small (N.of_nat n)) by done. lia.
Qed.
Lemma oword_high d n : fits29 n -> N.ldiff (oword d n) next_mask = oword d 0.
Proof.
  intros H. unfold next_mask, oword. rewrite N.ldiff_ones_r, N.shiftr_div_pow2, N.shiftl_mul_pow2.
  rewrite N.div_add_l by done. rewrite (N.div_small (N.of_nat n)) by done. lia.
Qed.
Lemma lor_oword d n : fits29 n -> N.lor (oword d 0) (N.of_nat n) = oword d n.
Proof. intros H. unfold oword. rewrite N.add_0_r. by apply lor_disjoint. Qed.
Lemma set_onext_ok d n m : fits29 n -> fits29 m -> set_onext (oword d n) (N.of_nat m) = oword d m.
Proof. intros Hn Hm. unfold set_onext. rewrite oword_high by done. by apply lor_oword. Qed.
Lemma dir_word_ok d : dir_word d = oword d 0.
Proof. unfold dir_word, oword. rewrite N.shiftl_mul_pow2. lia. Qed.
Lemma visited_ok d n : fits29 n -> visited (oword d n) = negb (d =? 0).
Proof.
  intros H. unfold visited. rewrite oword_high by done. unfold oword. destruct d as [|d]; [done|].
  destruct (N.eqb_spec (N.of_nat (S d) * 2 ^ 29 + N.of_nat 0) 0) as [E|]; [lia|done].
Qed.
Lemma set_dir_ok d n m : fits29 n -> set_dir (oword d n) (N.of_nat m) = oword m n.
Proof.
  intros H. unfold set_dir.
  change (N.land (oword d n) next_mask) with (get_next (oword d n)). rewrite oword_next by done.
  rewrite N.lor_comm. change (N.shiftl (N.of_nat m) 29) with (dir_word m). rewrite dir_word_ok. by apply lor_oword.
Qed.
