(* Single and double precision arithmetic used by the recognition phase.

   IEEE-754 binary32/binary64 with round to nearest even, as defined by the
   computable specification Coq.Floats.SpecFloat.  Assumed: the compiler evaluates
   float expressions in their own precision (FLT_EVAL_METHOD = 0, no -ffast-math). *)
From Coq Require Import ZArith SpecFloat.

(* a float or double value *)
Notation flt := spec_float.

(* img_fast_mser_v2.cpp:1048,1110: (f32)z for an i32 z *)
Definition f32_of_int (z : Z) : flt := binary_normalize 24 128 z 0 false.
(* img_fast_mser_v2.cpp:2094: (double)z for an i32 z *)
Definition f64_of_int (z : Z) : flt := binary_normalize 53 1024 z 0 false.
(* img_fast_mser_v2.cpp:737,897,1160: promotion of an f32 to double *)
Definition f64_of_f32 (x : flt) : flt :=
  match x with
  | S754_finite s m e => binary_normalize 53 1024 (cond_Zopp s (Zpos m)) e s
  | _ => x
  end.
(* img_fast_mser_v2.cpp:735-760: a > b; false if one of them is not a number *)
Definition fgt (a b : flt) : bool := SFltb b a.
(* img_fast_mser_v2.cpp:735-760: a >= b; false if one of them is not a number *)
Definition fge (a b : flt) : bool := SFleb b a.
(* img_fast_mser_v2.cpp:735-760: the constant 0 *)
Definition fzero : flt := S754_zero false.
(* img_fast_mser_v2.cpp:1048-1055: the constant -1 as a f32 *)
Definition fminus1 : flt := f32_of_int (-1).

(* img_fast_mser_v2.cpp:1048,1110,2072: (start->m_size - region->m_size) / (f32)region->m_size *)
Definition f32_growth (big small : nat) : flt :=
  SFdiv 24 128 (f32_of_int (Z.of_nat big - Z.of_nat small)) (f32_of_int (Z.of_nat small)).
(* img_fast_mser_v2.cpp:2095: (parent->m_size - stable->m_size) / (double)stable->m_size *)
Definition f64_growth (big small : nat) : flt :=
  SFdiv 53 1024 (f64_of_int (Z.of_nat big - Z.of_nat small)) (f64_of_int (Z.of_nat small)).
(* img_fast_mser_v2.cpp:732,911,1160,1210: double subValue = parent->m_var - region->m_var *)
Definition var_diff (a b : flt) : flt := f64_of_f32 (SFsub 24 128 a b).
