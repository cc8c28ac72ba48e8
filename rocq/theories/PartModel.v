(* Model of the partition arithmetic of Fast MSER V2
   (basicimg/src/img_fast_mser_v2.cpp:53-201).

   Simplifications: the sizes are naturals; u32 sums wrap around (wrap32), an i32
   sum or product of 2^31 or more is undefined behaviour (None).  The reuse of old
   allocations of equal size (108-136) is left out: only the sizes matter here. *)
From stdpp Require Import sorting relations functions list.
From Coq Require Import NArith.
From Verif Require Import FloodModel.

(* img_fast_mser_v2.cpp:145-152, img_fast_mser_v2.h:66-94: position and size of a partition (m_top, m_left, m_width, m_height) *)
Record prect := PRect { r_top : nat; r_left : nat; r_w : nat; r_h : nat }.

(* img_fast_mser_v2.cpp:54-70: columns and rows of the partition grid; None = assertion *)
Definition grid_of (threads : nat) : option (nat * nat) :=
  if threads =? 1 then Some (1, 1)
  else if threads =? 4 then Some (2, 2)
  else if threads =? 32 then Some (8, 4)
  else None.

(* img_fast_mser_v2.cpp:83-98: start and size of the n pieces of an axis *)
Fixpoint cuts (n width cur total : nat) : list (nat * nat) :=
  match n with
  | O => []
  | S O => [(cur, total - cur)]
  | S n' => (cur, width) :: cuts n' width (cur + width) total
  end.

(* img_fast_mser_v2.cpp:80-98,145-152: all partitions in index order *)
Definition rects (hpn vpn cols rows : nat) : list prect :=
  flat_map (fun vh => map (fun lw => PRect (fst vh) (fst lw) (snd lw) (snd vh))
                          (cuts hpn (cols / hpn) 0 cols))
           (cuts vpn (rows / vpn) 0 rows).

(* img_fast_mser_v2.cpp:100-106: u32 arithmetic *)
Definition wrap32 (n : nat) : nat := N.to_nat (N.of_nat n mod 2 ^ 32).
(* img_fast_mser_v2.cpp:100-140: the result of an i32 operation; None = overflow *)
Definition i32_ok (n : nat) : option nat := if (N.of_nat n <? 2 ^ 31)%N then Some n else None.

(* img_fast_mser_v2.cpp:100-106: number of pixel words to allocate *)
Definition pt_size (hpn vpn cols rows : nat) : nat :=
  fold_left (fun s lw => fold_left (fun s vh => wrap32 (s + wrap32 ((snd lw + 2) * (snd vh + 2))))
                                   (cuts vpn (rows / vpn) 0 rows) s)
            (cuts hpn (cols / hpn) 0 cols) 0.

(* img_fast_mser_v2.cpp:128: number of boundary-stack slots to allocate *)
Definition h_size (threads cols rows : nat) : nat :=
  wrap32 (rows * cols + 257 * threads).

(* img_fast_mser_v2.cpp:139-188: offsets of the partitions' slices of m_points (and
   m_extended_image) and of m_heap *)
Fixpoint layout (rs : list prect) (po ho : nat) : option (list (nat * nat)) :=
  match rs with
  | [] => Some []
  | r :: rest =>
      match i32_ok ((r_w r + 2) * (r_h r + 2)), i32_ok (r_w r * r_h r) with
      | Some a, Some p =>
          match i32_ok (po + a), i32_ok (ho + (p + 257)) with
          | Some po', Some ho' =>
              match layout rest po' ho' with
              | Some l => Some ((po, ho) :: l)
              | None => None
              end
          | _, _ => None
          end
      | _, _ => None
      end
  end.
