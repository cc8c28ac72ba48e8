(* Model of the recognition phase of Fast MSER V1
   (basicimg/src/img_fast_mser_v1.cpp:2412-2643, 3432-3469).

   The worker (2595-2643), the counting and suppression loop (2456-2508) and the counting
   sort (2511-2531) are, statement by statement, those of V2 with 32 partitions
   (img_fast_mser_v2.cpp:1016-1061, 870-918, 948-957), which RecogModel.v renders; here they
   run over any number of partitions.  The simplifications stated at the head of
   RecogModel.v apply.  What differs is modelled below. *)
From stdpp Require Import sorting relations functions list.
From Coq Require Import NArith ZArith SpecFloat.
From Verif Require Import FloodModel ConnectModel PartModel FloatModel RecogModel V1JoinModel V1Model V1BuildModel.
Local Open Scope nat_scope.

(* img_fast_mser_v1.h:43-76: the fields of a region that recognition reads; m_size is an
   i32 the build keeps positive *)
Definition greg_of (a : wreg) : greg :=
  GReg (w_gray a) (w_flag a) (Z.to_nat (w_size a)) (w_par a) 0 (w_patch a).
(* img_fast_mser_v1.cpp:2456-2460: the regions of all partitions *)
Definition forest_of (F : list (list wreg)) : forest := map (map greg_of) F.
(* img_fast_mser_v1.cpp:2605: the state recognition starts in; [var0] is what m_var holds
   before it is computed *)
Definition recog_start (F : list (list wreg)) (var0 : rref -> flt) : rst :=
  RSt (forest_of F) var0 (fun _ => false).

(* img_fast_mser_v1.cpp:2511-2531: order the candidates in the memory of m_heap, which has
   [cap] entries; [total] is totalUnkonwSize *)
Definition v1_order (s : rst) (cap : nat) (lvl : list nat) (total : nat) : option (list rref) :=
  match each (scatter s) (all_refs (s_F s)) (replicate cap None, integral 0 (take 256 lvl)) with
  | None => None
  | Some (out, _) =>
      match written (take total out) with
      | Some l => if length l =? total then Some l else None
      | None => None
      end
  end.

(* img_fast_mser_v1.cpp:3432-3469 get_duplicated_regions: the regions pushed; a valid
   region is pushed as well (the continue in 3457-3459 is commented out) *)
Fixpoint v1_get_duplicated (n : nat) (P : rparam) (s : rst) (stable : nat) (parent : option rref)
  : option (list rref) :=
  match n with
  | O => None
  | S n' =>
      match parent with
      | None => Some []
      | Some y =>
          match sget s y with
          | None => None
          | Some b =>
              if (p_max P <? Z.of_nat (g_size b))%Z then Some [] else
              if fgt (f64_growth (g_size b) stable) (f64_of_f32 (p_dup P)) then Some [] else
              match v1_get_duplicated n' P s stable (g_par b) with
              | None => None
              | Some l => Some (if g_flag b =? 1 then l else y :: l)
              end
          end
      end
  end.

(* img_fast_mser_v1.cpp:2541-2569: one candidate; state with validCount *)
Definition v1_dedup_one (fuel : nat) (P : rparam) (t : rst * nat) (x : rref) : option (rst * nat) :=
  let '(s, count) := t in
  match sget s x with
  | None => None
  | Some a =>
      if negb (g_flag a =? 0) then Some t else
      match v1_get_duplicated fuel P s (g_size a) (g_par a) with
      | None => None
      | Some l1 =>
          let dup := x :: l1 in
          let middle := length dup / 2 in
          match
            (if 0 <? middle then
               match dup !! middle, last dup with
               | Some m, Some e =>
                   match sget s m, sget s e with
                   | Some cm, Some ce => v1_get_duplicated fuel P s (g_size cm) (g_par ce)
                   | _, _ => None
                   end
               | _, _ => None
               end
             else Some []) with
          | None => None
          | Some l2 =>
              match mark_list s 0 middle (dup ++ l2) with
              | Some s' => Some (s', S count)
              | None => None
              end
          end
      end
  end.

(* img_fast_mser_v1.cpp:2534-2585: the reported regions: the first validCount entries of
   the list whose front the valid candidates have overwritten; None = more entries than
   the list has *)
Definition v1_dedup (fuel : nat) (P : rparam) (s : rst) (l : list rref) : option (rst * list rref * nat) :=
  match each (v1_dedup_one fuel P) l (s, 0) with
  | None => None
  | Some (s', count) =>
      let valid := List.filter (is_valid s') l in
      if count <=? length l then Some (s', take count (valid ++ drop (length valid) l), count) else None
  end.

(* img_fast_mser_v1.cpp:2416-2531: recognition up to the ordered candidates with [n]
   partitions; [sched] is the interleaving of the workers, [cap] is m_heap_size *)
Definition v1_candidates (n : nat) (P : rparam) (sched : list nat) (cap : nat) (s0 : rst) : option (rst * list rref) :=
  match wrun P false (replicate n 0) sched s0 (replicate n wst0) with
  | None => None
  | Some (s1, ws) =>
      if negb (all_done ws) then None else
      match each (master_nms P) (all_refs (s_F s1)) (s1, 0, lvl0) with
      | None => None
      | Some (s2, total, lvl) =>
          match v1_order s2 cap lvl total with
          | None => None
          | Some l => Some (s2, l)
          end
      end
  end.

(* img_fast_mser_v1.cpp:2412-2593 recognize_mser: result state, m_gray_order_regions and
   m_gray_order_region_size *)
Definition v1_recognize (fuel n : nat) (P : rparam) (sched : list nat) (cap : nat) (s0 : rst)
  : option (rst * list rref * nat) :=
  match v1_candidates n P sched cap s0 with
  | None => None
  | Some (s2, l) => if fgt (p_dup P) fzero then v1_dedup fuel P s2 l else no_dedup s2 l
  end.

(* img_mser_base.cpp:92-107 with the functions of V1: build_tree (img_fast_mser_v1.cpp:934-1015)
   and recognize_mser of one channel on the buffers [bs]; m_heap_size is set in
   img_fast_mser_v1.cpp:79-90 (h_size of PartModel: the same sum as in V2); [sched] may
   depend on the tree; [var0] holds the uninitialised variations *)
Definition v1_detect (n fuel threads : nat) (gm : N) (fresh : bool) (img : list N) (cols rows : nat)
  (P : rparam) (bs : list vbuf) (sched : forest -> list nat) (var0 : rref -> flt)
  : option (list (list wreg) * list vbuf * rst * list rref * nat) :=
  match vbuild n fuel threads gm fresh img cols rows bs with
  | None => None
  | Some (F, os) =>
      match v1_recognize fuel threads P (sched (forest_of F)) (h_size threads cols rows) (recog_start F var0) with
      | None => None
      | Some (s, l, k) => Some (F, os, s, l, k)
      end
  end.
