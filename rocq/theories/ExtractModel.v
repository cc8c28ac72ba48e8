(* Model of the extraction of pixels in Fast MSER V2
   (basicimg/src/img_fast_mser_v2.cpp:1335-1342, 1643-2051) and of reading a record
   (basicimg/src/img_mser_helper.cpp:67-120, 192-257).

   Simplifications, valid for every definition below:
   - the fields that share memory (img_fast_mser_v2.h:40-53) are kept apart:
     m_child_pixel_size and m_child_memory_number in two functions, m_mser_index in a
     third; m_size and m_er_index are not read after being overwritten, because the
     records of the result hold the sizes (1685) and m_mser_index is set (1880) after
     the last use of m_er_index (1744-1748);
   - region_heap (1651-1657) is a function of partition and index; a use outside the
     regions of the partition is the result None.  The place of mser_block_indexes
     (1659-1667) is left out: the code takes it from the rest of m_heap if it is large
     enough and allocates it otherwise;
   - m_memory of the result is a function from word numbers to i32 values, None = not
     written; the point at offset p has its m_x in word 2p and its m_y in word 2p+1; an
     access outside the allocation, a read of a word that is not written and a negative
     offset are the result None;
   - the sums that decide the size of the allocation are checked for i32 overflow;
   - the omp loop 1760-1796 counts the partitions one after the other: a worker reads
     region_heap and writes the words and counters of its own partition only; the omp
     loop 1893-1949 writes to the common memory and runs under a schedule;
   - the address of the pixel in row y and column x of a partition is computed, not
     incremented (1772,1788,1791);
   - null mask and asserts as elsewhere. *)
From stdpp Require Import sorting relations functions list.
From Coq Require Import NArith ZArith.
From Verif Require Import FloodModel ConnectModel PartModel WholeModel FloatModel RecogModel RectModel.
Local Open Scope nat_scope.

(* img_fast_mser_v2.cpp:1681-1691 and the other loops over the reported regions: for-each with an index *)
Fixpoint loop {X A : Type} (f : X -> nat -> A -> option X) (i : nat) (l : list A) (s : X) : option X :=
  match l with
  | [] => Some s
  | x :: l' => match f s i x with Some s' => loop f (S i) l' s' | None => None end
  end.

(* ---------- the regions and their records ---------- *)

(* img_mser_base.h:33-38: a record of the result; [ms_pts] is the offset of m_points in
   the memory; [ms_share] = Memory_Type_Share_Parallel_4, otherwise
   Memory_Type_Recursive_Parallel_4 *)
Record mrec := MRec { ms_gray : N; ms_share : bool; ms_size : nat; ms_pts : nat; ms_rect : rect }.

(* img_fast_mser_v2.cpp:1651-1667, img_fast_mser_v2.h:34-56: the state of the regions during extraction: region_heap,
   m_child_memory_number, m_child_pixel_size, m_assigned_pointer *)
Record est := ESt {
  e_F : forest; e_heap : rref -> option Z; e_kids : rref -> nat; e_kpix : rref -> nat; e_asg : rref -> bool
}.

(* img_fast_mser_v2.cpp:1651-1667: region_heap[patch][index] exists *)
Definition in_heap (F : forest) (r : rref) : bool :=
  match F !! fst r with Some l => snd r <? length l | None => false end.
(* img_fast_mser_v2.cpp:1651-1667: reading region_heap[patch][index] *)
Definition h_get (s : est) (r : rref) : option Z := if in_heap (e_F s) r then e_heap s r else None.
(* img_fast_mser_v2.cpp:1651-1667: writing region_heap[patch][index] *)
Definition h_put (s : est) (r : rref) (v : Z) : option est :=
  if in_heap (e_F s) r then Some (ESt (e_F s) (<[r := Some v]> (e_heap s)) (e_kids s) (e_kpix s) (e_asg s)) else None.

(* img_fast_mser_v2.cpp:1681-1691: the first loop over the reported regions *)
Definition rec_start (gm : N) (t : est * list mrec) (i : nat) (x : rref) : option (est * list mrec) :=
  let '(s, ms) := t in
  match fget (e_F s) x with
  | None => None
  | Some a =>
      match h_put s (g_patch a, g_idx a) (Z.of_nat i) with
      | None => None
      | Some s1 =>
          Some (ESt (e_F s1) (e_heap s1) (<[x := 0]> (e_kids s1)) (<[x := 0]> (e_kpix s1)) (e_asg s1),
                ms ++ [MRec (N.lxor (N.of_nat (g_gray a)) gm) false (g_size a) 0 rect0])
      end
  end.

(* img_fast_mser_v2.cpp:1705-1706: the nearest reported region from a pointer on;
   None = out of budget or dangling *)
Fixpoint find_valid (n : nat) (F : forest) (o : option rref) : option (option rref) :=
  match n with
  | O => None
  | S n' =>
      match o with
      | None => Some None
      | Some y =>
          match fget F y with
          | None => None
          | Some b => if g_flag b =? 2 then Some (Some y) else find_valid n' F (g_par b)
          end
      end
  end.

(* img_fast_mser_v2.cpp:1717-1722: redirect the regions on the way *)
Fixpoint relink (n : nat) (F : forest) (real p : option rref) : option forest :=
  match n with
  | O => None
  | S n' =>
      match p with
      | None => Some F
      | Some y =>
          if decide (p = real) then Some F else
          match fget F y with
          | None => None
          | Some b => relink n' (fset F y (set_par b real)) real (g_par b)
          end
      end
  end.

(* img_fast_mser_v2.cpp:1693-1723: the second loop: how a region is stored, and the
   numbers of its parent; state with region_memory_size *)
Definition classify (fuel : nat) (thr : Z) (t : est * list mrec * Z) (i : nat) (x : rref) : option (est * list mrec * Z) :=
  let '(s, ms, total) := t in
  match fget (e_F s) x, ms !! i with
  | Some a, Some m =>
      let share := (e_kids s x =? 0) || (Z.of_nat (ms_size m) <=? thr)%Z in
      match add_z total (if share then 4 + Z.of_nat (ms_size m)
                         else 4 + Z.of_nat (ms_size m) - Z.of_nat (e_kpix s x) + Z.of_nat ((2 + e_kids s x) / 2)) with
      | None => None
      | Some total' =>
          match find_valid fuel (e_F s) (g_par a) with
          | None => None
          | Some real =>
              let '(kids, kpix) :=
                match real with
                | Some y => (<[y := e_kids s y + 1]> (e_kids s), <[y := e_kpix s y + ms_size m]> (e_kpix s))
                | None => (e_kids s, e_kpix s)
                end in
              match relink fuel (fset (e_F s) x (set_par a real)) real (g_par a) with
              | None => None
              | Some F' => Some (ESt F' (e_heap s) kids kpix (e_asg s),
                                 <[i := MRec (ms_gray m) share (ms_size m) (ms_pts m) (ms_rect m)]> ms, total')
              end
          end
      end
  | _, _ => None
  end.

(* img_fast_mser_v2.cpp:1738-1739: the nearest region that is reported or done *)
Fixpoint find_done (n : nat) (F : forest) (asg : rref -> bool) (o : option rref) : option (option rref) :=
  match n with
  | O => None
  | S n' =>
      match o with
      | None => Some None
      | Some y =>
          match fget F y with
          | None => None
          | Some b => if (g_flag b =? 2) || asg y then Some (Some y) else find_done n' F asg (g_par b)
          end
      end
  end.

(* img_fast_mser_v2.cpp:1747-1750: give all regions on the way the index [v] *)
Fixpoint assign (n : nat) (s : est) (real p : option rref) (v : Z) : option est :=
  match n with
  | O => None
  | S n' =>
      match p with
      | None => Some s
      | Some y =>
          if decide (p = real) then Some s else
          match fget (e_F s) y with
          | None => None
          | Some b =>
              match h_put s (g_patch b, g_idx b) v with
              | None => None
              | Some s1 => assign n' (ESt (e_F s1) (e_heap s1) (e_kids s1) (e_kpix s1) (<[y := true]> (e_asg s1))) real (g_par b) v
              end
          end
      end
  end.

(* img_fast_mser_v2.cpp:1730-1752: one region of the loop over all regions *)
Definition resolve (fuel : nat) (s : est) (x : rref) : option est :=
  match fget (e_F s) x with
  | None => None
  | Some a =>
      if g_flag a =? 2 then Some s else
      if e_asg s x then Some s else
      match find_done fuel (e_F s) (e_asg s) (g_par a) with
      | None => None
      | Some real =>
          match (match real with
                 | None => Some (-1)%Z
                 | Some y => match fget (e_F s) y with
                             | None => None
                             | Some b => h_get s (g_patch b, g_idx b)
                             end
                 end) with
          | None => None
          | Some v => assign fuel s real (Some x) v
          end
      end
  end.

(* ---------- counting the pixels of the partitions ---------- *)

(* img_fast_mser_v2.cpp:1776-1777,1910-1911: the pixels of a partition in scan order: row, column *)
Definition cells (r : prect) : list (nat * nat) :=
  flat_map (fun y => map (pair y) (seq 0 (r_w r))) (seq 0 (r_h r)).
(* img_fast_mser_v2.cpp:1776-1780,1910-1912: the word of a pixel in the bordered buffer *)
Definition word_at (r : prect) (c : nat * nat) : nat := (fst c + 1) * (r_w r + 2) + (snd c + 1).
(* img_fast_mser_v2.cpp:1780-1786,1912: -1 as an u32 *)
Definition none32 : N := (2 ^ 32 - 1)%N.

(* img_fast_mser_v2.cpp:1780-1786: one pixel; state: the words of the partition,
   block_self_pixel_size of the records, cur_memory_size *)
Definition count_px (s : est) (k : nat) (r : prect) (t : list N * list nat * nat) (c : nat * nat)
  : option (list N * list nat * nat) :=
  let '(pts, infos, total) := t in
  match pts !! word_at r c with
  | None => None
  | Some w =>
      match h_get s (k, N.to_nat ((w + 2 ^ 32 - bnd4) mod 2 ^ 32)) with
      | None => None
      | Some v =>
          if (v =? -1)%Z then Some (<[word_at r c := none32]> pts, infos, total)
          else if (v <? 0)%Z then None else
          match infos !! Z.to_nat v with
          | None => None
          | Some n => Some (<[word_at r c := Z.to_N v]> pts, <[Z.to_nat v := n + 1]> infos, total + 1)
          end
      end
  end.
(* img_fast_mser_v2.cpp:1776-1787: the loop over the pixels *)
Fixpoint count_cells (s : est) (k : nat) (r : prect) (cs : list (nat * nat)) (t : list N * list nat * nat)
  : option (list N * list nat * nat) :=
  match cs with
  | [] => Some t
  | c :: cs' => match count_px s k r t c with Some t' => count_cells s k r cs' t' | None => None end
  end.

(* img_fast_mser_v2.cpp:1648-1649,1763-1795: partition k of the four; [n] records *)
Definition count_part (s : est) (n : nat) (rs : list prect) (os : list fbuf) (k : nat) : option (list N * list nat * nat) :=
  match rs !! k, os !! k with
  | Some r, Some b => count_cells s k r (cells r) (b_pts b, replicate n 0, 0)
  | _, _ => None
  end.

(* ---------- the memory of the result ---------- *)

(* img_fast_mser_v2.cpp:1797-1820: the memory of the result as words of an i32, two for a point; None = not written *)
Definition emem := nat -> option Z.
(* img_fast_mser_v2.cpp:1797-2050: reading a word of it; None = unset or out of bounds *)
Definition m_get (size : nat) (m : emem) (i : nat) : option Z := if i <? 2 * size then m i else None.
(* img_fast_mser_v2.cpp:1797-2050: writing a word; None = out of bounds *)
Definition m_put (size : nat) (m : emem) (i : nat) (v : Z) : option emem :=
  if i <? 2 * size then Some (<[i := Some v]> m) else None.
(* img_fast_mser_v2.cpp:1915-1918 and elsewhere: writing m_x and m_y of the point at offset p *)
Definition p_put (size : nat) (m : emem) (p : nat) (x y : Z) : option emem :=
  match m_put size m (2 * p) x with Some m' => m_put size m' (2 * p + 1) y | None => None end.
(* img_fast_mser_v2.cpp:2008-2014 and elsewhere: reading m_x and m_y of the point at offset p *)
Definition p_get (size : nat) (m : emem) (p : nat) : option (Z * Z) :=
  match m_get size m (2 * p), m_get size m (2 * p + 1) with Some x, Some y => Some (x, y) | _, _ => None end.

(* img_fast_mser_v2.cpp:1755-1758: block_self_pixel_size (from 1846 or 1873 on the next
   place to write) and the rectangle of the part of a record in a partition *)
Record binfo := BInfo { bi_pos : nat; bi_top : Z; bi_left : Z; bi_bottom : Z; bi_right : Z }.

(* img_fast_mser_v2.cpp:1830-1844,1858-1871: the four ranges of a record *)
Fixpoint put_ranges (size : nat) (m : emem) (p : nat) (l : list (nat * nat)) : option emem :=
  match l with
  | [] => Some m
  | (x, y) :: l' =>
      match p_put size m p (Z.of_nat x) (Z.of_nat y) with
      | Some m' => put_ranges size m' (p + 1) l'
      | None => None
      end
  end.

(* img_fast_mser_v2.cpp:1821-1891: place record i; [counts] are the four arrays of block
   counts, [starts] is block_memory_start_indexes; the result ends with the new entry of
   the four info arrays (rectangles empty: left = -1) and m_mser_index *)
Record lay := Lay { l_mem : emem; l_ms : list mrec; l_starts : list nat; l_pos : list (list nat); l_mi : rref -> option nat }.
(* img_fast_mser_v2.cpp:1821-1891: see above *)
Definition place (size : nat) (s : est) (counts : list (list nat)) (t : lay) (i : nat) (x : rref) : option lay :=
  match fget (e_F s) x, l_ms t !! i, l_starts t with
  | Some a, Some m, [b0; b1; b2; b3] =>
      match counts with
      | [c0; c1; c2; c3] =>
          match c0 !! i, c1 !! i, c2 !! i, c3 !! i with
          | Some n0, Some n1, Some n2, Some n3 =>
              let kn := (2 + e_kids s x) / 2 in
              let x0 := if ms_share m then b0 + 4 else b0 + 4 + kn in
              match (if ms_share m then Some (l_mem t) else m_put size (l_mem t) (2 * (b0 + 4)) 0) with
              | None => None
              | Some mem1 =>
                  match put_ranges size mem1 b0 [(x0, x0 + n0); (b1, b1 + n1); (b2, b2 + n2); (b3, b3 + n3)] with
                  | None => None
                  | Some mem2 =>
                      Some (Lay mem2 (<[i := MRec (N.of_nat (g_gray a)) (ms_share m) (ms_size m) b0 (ms_rect m)]> (l_ms t))
                              [x0 + n0 + (if ms_share m then e_kpix s x else 0); b1 + n1; b2 + n2; b3 + n3]
                              (l_pos t ++ [[x0; b1; b2; b3]])
                              (<[x := Some i]> (l_mi t)))
                  end
              end
          | _, _, _, _ => None
          end
      | _ => None
      end
  | _, _, _ => None
  end.

(* img_fast_mser_v2.cpp:1920-1939: conversion of an i32 to an i16 *)
Definition i16 (z : Z) : Z := ((z + 2 ^ 15) mod 2 ^ 16 - 2 ^ 15)%Z.

(* img_fast_mser_v2.cpp:1920-1939: extend the rectangle by the pixel *)
Definition grow (b : binfo) (x y : Z) : binfo :=
  if (bi_left b =? -1)%Z then BInfo (bi_pos b + 1) (i16 y) (i16 x) (i16 y) (i16 x) else
  let '(l, r) := if (x <? bi_left b)%Z then (i16 x, bi_right b)
                 else if (bi_right b <? x)%Z then (bi_left b, i16 x) else (bi_left b, bi_right b) in
  let '(t, d) := if (y <? bi_top b)%Z then (i16 y, bi_bottom b)
                 else if (bi_bottom b <? y)%Z then (bi_top b, i16 y) else (bi_top b, bi_bottom b) in
  BInfo (bi_pos b + 1) t l d r.

(* img_fast_mser_v2.cpp:1912-1940: one pixel of a partition *)
Definition fill_px (size : nat) (pts : list N) (r : prect) (mem : emem) (infos : list binfo) (c : nat * nat)
  : option (emem * list binfo) :=
  match pts !! word_at r c with
  | None => None
  | Some w =>
      if (w =? none32)%N then Some (mem, infos) else
      let x := Z.of_nat (snd c + r_left r) in
      let y := Z.of_nat (fst c + r_top r) in
      match infos !! N.to_nat w with
      | None => None
      | Some b =>
          match p_put size mem (bi_pos b) x y with
          | None => None
          | Some mem' => Some (mem', <[N.to_nat w := grow b x y]> infos)
          end
      end
  end.

(* img_fast_mser_v2.cpp:1893-1911: a worker: its partition, its words, the pixels left, its infos *)
Record fwk := FWk { fw_r : prect; fw_pts : list N; fw_todo : list (nat * nat); fw_infos : list binfo }.

(* img_fast_mser_v2.cpp:1893-1949: the workers under a schedule, a pixel at a time; a
   worker that is scheduled after its last pixel does nothing *)
Fixpoint fill_run (size : nat) (sched : list nat) (mem : emem) (ws : list fwk) : option (emem * list fwk) :=
  match sched with
  | [] => Some (mem, ws)
  | k :: rest =>
      match ws !! k with
      | None => None
      | Some w =>
          match fw_todo w with
          | [] => fill_run size rest mem ws
          | c :: cs =>
              match fill_px size (fw_pts w) (fw_r w) mem (fw_infos w) c with
              | None => None
              | Some (mem', infos) => fill_run size rest mem' (<[k := FWk (fw_r w) (fw_pts w) cs infos]> ws)
              end
          end
      end
  end.
(* img_fast_mser_v2.cpp:1893-1949: the end of the parallel section: all workers are done *)
Definition fill_done (ws : list fwk) : bool :=
  forallb (fun w => match fw_todo w with [] => true | _ => false end) ws.

(* ---------- copying the children, rectangles, relative offsets ---------- *)

(* img_fast_mser_v2.cpp:1974-1999: combine the rectangles of the four parts: left,
   right, top, bottom; None = no part has a pixel *)
Definition join_box (o : option (Z * Z * Z * Z)) (b : binfo) : option (Z * Z * Z * Z) :=
  if (bi_left b =? -1)%Z then o else
  match o with
  | None => Some (bi_left b, bi_right b, bi_top b, bi_bottom b)
  | Some (l, r, t, d) =>
      let '(l', r') := if (bi_left b <? l)%Z then (bi_left b, r) else if (r <? bi_right b)%Z then (l, bi_right b) else (l, r) in
      let '(t', d') := if (bi_top b <? t)%Z then (bi_top b, d) else if (d <? bi_bottom b)%Z then (t, bi_bottom b) else (t, d) in
      Some (l', r', t', d')
  end.

(* img_fast_mser_v2.cpp:2008-2014: memcpy of n points from offset a to offset b *)
Fixpoint copy_pts (size : nat) (m : emem) (a b n : nat) : option emem :=
  match n with
  | O => Some m
  | S n' =>
      match p_get size m a with
      | None => None
      | Some (x, y) =>
          match p_put size m b x y with
          | Some m' => copy_pts size m' (a + 1) (b + 1) n'
          | None => None
          end
      end
  end.
(* img_fast_mser_v2.cpp:2008-2014: memcpy; None also if the two ranges overlap, for which it is undefined *)
Definition memcpy_pts (size : nat) (m : emem) (a b n : nat) : option emem :=
  if (a + n <=? b) || (b + n <=? a) then copy_pts size m a b n else None.

(* img_fast_mser_v2.cpp:2008-2026: an offset read from memory *)
Definition off (z : option Z) : option nat :=
  match z with Some v => if (0 <=? v)%Z then Some (Z.to_nat v) else None | None => None end.

(* img_fast_mser_v2.cpp:2008-2014: append range k of the record at [p] to the record at
   [q]; a range of at most zero points is skipped *)
Definition copy_range (size : nat) (m : emem) (p q k : nat) : option emem :=
  match m_get size m (2 * (p + k)), m_get size m (2 * (p + k) + 1) with
  | Some x, Some y =>
      if (y - x <=? 0)%Z then Some m else
      match off (Some x), off (m_get size m (2 * q + 1)) with
      | Some a, Some b =>
          match memcpy_pts size m a b (Z.to_nat (y - x)) with
          | Some m1 => m_put size m1 (2 * q + 1) (Z.of_nat b + (y - x))
          | None => None
          end
      | _, _ => None
      end
  | _, _ => None
  end.
(* img_fast_mser_v2.cpp:2003-2016: the four ranges one after the other *)
Definition copy_ranges (size : nat) (m : emem) (p q : nat) : option emem :=
  match copy_range size m p q 0 with
  | None => None
  | Some m0 =>
      match copy_range size m0 p q 1 with
      | None => None
      | Some m1 => match copy_range size m1 p q 2 with None => None | Some m2 => copy_range size m2 p q 3 end
      end
  end.

(* img_fast_mser_v2.cpp:2019-2020, 2025-2026: list the record i as a child of the record
   j, whose memory is at [q] *)
Definition add_child (size : nat) (m : emem) (q i j : nat) : option emem :=
  match off (m_get size m (2 * (q + 4))) with
  | None => None
  | Some n =>
      match m_put size m (2 * (q + 4)) (Z.of_nat n + 1) with
      | None => None
      | Some m1 => m_put size m1 (2 * (q + 4) + (n + 1)) (Z.of_nat i - Z.of_nat j)
      end
  end.

(* img_fast_mser_v2.cpp:2037-2044: make a range relative to the start of its record *)
Definition rel_word (size : nat) (m : emem) (i p : nat) : option emem :=
  match m_get size m i with Some v => m_put size m i (v - Z.of_nat p) | None => None end.
(* img_fast_mser_v2.cpp:2037-2044: the same for n words *)
Fixpoint rel_words (size : nat) (m : emem) (i p n : nat) : option emem :=
  match n with
  | O => Some m
  | S n' => match rel_word size m i p with Some m' => rel_words size m' (i + 1) p n' | None => None end
  end.

(* img_fast_mser_v2.cpp:1960-2050: one region of the last loop; [infos] are the four
   arrays of infos; None also if no part has a pixel, where the code reads values of
   the previous record *)
Definition finish (size : nat) (s : est) (mi : rref -> option nat) (infos : list (list binfo))
  (t : emem * list mrec) (i : nat) (x : rref) : option (emem * list mrec) :=
  let '(m, ms) := t in
  match fget (e_F s) x, ms !! i with
  | Some a, Some c =>
      match (match g_par a with
             | None => Some None
             | Some y =>
                 match fget (e_F s) y with
                 | None => None
                 | Some b =>
                     if g_flag b =? 2 then
                       match mi y with
                       | Some j => match ms !! j with Some d => Some (Some (j, d)) | None => None end
                       | None => None
                       end
                     else Some None
                 end
             end) with
      | None => None
      | Some par =>
          match (match par with
                 | None => Some m
                 | Some (j, d) =>
                     if ms_share c && ms_share d then copy_ranges size m (ms_pts c) (ms_pts d)
                     else add_child size m (ms_pts d) i j
                 end) with
          | None => None
          | Some m1 =>
              match foldl join_box None (omap (fun l => l !! i) infos) with
              | None => None
              | Some (l, r, tp, bt) =>
                  let rc := append_rect (ms_rect c) (Rect l tp (r - l + 1) (bt - tp + 1)) in
                  let ms1 := <[i := MRec (ms_gray c) (ms_share c) (ms_size c) (ms_pts c) rc]> ms in
                  let ms2 := match par with
                             | None => ms1
                             | Some (j, d) =>
                                 <[j := MRec (ms_gray d) (ms_share d) (ms_size d) (ms_pts d) (append_rect (ms_rect d) rc)]> ms1
                             end in
                  match rel_words size m1 (2 * ms_pts c) (ms_pts c) 8 with
                  | Some m2 => Some (m2, ms2)
                  | None => None
                  end
              end
          end
      end
  | _, _ => None
  end.

(* ---------- the whole ---------- *)

(* img_fast_mser_v2.cpp:1643-2051, img_mser_base.h:33-75: the result: number of points of the memory, the memory, the records *)
Record mres := MRes { r_size : nat; r_mem : emem; r_ms : list mrec }.

(* img_fast_mser_v2.cpp:1643-2051; [F] the regions after recognition, [heap0] the old
   contents of m_heap, [l] the reported regions, [sched] the interleaving of 1893 *)
Definition extract_4 (fuel : nat) (gm : N) (thr : Z) (rs : list prect) (os : list fbuf) (F : forest)
  (heap0 : rref -> option Z) (l : list rref) (sched : list nat) : option (mres * list (list N)) :=
  let n := length l in
  if (2 ^ 31 <=? Z.of_nat ((n * 3 + 1) * 4))%Z then None else
  match loop (rec_start gm) 0 l (ESt F heap0 (fun _ => 0) (fun _ => 0) (fun _ => false), []) with
  | None => None
  | Some (s1, ms1) =>
      match loop (classify fuel thr) 0 l (s1, ms1, 0%Z) with
      | None => None
      | Some (s2, ms2, total) =>
          match each (resolve fuel) (all_refs (e_F s2)) s2 with
          | None => None
          | Some s3 =>
              match count_part s3 n rs os 0, count_part s3 n rs os 1, count_part s3 n rs os 2, count_part s3 n rs os 3 with
              | Some (p0, c0, t0), Some (p1, c1, t1), Some (p2, c2, t2), Some (p3, c3, t3) =>
                  let size := Z.to_nat total in
                  if size <? t1 + t2 + t3 then None else
                  match loop (place size s3 [c0; c1; c2; c3]) 0 l
                    (Lay (fun _ => None) ms2 [0; size - t3 - t2 - t1; size - t3 - t2; size - t3] [] (fun _ => None)) with
                  | None => None
                  | Some ly =>
                      let infos k := map (fun q => BInfo (nth k q 0) 0 (-1) 0 0) (l_pos ly) in
                      let wk k p := FWk (nth k rs (PRect 0 0 0 0)) p (cells (nth k rs (PRect 0 0 0 0))) (infos k) in
                      match fill_run size sched (l_mem ly) [wk 0 p0; wk 1 p1; wk 2 p2; wk 3 p3] with
                      | None => None
                      | Some (mem, ws) =>
                          if negb (fill_done ws) then None else
                          match loop (finish size s3 (l_mi ly) (map fw_infos ws)) 0 l (mem, l_ms ly) with
                          | None => None
                          | Some (mem', ms) => Some (MRes size mem' ms, [p0; p1; p2; p3])
                          end
                      end
                  end
              | _, _, _, _ => None
              end
          end
      end
  end.

(* img_fast_mser_v2.cpp:1335-1342 extract_pixel: nothing is done without regions *)
Definition extract_pixel (fuel : nat) (gm : N) (thr : Z) (rs : list prect) (os : list fbuf) (F : forest)
  (heap0 : rref -> option Z) (l : list rref) (sched : list nat) : option (mres * list (list N)) :=
  match l with
  | [] => Some (MRes 0 (fun _ => None) [], map b_pts os)
  | _ => extract_4 fuel gm thr rs os F heap0 l sched
  end.

(* ---------- reading a record ---------- *)

(* img_mser_helper.cpp:79-93,97-111: the points from offset a to offset b *)
Fixpoint read_pts (size : nat) (m : emem) (a n : nat) : option (list (Z * Z)) :=
  match n with
  | O => Some []
  | S n' =>
      match p_get size m a, read_pts size m (a + 1) n' with
      | Some q, Some l => Some (q :: l)
      | _, _ => None
      end
  end.
(* img_mser_helper.cpp:79-93,97-111: one of the four ranges *)
Definition read_range (size : nat) (m : emem) (p k : nat) : option (list (Z * Z)) :=
  match m_get size m (2 * (p + k)), m_get size m (2 * (p + k) + 1) with
  | Some x, Some y =>
      if (y <=? x)%Z then Some [] else
      match off (Some (x + Z.of_nat p)%Z) with
      | Some a => read_pts size m a (Z.to_nat (y - x))
      | None => None
      end
  | _, _ => None
  end.
(* img_mser_helper.cpp:79-93,97-111: the four ranges *)
Definition read_ranges (size : nat) (m : emem) (p : nat) : option (list (Z * Z)) :=
  match read_range size m p 0, read_range size m p 1, read_range size m p 2, read_range size m p 3 with
  | Some a, Some b, Some c, Some d => Some (a ++ b ++ c ++ d)
  | _, _, _, _ => None
  end.

(* img_mser_helper.cpp:114-118: the children listed in the record j at offset p, pushed
   one after the other on the stack *)
Fixpoint push_children (size : nat) (m : emem) (w j n : nat) (stack : list nat) : option (list nat) :=
  match n with
  | O => Some stack
  | S n' =>
      match m_get size m w with
      | None => None
      | Some v =>
          match off (Some (v + Z.of_nat j)%Z) with
          | Some c => push_children size m (w + 1) j n' (c :: stack)
          | None => None
          end
      end
  end.

(* img_mser_helper.cpp:68-120, 211-257: the points visited and the records popped, in
   order; the stack holds record numbers (the code holds differences to the record asked
   for); None = out of budget, no such record, or a bad read *)
Fixpoint visit (n : nat) (R : mres) (stack : list nat) : option (list (Z * Z) * list nat) :=
  match stack with
  | [] => Some ([], [])
  | j :: rest =>
      match n with
      | O => None
      | S n' =>
          match r_ms R !! j with
          | None => None
          | Some c =>
              let p := ms_pts c in
              match read_ranges (r_size R) (r_mem R) p with
              | None => None
              | Some pts =>
                  match (if ms_share c then Some rest
                         else match off (m_get (r_size R) (r_mem R) (2 * (p + 4))) with
                              | Some k => push_children (r_size R) (r_mem R) (2 * (p + 4) + 1) j k rest
                              | None => None
                              end) with
                  | None => None
                  | Some stack' =>
                      match visit n' R stack' with
                      | Some (q, js) => Some (pts ++ q, j :: js)
                      | None => None
                      end
                  end
              end
          end
      end
  end.
