(* Model of build_tree of Fast MSER V1: flooding every partition, sorting the
   positions of each seam and joining along the seams in that order
   (basicimg/src/img_fast_mser_v1.cpp:79-955, 957-1015, 1586-2227).

   Simplifications, valid for every definition below:
   - src has one byte per sample and rows without gaps: col_step is 1, row_step is cols;
   - the partitions are flooded one after the other: they share nothing (every
     partition has its own slices, see V1Model);
   - the arrays m_orderd_indexes[0] and [1] are fresh in every seam (malloc 193-194,
     316-318, 458-460, 619-621, 783-785); None is an entry not written yet;
   - merge_tree_parallel_4 computes both orders before the first join (1609-1675);
     orders depend on the image only, here each is computed just before its join;
   - thread numbers other than 1, 2, 4, 8, 16, 32 build nothing (934-947): None. *)
From stdpp Require Import sorting relations functions list.
From Coq Require Import NArith ZArith.
From Verif Require Import FloodModel PartModel RecogModel V1JoinModel V1Model.
Local Open Scope nat_scope.

(* img_fast_mser_v1.cpp:114-179, 181-300, 302-444, 446-605, 607-768, 771-932: columns
   and rows of the partition grid; the pieces of an axis are those of PartModel.rects *)
Definition v1_grid (threads : nat) : option (nat * nat) :=
  if threads =? 1 then Some (1, 1)
  else if threads =? 2 then Some (2, 1)
  else if threads =? 4 then Some (2, 2)
  else if threads =? 8 then Some (4, 2)
  else if threads =? 16 then Some (4, 4)
  else if threads =? 32 then Some (8, 4)
  else None.

(* img_fast_mser_v1.cpp:1619-1634 and the like: a loop over a list *)
Fixpoint sweep {S A : Type} (f : S -> A -> option S) (l : list A) (s : S) : option S :=
  match l with
  | [] => Some s
  | x :: l' => match f s x with Some s' => sweep f l' s' | None => None end
  end.

(* img_fast_mser_v1.cpp:1622-1626, 1655-1659, 1898-1901, 2109-2113, 2174-2178: g of the
   seam position at pos; the neighbour compared is at pos + nb, the value taken from it
   is always at pos + 1 (data + col_step) *)
Definition seam_gray (img : list N) (gm : N) (pos nb : nat) : option nat :=
  match img !! pos, img !! (pos + nb) with
  | Some g, Some v =>
      if (if (gm =? 0)%N then (v <? g)%N else (g <? v)%N)
      then N.to_nat <$> img !! (pos + 1) else Some (N.to_nat g)
  | _, _ => None
  end.

(* img_fast_mser_v1.cpp:1628, 1661, 1903, 2115, 2180: ++gray_number[g] *)
Definition tally (key : nat -> option nat) (num : list nat) (i : nat) : option (list nat) :=
  match key i with
  | None => None
  | Some g => match num !! g with Some c => Some (<[g := S c]> num) | None => None end
  end.

(* img_fast_mser_v1.cpp:1644, 1677, 1919, 2131, 2196: order_indexes[gray_integral[g]++] = i *)
Definition place (key : nat -> option nat) (t : list (option nat) * list nat) (i : nat)
  : option (list (option nat) * list nat) :=
  match key i with
  | None => None
  | Some g =>
      match snd t !! g with
      | None => None
      | Some s => if s <? length (fst t) then Some (<[s := Some i]> (fst t), <[g := S s]> (snd t)) else None
      end
  end.

(* img_fast_mser_v1.cpp:1612-1648, 1649-1681, 1889-1922, 2085-2134, 2162-2199 and
   basicmath/include/mt_helper.h:335-343: the positions 0..n-1 in the order of g *)
Definition seam_order (key : nat -> option nat) (n : nat) : option (list (option nat)) :=
  match sweep (tally key) (seq 0 n) (replicate 256 0) with
  | None => None
  | Some num =>
      match sweep (place key) (seq 0 n) (replicate n None, integral 0 num) with
      | None => None
      | Some (ord, _) => Some ord
      end
  end.

(* img_fast_mser_v1.cpp:1934-1935, 1959-1962, 1989-1992, 2152-2156, 2210-2214: entry i
   of a table of boundary regions; None = no table, no such entry or entry not written *)
Definition seam_entry (t : option (list (option rref))) (i : nat) : option rref :=
  match t with
  | None => None
  | Some l => match l !! i with Some (Some r) => Some r | _ => None end
  end.

(* img_fast_mser_v1.cpp:1945-1953, 1971-1986, 2002-2014, 2152-2165, 2210-2222: join the
   regions recorded at position inner of the seam of partitions ka and kb *)
Definition vjoin_at (fuel : nat) (tabs : list vtab) (lr : bool) (st : jst)
  (ka kb inner split : nat) : option jst :=
  match tabs !! ka, tabs !! kb with
  | Some ta, Some tb =>
      match seam_entry (if lr then tb_r ta else tb_b ta) inner,
            seam_entry (if lr then tb_l tb else tb_t tb) inner with
      | Some a, Some b =>
          match wreal fuel (e_regs st) (Some a), wreal fuel (e_regs st) (Some b) with
          | Some a', Some b' => wconnect fuel split st a' b'
          | _, _ => None
          end
      | _, _ => None
      end
  | _, _ => None
  end.

(* img_fast_mser_v1.cpp:1933-2015, 2136-2156, 2200-2214: for a position of the seam the
   two partitions, the position inside them, and split_patch_index *)
Definition vpick := nat -> option (nat * nat * nat * nat).

(* img_fast_mser_v1.cpp:1934-1947: two partitions *)
Definition pick2 : vpick := fun i => Some (0, 1, i, 0).
(* img_fast_mser_v1.cpp:1959-1981: four partitions, left and right *)
Definition pick4_lr (half_height : nat) : vpick := fun i =>
  Some (if i <? half_height then (0, 1, i, 0) else (2, 3, i - half_height, 2)).
(* img_fast_mser_v1.cpp:1989-2010: four partitions, upper and lower *)
Definition pick4_tb (half_width : nat) : vpick := fun i =>
  Some (if i <? half_width then (0, 2, i, 1) else (1, 3, i - half_width, 1)).
(* img_fast_mser_v1.cpp:2138-2158 (lr) and 2200-2216: p is p_height or p_width, the size of
   partition ks[0]; None = division by zero or index outside *)
Definition pick_step (ks : list nat) (step : nat) (lr : bool) (p : nat) : vpick := fun i =>
  if p =? 0 then None else
  let v := if length ks - 1 <=? i / p then length ks - 1 else i / p in
  match ks !! v, ks !! (length ks - 1) with
  | Some k, Some kl => Some (k, k + step, i - v * p, if lr then v else kl)
  | _, _ => None
  end.

(* img_fast_mser_v1.cpp:1942-1953, 1970-1986, 2001-2015, 2138-2160, 2203-2222: join the
   positions of a seam in the order found *)
Definition vjoin_pos (fuel : nat) (tabs : list vtab) (lr : bool) (pick : vpick) (st : jst) (oi : option nat)
  : option jst :=
  match oi with
  | None => None
  | Some i =>
      match pick i with
      | None => None
      | Some (ka, kb, inner, split) => vjoin_at fuel tabs lr st ka kb inner split
      end
  end.

(* img_fast_mser_v1.cpp:1615-1683, 1894-1922, 2105-2134, 2169-2198: the seam right of
   (lr) or below partition r: the grey value of its position i *)
Definition seam_key (img : list N) (gm : N) (cols : nat) (lr : bool) (r : prect) (i : nat) : option nat :=
  if lr then seam_gray img gm (i * cols + (r_left r + r_w r - 1)) 1
  else seam_gray img gm ((r_top r + r_h r - 1) * cols + i) cols.

(* img_fast_mser_v1.cpp:1586-2227: one seam after the other; an element is: left-right
   or not, the partition whose edge is the seam, and the partitions met along it *)
Definition vplan := list (bool * nat * vpick).
(* img_fast_mser_v1.cpp:2084-2227: merge_tree_parallel_step, also 1933-1955 and 1957-2017 *)
Definition vjoin_seam (fuel : nat) (img : list N) (gm : N) (cols rows : nat) (rs : list prect)
  (tabs : list vtab) (st : jst) (s : bool * nat * vpick) : option jst :=
  let '(lr, k0, pick) := s in
  match rs !! k0 with
  | None => None
  | Some r =>
      match seam_order (seam_key img gm cols lr r) (if lr then rows else cols) with
      | None => None
      | Some ord => sweep (vjoin_pos fuel tabs lr pick) ord st
      end
  end.

(* img_fast_mser_v1.cpp:2090-2100, 2138, 2200: a call of merge_tree_parallel_step *)
Definition plan_step (rs : list prect) (ks : list nat) (step : nat) (lr : bool) : option (bool * nat * vpick) :=
  match ks with
  | [] => None
  | k0 :: _ => match rs !! k0 with
               | None => None
               | Some r => Some (lr, k0, pick_step ks step lr (if lr then r_h r else r_w r))
               end
  end.

(* img_fast_mser_v1.cpp:1695-1727: the calls of merge_tree_parallel_8 *)
Definition calls8 : list (list nat * nat * bool) :=
  [([0; 4], 1, true); ([2; 6], 1, true); ([1; 5], 1, true); ([0; 1; 2; 3], 4, false)].
(* img_fast_mser_v1.cpp:1729-1782: the calls of merge_tree_parallel_16 *)
Definition calls16 : list (list nat * nat * bool) :=
  [([0; 4; 8; 12], 1, true); ([2; 6; 10; 14], 1, true); ([1; 5; 9; 13], 1, true);
   ([0; 1; 2; 3], 4, false); ([8; 9; 10; 11], 4, false); ([4; 5; 6; 7], 4, false)].
(* img_fast_mser_v1.cpp:1785-1880: the calls of merge_tree_parallel_32 *)
Definition calls32 : list (list nat * nat * bool) :=
  [([0; 8; 16; 24], 1, true); ([2; 10; 18; 26], 1, true); ([4; 12; 20; 28], 1, true);
   ([6; 14; 22; 30], 1, true); ([1; 9; 17; 25], 1, true); ([5; 13; 21; 29], 1, true);
   ([3; 11; 19; 27], 1, true);
   ([0; 1; 2; 3; 4; 5; 6; 7], 8, false); ([16; 17; 18; 19; 20; 21; 22; 23], 8, false);
   ([8; 9; 10; 11; 12; 13; 14; 15], 8, false)].

(* img_fast_mser_v1.cpp:957-1015, 1586-1930: the seams in the order they are joined *)
Definition vplan_of (threads : nat) (rs : list prect) : option vplan :=
  match rs !! 0 with
  | None => None
  | Some r0 =>
      if threads =? 1 then Some []
      else if threads =? 2 then Some [(true, 0, pick2)]
      else if threads =? 4 then Some [(true, 0, pick4_lr (r_h r0)); (false, 0, pick4_tb (r_w r0))]
      else if threads =? 8 then mapM (fun c => plan_step rs (fst (fst c)) (snd (fst c)) (snd c)) calls8
      else if threads =? 16 then mapM (fun c => plan_step rs (fst (fst c)) (snd (fst c)) (snd c)) calls16
      else if threads =? 32 then mapM (fun c => plan_step rs (fst (fst c)) (snd (fst c)) (snd c)) calls32
      else None
  end.

(* img_fast_mser_v1.cpp:957-1009: make_tree_patch for every partition *)
Fixpoint vflood_all (n : nat) (gm : N) (fresh : bool) (img : list N) (cols k : nat)
  (rs : list prect) (bs : list vbuf) : option (list (list wreg) * list vbuf) :=
  match rs, bs with
  | [], [] => Some ([], [])
  | r :: rs', b :: bs' =>
      match vmake_tree n (vcfg4 k (r_left r) (r_top r) (r_w r) (r_h r)) fresh gm img cols b with
      | VTree regs b' =>
          match vflood_all n gm fresh img cols (S k) rs' bs' with
          | Some (ts, os) => Some (regs :: ts, b' :: os)
          | None => None
          end
      | _ => None
      end
  | _, _ => None
  end.

(* img_fast_mser_v1.h:113: the slice of m_linked_points of a partition *)
Definition vset_pts (b : vbuf) (p : list wpt) : vbuf :=
  VBuf (vb_img b) (vb_heap b) (vb_hs b) (vb_lvl b) p (vb_tab b).

(* img_fast_mser_v1.cpp:934-1015: build_tree; the regions and the buffers, with the
   points as the joins left them *)
Definition vbuild (n fuel threads : nat) (gm : N) (fresh : bool) (img : list N) (cols rows : nat)
  (bs : list vbuf) : option (list (list wreg) * list vbuf) :=
  match v1_grid threads with
  | None => None
  | Some (hpn, vpn) =>
      let rs := rects hpn vpn cols rows in
      match vflood_all n gm fresh img cols 0 rs bs, vplan_of threads rs with
      | Some (ts, os), Some plan =>
          match sweep (vjoin_seam fuel img gm cols rows rs (vb_tab <$> os)) plan (JSt ts (vb_pts <$> os) []) with
          | None => None
          | Some st => Some (e_regs st, zip_with vset_pts os (e_pts st))
          end
      | _, _ => None
      end
  end.

(* img_fast_mser_v1.cpp:166-171, 258-270, 385-424, 527-577, 690-745, 856-912: which of the
   tables of boundary regions partition k of a grid with hpn columns and n partitions has *)
Definition has_left (hpn k : nat) : bool := negb (k mod hpn =? 0).
(* img_fast_mser_v1.cpp:258-270 and the like: a table for the right side *)
Definition has_right (hpn k : nat) : bool := negb (S (k mod hpn) =? hpn).
(* img_fast_mser_v1.cpp:385-424 and the like: a table for the upper side *)
Definition has_top (hpn k : nat) : bool := hpn <=? k.
(* img_fast_mser_v1.cpp:385-424 and the like: a table for the lower side *)
Definition has_bot (hpn n k : nat) : bool := k + hpn <? n.
