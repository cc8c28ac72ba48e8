(* Model of allocate_memory of Fast MSER V1: sizes of the arrays and the slices the
   partitions get (basicimg/src/img_fast_mser_v1.cpp:79-932).

   Simplifications:
   - sizes of arrays are u32 (wrap32), running offsets are i32 (None = overflow); an offset
     passes through u32 on its way (offset += m_width * m_height), which agrees below 2^31;
   - malloc succeeds; the contents of a fresh array are arbitrary (valloc takes them);
   - m_channel_total_running_memory (a statistic) and m_dir (in FloodModel's grid) are left
     out, memory_offset_for_region is computed but never used. *)
From stdpp Require Import sorting relations functions list.
From Coq Require Import NArith ZArith.
From Verif Require Import FloodModel PartModel RecogModel V1JoinModel V1Model V1BuildModel.
Local Open Scope nat_scope.

(* img_fast_mser_v1.cpp:114-179 (no array), 224, 348, 496, 657, 821: boundary_size *)
Definition v1_bsize (threads cols rows : nat) : nat :=
  wrap32 (if threads =? 1 then 0
          else if threads =? 2 then rows * 2
          else if threads =? 4 then rows * 2 + cols * 2
          else if threads =? 8 then rows * 6 + cols * 2
          else if threads =? 16 then rows * 6 + cols * 6
          else rows * 14 + cols * 6).

(* img_fast_mser_v1.cpp:160-163, 257-271, 383-415, 531-548, 692-711, 856-875: whether
   partition i has a table for its left, right, upper and lower side *)
Definition v1_sides (threads i : nat) : bool * bool * bool * bool :=
  if threads =? 1 then (false, false, false, false)
  else if threads =? 2 then (if i =? 0 then (false, true, false, false) else (true, false, false, false))
  else if threads =? 4 then
    (if i =? 0 then (false, true, false, true)
     else if i =? 1 then (true, false, false, true)
     else if i =? 2 then (false, true, true, false)
     else (true, false, true, false))
  else if threads =? 8 then
    (negb (i =? 0) && negb (i =? 4), negb (i =? 3) && negb (i =? 7), negb (i <=? 3), i <=? 3)
  else if threads =? 16 then
    (negb (i mod 4 =? 0), negb (i mod 4 =? 3), 3 <? i, i <=? 11)
  else
    (negb (i mod 8 =? 0), negb (i mod 8 =? 7), 7 <? i, i <=? 23).

(* img_fast_mser_v1.cpp:550-577 and the like: one table of len entries at offset bo, or
   NULL; and the next offset *)
Definition vside (has : bool) (len bo : nat) : option (option nat * nat) :=
  if has then match i32_ok (bo + len) with Some b => Some (Some bo, b) | None => None end
  else Some (None, bo).

(* img_fast_mser_v1.cpp:519-577 and the like: offsets of m_masked_image_data and
   m_link_points, of m_heap, and of the four tables of boundary regions (None = NULL) *)
Record vslice := VSlice {
  vs_pt : nat; vs_hp : nat;
  vs_l : option nat; vs_r : option nat; vs_t : option nat; vs_b : option nat
}.

(* img_fast_mser_v1.cpp:550-577 and the like: the tables of partition i *)
Definition vtables (threads i w h bo : nat)
  : option (option nat * option nat * option nat * option nat * nat) :=
  match v1_sides threads i with
  | (hl, hr, ht, hb) =>
      match vside hl h bo with None => None | Some (l, bo1) =>
      match vside hr h bo1 with None => None | Some (r, bo2) =>
      match vside ht w bo2 with None => None | Some (t, bo3) =>
      match vside hb w bo3 with None => None | Some (b, bo4) => Some (l, r, t, b, bo4)
      end end end end
  end.

(* img_fast_mser_v1.cpp:512-603 and the like: the loop over the partitions *)
Fixpoint vlayout (threads i : nat) (rs : list prect) (po ho bo : nat) : option (list vslice) :=
  match rs with
  | [] => Some []
  | r :: rest =>
      match vtables threads i (r_w r) (r_h r) bo with
      | None => None
      | Some (l, rr, t, b, bo') =>
          match i32_ok ((r_w r + 2) * (r_h r + 2)), i32_ok (r_w r * r_h r) with
          | Some a, Some p =>
              match i32_ok (po + a), i32_ok (ho + (p + 257)) with
              | Some po', Some ho' =>
                  match vlayout threads (S i) rest po' ho' bo' with
                  | Some q => Some (VSlice po ho l rr t b :: q)
                  | None => None
                  end
              | _, _ => None
              end
          | _, _ => None
          end
      end
  end.

(* img_fast_mser_v1.h:151-165: the arrays shared by the partitions *)
Record vmem := VMem {
  vm_img : list N;                   (* m_masked_image *)
  vm_heap : list (option nat);       (* m_heap *)
  vm_pts : list wpt;                 (* m_linked_points *)
  vm_bnd : list (option rref)        (* m_boundary_regions *)
}.

(* img_fast_mser_v1.cpp:525-529 and the like: len elements from offset o; what a partition
   can reach through its pointer without leaving the array *)
Definition slice {A} (l : list A) (o len : nat) : list A := take len (drop o l).

(* img_fast_mser_v1.cpp:519-577 and the like: the buffers of one partition; hs and lvl are
   the contents of its m_heap_start and m_level_size; heap positions are relative to m_heap
   of the partition, so m_heap_start[0] becomes 0 (529) *)
Definition vcarve (m : vmem) (r : prect) (s : vslice) (hs lvl : list nat) : vbuf :=
  VBuf (slice (vm_img m) (vs_pt s) ((r_w r + 2) * (r_h r + 2)))
       (slice (vm_heap m) (vs_hp s) (r_w r * r_h r + 257))
       (<[0 := 0]> hs) lvl
       (slice (vm_pts m) (vs_pt s) ((r_w r + 2) * (r_h r + 2)))
       (VTab ((fun o => slice (vm_bnd m) o (r_h r)) <$> vs_l s) ((fun o => slice (vm_bnd m) o (r_h r)) <$> vs_r s)
             ((fun o => slice (vm_bnd m) o (r_w r)) <$> vs_t s) ((fun o => slice (vm_bnd m) o (r_w r)) <$> vs_b s)).

(* img_fast_mser_v1.cpp:512-603 and the like: the buffers of all partitions *)
Fixpoint vcarve_all (m : vmem) (rs : list prect) (ss : list vslice) (hl : list (list nat * list nat)) : list vbuf :=
  match rs, ss, hl with
  | r :: rs', s :: ss', (hs, lvl) :: hl' => vcarve m r s hs lvl :: vcarve_all m rs' ss' hl'
  | _, _, _ => []
  end.

(* img_fast_mser_v1.cpp:80, 121, 203, 327, 469-475, 630-636, 794-800: the arrays have the sizes
   allocated (h_size and pt_size of PartModel: the same sums as in V2) *)
Definition vmem_sized (threads hpn vpn cols rows : nat) (m : vmem) : Prop :=
  length (vm_img m) = pt_size hpn vpn cols rows /\ length (vm_pts m) = pt_size hpn vpn cols rows /\
  length (vm_heap m) = h_size threads cols rows /\ length (vm_bnd m) = v1_bsize threads cols rows.

(* img_fast_mser_v1.cpp:79-112: allocate_memory with the contents of the memory given; pinfo
   has the m_heap_start and m_level_size of the partitions *)
Definition valloc (threads cols rows : nat) (m : vmem) (pinfo : list (list nat * list nat)) : option (list vbuf) :=
  match v1_grid threads with
  | None => None
  | Some (hpn, vpn) =>
      let rs := rects hpn vpn cols rows in
      match vlayout threads 0 rs 0 0 0 with
      | None => None
      | Some ss => Some (vcarve_all m rs ss pinfo)
      end
  end.
