(* Model of recognition and extraction in CV-MSER+
   (basicimg/src/img_linked_linear_mser.cpp:66-82, 596-684, 804-871, 926-1009, 1162-1196)
   and of a call of img_mser_base::extract with it (basicimg/src/img_mser_base.cpp:74-116).

   Simplifications, valid for every definition below:
   - pointers into m_regions and m_points are offsets as in LinkedModel;
   - m_var of the regions is kept in a function next to the region table; it holds
     arbitrary values before it is computed;
   - m_gray_order_regions is m_heap seen as an array of region pointers (808): only the
     number of its entries is kept; what becomes of the contents of m_heap is a
     parameter of a call;
   - decrementing a zero counter (which would wrap around) is the result None, like
     undefined behaviour, and the theorems exclude both;
   - loops over links take a step budget; running out of it is the result None;
   - totalUnkonwSize and the other numbers that are only logged, and the reserve of 822,
     are dropped; the assertions 863 and 1003 are checked (None). *)
From stdpp Require Import sorting relations functions list.
From Coq Require Import NArith ZArith SpecFloat.
From Verif Require Import FloodModel FloatModel RectModel RecogModel LinkedModel.
Local Open Scope nat_scope.

(* img_linked_linear_mser.cpp:615, 643, 811, 825, 855, 866, 958: for (i = 0; i < number; ++i) over the regions of a list *)
Fixpoint cv_each {X : Type} (f : X -> nat -> option X) (l : list nat) (s : X) : option X :=
  match l with
  | [] => Some s
  | x :: l' => match f s x with Some s' => cv_each f l' s' | None => None end
  end.

(* img_linked_linear_mser.cpp:622,629,655,661,845,847,868: region.m_region_flag = f *)
Definition cv_flag (a : lreg) (f : nat) : lreg :=
  LReg (n_gray a) f (n_child a) (n_size a) (n_parent a) (n_head a) (n_tail a).

(* ---------- variation ---------- *)

(* img_linked_linear_mser.cpp:72-75 *)
Fixpoint cv_climb (n : nat) (regs : list lreg) (thr : Z) (temp : nat) (parent : option nat)
  : option (nat * option nat) :=
  match n with
  | O => None
  | S n' =>
      match parent with
      | None => Some (temp, None)
      | Some y =>
          match regs !! y with
          | None => None
          | Some b => if (Z.of_nat (n_gray b) <=? thr)%Z then cv_climb n' regs thr y (n_parent b)
                      else Some (temp, Some y)
          end
      end
  end.

(* img_linked_linear_mser.cpp:66-82 calculate_variation: the new m_var *)
Definition cv_variation (n : nat) (P : rparam) (regs : list lreg) (x : nat) : option flt :=
  match regs !! x with
  | None => None
  | Some a =>
      match add_z (Z.of_nat (n_gray a)) (p_delta P) with
      | None => None
      | Some thr =>
          match cv_climb n regs thr x (n_parent a) with
          | None => None
          | Some (t, p) =>
              match regs !! t with
              | None => None
              | Some b =>
                  if (match p with Some _ => true | None => false end) || (Z.of_nat (n_gray b) =? thr)%Z
                  then match n_size b, n_size a with
                       | Some m, Some k => Some (f32_growth m k)
                       | _, _ => None
                       end
                  else Some fminus1
              end
          end
      end
  end.

(* ---------- recognize_mser_normal ---------- *)

(* img_linked_linear_mser.cpp:601-684: what the two loops change: the regions, m_var,
   m_level_size *)
Record cvst := CvSt { cs_regs : list lreg; cs_var : nat -> flt; cs_lvl : list nat }.

(* img_linked_linear_mser.cpp:628: size limits and root test; None = size not set *)
Definition cv_bad (P : rparam) (a : lreg) : option bool :=
  match n_size a with
  | None => None
  | Some k => Some ((Z.of_nat k <? p_min P)%Z || (p_max P <? Z.of_nat k)%Z ||
                    match n_parent a with None => true | Some _ => false end)
  end.

(* img_linked_linear_mser.cpp:615-635: one region of the first loop *)
Definition cv_base (n : nat) (P : rparam) (s : cvst) (x : nat) : option cvst :=
  match (if (0 <? p_delta P)%Z then
           match cv_variation n P (cs_regs s) x with
           | None => None
           | Some v => Some (<[x := v]> (cs_var s))
           end
         else Some (cs_var s)) with
  | None => None
  | Some var =>
      match cs_regs s !! x with
      | None => None
      | Some a =>
          if (0 <? p_delta P)%Z && fgt (var x) (p_stable P)
          then Some (CvSt (<[x := cv_flag a 1]> (cs_regs s)) var (cs_lvl s))
          else match cv_bad P a with
               | None => None
               | Some true => Some (CvSt (<[x := cv_flag a 1]> (cs_regs s)) var (cs_lvl s))
               | Some false => Some (CvSt (cs_regs s) var (lvl_inc (cs_lvl s) (n_gray a)))
               end
      end
  end.

(* img_linked_linear_mser.cpp:654-658, 660-664 *)
Definition cv_kill (s : cvst) (z : nat) : option cvst :=
  match cs_regs s !! z with
  | None => None
  | Some c =>
      if n_flag c =? 1 then Some s else
      match lvl_dec (cs_lvl s) (n_gray c) with
      | Some lvl' => Some (CvSt (<[z := cv_flag c 1]> (cs_regs s)) (cs_var s) lvl')
      | None => None
      end
  end.

(* img_linked_linear_mser.cpp:643-667: one region of the suppression loop *)
Definition cv_nms (P : rparam) (s : cvst) (x : nat) : option cvst :=
  match cs_regs s !! x with
  | None => None
  | Some a =>
      match n_parent a with
      | None => Some s
      | Some y =>
          match cs_regs s !! y with
          | None => None
          | Some b =>
              if (n_flag a =? 1) && (n_flag b =? 1) then Some s else
              if fge (cs_var s x) fzero && fge (cs_var s y) fzero && (n_gray b =? n_gray a + 1) then
                let d := var_diff (cs_var s y) (cs_var s x) in
                if fgt d (f64_of_f32 (p_nms P)) then cv_kill s y else
                if fgt (SFopp d) (f64_of_f32 (p_nms P)) then cv_kill s x else Some s
              else Some s
          end
      end
  end.

(* ---------- remove_duplicated ---------- *)

(* img_linked_linear_mser.cpp:812-816: one region of the counting sort; the array and
   m_start_indexes *)
Definition cv_scatter (regs : list lreg) (t : list (option nat) * list nat) (x : nat)
  : option (list (option nat) * list nat) :=
  let '(out, starts) := t in
  match regs !! x with
  | None => None
  | Some a =>
      if n_flag a =? 1 then Some t else
      match starts !! n_gray a with
      | None => None
      | Some i => match store out i (Some x) with
                  | Some out' => Some (out', <[n_gray a := S i]> starts)
                  | None => None
                  end
      end
  end.

(* img_linked_linear_mser.cpp:805-817: the candidates in order; [cap] is m_heap_size;
   m_gray_order_region_size is m_start_indexes[256] before the loop; None also if an
   entry is not written *)
Definition cv_order (cap : nat) (regs : list lreg) (lvl : list nat) : option (list nat) :=
  let starts := integral 0 (take 256 lvl) in
  match starts !! 256, cv_each (cv_scatter regs) (seq 0 (length regs)) (replicate cap None, starts) with
  | Some size, Some (out, _) => if size <=? cap then mapM (fun o => o) (take size out) else None
  | _, _ => None
  end.

(* img_linked_linear_mser.cpp:1162-1196 get_duplicated_regions: the regions pushed *)
Fixpoint cv_duplicated (n : nat) (P : rparam) (regs : list lreg) (stable : nat) (parent : option nat)
  : option (list nat) :=
  match n with
  | O => None
  | S n' =>
      match parent with
      | None => Some []
      | Some y =>
          match regs !! y with
          | None => None
          | Some b =>
              match n_size b with
              | None => None
              | Some k =>
                  if (p_max P <? Z.of_nat k)%Z then Some [] else
                  if fgt (f64_growth k stable) (f64_of_f32 (p_dup P)) then Some [] else
                  match cv_duplicated n' P regs stable (n_parent b) with
                  | None => None
                  | Some l => Some (if (n_flag b =? 2) || (n_flag b =? 1) then l else y :: l)
                  end
              end
          end
      end
  end.

(* img_linked_linear_mser.cpp:843-850: the loop over the list, index by index *)
Fixpoint cv_mark_list (regs : list lreg) (j middle : nat) (l : list nat) : option (list lreg) :=
  match l with
  | [] => Some regs
  | x :: l' =>
      match regs !! x with
      | Some a => cv_mark_list (<[x := cv_flag a (if j =? middle then 2 else 1)]> regs) (S j) middle l'
      | None => None
      end
  end.

(* img_linked_linear_mser.cpp:857, 867, 1175: m_size of the region at x *)
Definition cv_size (regs : list lreg) (x : nat) : option nat :=
  match regs !! x with Some a => n_size a | None => None end.

(* img_linked_linear_mser.cpp:825-851: one candidate; state with validCount *)
Definition cv_dedup_one (n : nat) (P : rparam) (t : list lreg * nat) (x : nat) : option (list lreg * nat) :=
  let '(regs, count) := t in
  match regs !! x with
  | None => None
  | Some a =>
      if negb (n_flag a =? 0) then Some t else
      match n_size a with
      | None => None
      | Some k =>
          match cv_duplicated n P regs k (n_parent a) with
          | None => None
          | Some l1 =>
              let dup := x :: l1 in
              let middle := length dup / 2 in
              match
                (if 0 <? middle then
                   match dup !! middle, last dup with
                   | Some m, Some e =>
                       match cv_size regs m, regs !! e with
                       | Some km, Some ce => cv_duplicated n P regs km (n_parent ce)
                       | _, _ => None
                       end
                   | _, _ => None
                   end
                 else Some []) with
              | None => None
              | Some l2 =>
                  match cv_mark_list regs 0 middle (dup ++ l2) with
                  | Some regs' => Some (regs', S count)
                  | None => None
                  end
              end
          end
      end
  end.

(* img_linked_linear_mser.cpp:853-860: keep the valid candidates (written over the front
   of the array being read) *)
Definition cv_valid (regs : list lreg) (x : nat) : bool :=
  match regs !! x with Some a => n_flag a =? 2 | None => false end.

(* img_linked_linear_mser.cpp:854-857, 865-867: m_channel_total_pixel_number, an u32 *)
Definition cv_total (regs : list lreg) (l : list nat) : option N :=
  cv_each (fun acc x => match cv_size regs x with
                        | Some k => Some ((acc + N.of_nat k) mod 2 ^ 32)%N
                        | None => None
                        end) l 0%N.

(* img_linked_linear_mser.cpp:868 *)
Definition cv_mark2 (regs : list lreg) (x : nat) : option (list lreg) :=
  match regs !! x with Some a => Some (<[x := cv_flag a 2]> regs) | None => None end.

(* img_linked_linear_mser.cpp:819-870; the regions, m_gray_order_regions up to its size
   and m_channel_total_pixel_number *)
Definition cv_dedup (n : nat) (P : rparam) (regs : list lreg) (l : list nat)
  : option (list lreg * list nat * N) :=
  match
    (if fgt (p_dup P) fzero then
       match cv_each (cv_dedup_one n P) l (regs, 0) with
       | None => None
       | Some (regs', count) =>
           let l' := List.filter (cv_valid regs') l in
           if length l' =? count then Some (regs', l') else None
       end
     else match cv_each cv_mark2 l regs with
          | None => None
          | Some regs' => Some (regs', l)
          end) with
  | None => None
  | Some (regs', l') => match cv_total regs' l' with
                        | Some total => Some (regs', l', total)
                        | None => None
                        end
  end.

(* img_linked_linear_mser.cpp:601-684 recognize_mser_normal *)
Definition cv_recognize (n : nat) (P : rparam) (cap : nat) (regs : list lreg) (var0 : nat -> flt)
  : option (list lreg * list nat * N) :=
  match cv_each (cv_base n P) (seq 0 (length regs)) (CvSt regs var0 lvl0) with
  | None => None
  | Some s1 =>
      match (if (0 <? p_delta P)%Z && fge (p_nms P) fzero
             then cv_each (cv_nms P) (seq 0 (length (cs_regs s1))) s1 else Some s1) with
      | None => None
      | Some s2 =>
          match cv_order cap (cs_regs s2) (cs_lvl s2) with
          | None => None
          | Some l => cv_dedup n P (cs_regs s2) l
          end
      end
  end.

(* ---------- extract_pixel_share_memory ---------- *)

(* img_mser_base.h:33-39: a record; [cr_pts] is the offset of m_points in the memory; the
   memory type is always Memory_Type_Share *)
Record cvrec := CvRec { cr_gray : nat; cr_size : nat; cr_pts : nat; cr_rect : rect }.
(* img_mser_base.h:59-61 *)
Record cvres := CvRes { cv_mem : list (option (Z * Z)); cv_ms : list cvrec }.

(* img_linked_linear_mser.cpp:975-978: colMin, colMax, rowMin, rowMax *)
Record cvbox := CvBox { bx_l : Z; bx_r : Z; bx_t : Z; bx_b : Z }.

(* img_linked_linear_mser.cpp:985-995 *)
Definition cv_grow (b : cvbox) (x y : Z) : cvbox :=
  let '(l, r) := if (bx_r b <? x)%Z then (bx_l b, x)
                 else if (x <? bx_l b)%Z then (x, bx_r b) else (bx_l b, bx_r b) in
  let '(t, d) := if (bx_b b <? y)%Z then (bx_t b, y)
                 else if (y <? bx_t b)%Z then (y, bx_b b) else (bx_t b, bx_b b) in
  CvBox l r t d.

(* img_linked_linear_mser.cpp:980-998: copy [n] points to offset [off] on *)
Fixpoint cv_copy (pts : list lpt) (mem : list (option (Z * Z))) (o : option nat) (off n : nat) (b : cvbox)
  : option (list (option (Z * Z)) * cvbox) :=
  match n with
  | O => Some (mem, b)
  | S n' =>
      match o with
      | None => None
      | Some i =>
          match pts !! i with
          | None => None
          | Some p =>
              match store mem off (Some (p_x p, p_y p)) with
              | None => None
              | Some mem' => cv_copy pts mem' (p_next p) (S off) n' (cv_grow b (p_x p) (p_y p))
              end
          end
      end
  end.

(* img_linked_linear_mser.cpp:958-1001: one region; the memory, the records so far and
   memory_offset; set_rect is mt_rect_t.h:96-101 *)
Definition cv_record (gm : N) (regs : list lreg) (pts : list lpt)
  (t : list (option (Z * Z)) * list cvrec * nat) (x : nat) : option (list (option (Z * Z)) * list cvrec * nat) :=
  let '(mem, ms, off) := t in
  match regs !! x with
  | None => None
  | Some a =>
      match n_size a, n_head a with
      | Some k, Some i =>
          match pts !! i with
          | None => None
          | Some p =>
              match cv_copy pts mem (Some i) off k (CvBox (p_x p) (p_x p) (p_y p) (p_y p)) with
              | None => None
              | Some (mem', b) =>
                  Some (mem', ms ++ [CvRec (if (gm =? 0)%N then n_gray a else 255 - n_gray a) k off
                                       (Rect (bx_l b) (bx_t b) (bx_r b - bx_l b + 1) (bx_b b - bx_t b + 1))],
                        off + k)
              end
          end
      | _, _ => None
      end
  end.

(* img_linked_linear_mser.cpp:926-1003; region_memory_size is an i32: a total of 2^31 or
   more becomes negative and the size passed to malloc is about 2^64, so the allocation
   fails (None) *)
Definition cv_extract (gm : N) (regs : list lreg) (pts : list lpt) (l : list nat) (total : N) : option cvres :=
  if (total <? 2 ^ 31)%N then
    match cv_each (cv_record gm regs pts) l (replicate (N.to_nat total) None, [], 0) with
    | None => None
    | Some (mem, ms, off) => if off =? N.to_nat total then Some (CvRes mem ms) else None
    end
  else None.

(* ---------- a call ---------- *)

(* img_mser_base.cpp:90-109: what a channel takes apart from the image: contents of uninitialised memory, and what
   becomes of m_heap *)
Record cvchan := CvChan { cc_var0 : nat -> flt; cc_dirt : list (option nat) -> list (option nat) }.

(* img_mser_base.cpp:92-106: one channel; [k] is the configuration *)
Definition cv_channel (n : nat) (k : lcfg) (gm : N) (src : list N) (step : nat) (P : rparam)
  (b : lbuf) (c : cvchan) : option (cvres * lbuf) :=
  match lbuild n k gm src step b with
  | LTree regs b' =>
      match cv_recognize n P (length (lb_heap b')) regs (cc_var0 c) with
      | None => None
      | Some (regs', l, total) =>
          match cv_extract gm regs' (lb_pts b') l total with
          | None => None
          | Some R => Some (R, LBuf (lb_img b') (cc_dirt c (lb_heap b')) (lb_hs b') (lb_pts b'))
          end
      end
  | _ => None
  end.

(* img_mser_base.cpp:89-108: the channels that are asked for *)
Definition cv_none : cvres := CvRes [] [].
(* img_mser_base.cpp:89-108: dark and bright channel of a call *)
Definition cv_call (n : nat) (k : lcfg) (dark bright : bool) (src : list N) (step : nat) (P : rparam)
  (b : lbuf) (c0 c1 : cvchan) : option (cvres * cvres) :=
  match (if dark then cv_channel n k 0 src step P b c0 else Some (cv_none, b)) with
  | None => None
  | Some (R0, b1) =>
      match (if bright then cv_channel n k 255 src step P b1 c1 else Some (cv_none, b1)) with
      | None => None
      | Some (R1, _) => Some (R0, R1)
      end
  end.

(* basicimg/src/img_mser_helper.cpp:55-64, 205-209: reading a record of type
   Memory_Type_Share: m_points[0] to m_points[m_size - 1]; None = not written or outside *)
Definition cv_read (R : cvres) (m : cvrec) : option (list (Z * Z)) :=
  let l := take (cr_size m) (drop (cr_pts m) (cv_mem R)) in
  if length l =? cr_size m then mapM (fun o => o) l else None.
