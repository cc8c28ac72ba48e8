(* Word- and pointer-level model of building the tree of one partition in Fast MSER V1
   (basicimg/src/img_fast_mser_v1.cpp:23-30, 79-179, 1017-1584, 3471-3491 and
   basicimg/include/img_fast_mser_v1.h:22-116).

   Simplifications, valid for every definition below:
   - four neighbours (m_dir 0..3, m_dir_mask 0x0e00, m_dir_max 0x800: 105-111, 173-178);
     the setting and the offset arithmetic are those of LinkedModel (lcfg4; lnbr is
     1056, bump is 1070 and 1089, hmove is 1071 and 1084-1085, lfind is 1203-1210,
     lgray is the & 0x01ff of 1038, 1046, 1062, 1075, 1203);
   - null mask (img_Mask_Type_Null) only;
   - every partition has its own slices of m_masked_image, m_heap, m_linked_points and
     m_boundary_regions (252-272 and the like); inside a partition an image pointer and
     a heap pointer are offsets from the start of the slice; a region pointer or a
     point index stored in a record is a pair (partition, offset); comptr->m_region,
     m_head and m_tail are the offsets alone;
   - i16 words are their 16 bits, as numbers below 2^16, "negative" is bit 15;
   - m_x, m_y are u16: results are taken modulo 2^16, intermediate values are integers;
   - m_size (i32) and m_unmerged_size (u32) are integers without wrap-around;
   - the regions handed out of m_mser_regions are a list: the block memory grows as
     needed, and after init(2000, sys_false) (1025) nothing is put back for reuse
     (basicmath/include/mt_block_memory.h:47-50, 108-152: max_reuse is 0), so 1175-1199
     has no effect; init computes 1 << 2000 (mt_block_memory.h:127), an undefined shift:
     assumed to give some positive block size (65536 where the count is taken mod 32);
   - values that are only logged (erCount, mser_number, gray at 1093) are dropped;
   - the bounds of an empty component are uninitialised in the code and 0 here, its
     head and tail None.
   Running out of a table or using None where a pointer is needed is VUB. *)
From stdpp Require Import sorting relations functions list.
From Coq Require Import NArith ZArith.
From Verif Require Import FloodModel LinkedModel V1JoinModel.
Local Open Scope nat_scope.

(* img_fast_mser_v1.h:99-104: geometry of the partition and its number *)
Record vcfg := VCfg { v_part : nat; v_left : nat; v_top : nat; v_lc : lcfg }.
(* img_fast_mser_v1.cpp:144-178 *)
Definition vcfg4 (k left top w h : nat) : vcfg := VCfg k left top (lcfg4 w h).

(* img_fast_mser_v1.h:113: m_boundary_regions[0..3], left, right, top, bottom *)
Record vtab := VTab {
  tb_l : option (list (option rref)); tb_r : option (list (option rref));
  tb_t : option (list (option rref)); tb_b : option (list (option rref))
}.

(* img_fast_mser_v1.h:95-115: what a partition keeps between passes *)
Record vbuf := VBuf {
  vb_img : list N;               (* m_masked_image_data *)
  vb_heap : list (option nat);   (* m_heap *)
  vb_hs : list nat;              (* m_heap_start[257] *)
  vb_lvl : list nat;             (* m_level_size[257] *)
  vb_pts : list wpt;             (* m_link_points *)
  vb_tab : vtab
}.

(* ---------- process_tree_patch ---------- *)

(* img_fast_mser_v1.cpp:1363-1364 (gray_mask 0), 1435-1439 (otherwise) and throughout: *img_data -> level, |= mask, ++ *)
Definition vput (gm : N) (src : list N) (m : N) (s : lini) : option lini :=
  match src !! li_sp s with
  | None => None
  | Some v0 =>
      let v := if (gm =? 0)%N then v0 else (0xff - v0)%N in
      match li_lvl s !! N.to_nat v, store (li_img s) (li_ip s) (N.lor v m) with
      | Some n, Some l =>
          Some (LIni l (S (li_ip s)) (<[N.to_nat v := S n]> (li_lvl s)) (S (li_sp s)))
      | _, _ => None
      end
  end.

(* img_fast_mser_v1.cpp:1360-1380, 1383-1402, 1407-1428 and 1433-1513: one row; first
   pixel with mask lm, middle pixels mm, last pixel rm *)
Definition vrow (k : lcfg) (gm : N) (src : list N) (step : nat) (lm mm rm : N) (s : lini)
  : option lini :=
  match put_border s with
  | None => None
  | Some s1 =>
      match vput gm src lm s1 with
      | None => None
      | Some s2 =>
          match for_n (l_w k - 2) (vput gm src mm) s2 with
          | None => None
          | Some s3 =>
              match (if 1 <? l_w k then vput gm src rm s3 else Some s3) with
              | None => None
              | Some s4 =>
                  match put_border s4 with
                  | None => None
                  | Some s5 => Some (LIni (li_img s5) (li_ip s5) (li_lvl s5) (li_sp s5 + (step - l_w k)))
                  end
              end
          end
      end
  end.

(* img_fast_mser_v1.cpp:1329-1332: Boundary_Yes_Mask if there is a table *)
Definition seam_mask (t : option (list (option rref))) : N :=
  match t with None => 0 | Some _ => 0x4000 end.

(* img_fast_mser_v1.cpp:1322-1521: first use of the words; sp0 is the offset of
   img.ptr(m_top, m_left) (1311) *)
Definition vfresh (k : lcfg) (gm : N) (src : list N) (step sp0 : nat) (b : vbuf)
  : option (list N * list nat) :=
  let lm := seam_mask (tb_l (vb_tab b)) in
  let rm := seam_mask (tb_r (vb_tab b)) in
  let tm := seam_mask (tb_t (vb_tab b)) in
  let bm := seam_mask (tb_b (vb_tab b)) in
  let wm := if l_w k =? 1 then rm else 0%N in
  let hm := if l_h k =? 1 then bm else 0%N in
  let top_left := N.lor (N.lor (N.lor lm tm) wm) hm in
  let left_comb := N.lor lm wm in
  let top_comb := N.lor tm hm in
  match for_n (l_w k + 2) put_border (LIni (vb_img b) 0 (replicate 257 0) sp0) with
  | None => None
  | Some s1 =>
      match vrow k gm src step top_left top_comb (N.lor rm top_comb) s1 with
      | None => None
      | Some s2 =>
          match for_n (l_h k - 2) (vrow k gm src step left_comb 0%N rm) s2 with
          | None => None
          | Some s3 =>
              match (if 1 <? l_h k then vrow k gm src step (N.lor bm left_comb) bm (N.lor rm bm) s3
                     else Some s3) with
              | None => None
              | Some s4 =>
                  match for_n (l_w k + 2) put_border s4 with
                  | None => None
                  | Some s5 => Some (li_img s5, li_lvl s5)
                  end
              end
          end
      end
  end.

(* img_fast_mser_v1.cpp:1531-1534: one word of the bright pass after a dark pass *)
Definition vflip (s : list N * nat) : option (list N * nat) :=
  match fst s !! snd s with
  | None => None
  | Some x =>
      Some (<[snd s := N.lor (N.land (0xff + 2 ^ 16 - x) 0x00ff) (N.land x 0x4000)]> (fst s), S (snd s))
  end.
(* img_fast_mser_v1.cpp:1530-1537: one row *)
Definition vflip_row (k : lcfg) (s : list N * nat) : option (list N * nat) :=
  match for_n (l_w k) vflip s with
  | None => None
  | Some s1 => Some (fst s1, snd s1 + 2)
  end.
(* img_fast_mser_v1.cpp:1543-1545: the sizes of the levels change places *)
Definition vswap (s : list nat * nat) : option (list nat * nat) :=
  let '(l, i) := s in
  match l !! i, l !! (255 - i) with
  | Some a, Some c => Some (<[255 - i := a]> (<[i := c]> l), S i)
  | _, _ => None
  end.
(* img_fast_mser_v1.cpp:1523-1546: the words of the dark pass are turned into the bright ones *)
Definition vreuse (k : lcfg) (b : vbuf) : option (list N * list nat) :=
  match for_n (l_h k) (vflip_row k) (vb_img b, l_w k + 2 + 1) with
  | None => None
  | Some (img, _) =>
      match for_n 128 vswap (vb_lvl b, 0) with
      | None => None
      | Some (lvl, _) => Some (img, lvl)
      end
  end.

(* img_fast_mser_v1.cpp:1307-1556; [fresh] is gray_mask == 0 || !m_from_min_max[0] (1321);
   start_iter of LinkedModel is 1551-1552 *)
Definition vprocess (k : lcfg) (fresh : bool) (gm : N) (src : list N) (step sp0 : nat) (b : vbuf)
  : option vbuf :=
  match (if fresh then vfresh k gm src step sp0 b else vreuse k b) with
  | None => None
  | Some (img, lvl) =>
      match vb_hs b !! 0 with
      | None => None
      | Some a =>
          match store (vb_heap b) a None with
          | None => None
          | Some heap0 =>
              match for_n 256 (start_iter lvl) (heap0, vb_hs b, 1) with
              | Some (heap', hs', _) => Some (VBuf img heap' hs' lvl (vb_pts b) (vb_tab b))
              | None => None
              end
          end
      end
  end.

(* ---------- components and regions ---------- *)

(* img_fast_mser_v1.h:80-89 *)
Record vcomp := VComp {
  d_gray : nat; d_reg : option nat; d_size : nat; d_head : option nat; d_tail : option nat;
  d_left : nat; d_right : nat; d_top : nat; d_bot : nat
}.

(* img_fast_mser_v1.cpp:1558-1584: the region after init_comp or new_region; the flag
   m_boundary_region of a new region is set at 1223 or 1255 *)
Definition fresh_wreg (k g bnd : nat) : wreg :=
  WReg (g mod 256) 0 bnd k 0 0 None None None 0 0 0 0.
(* img_fast_mser_v1.cpp:1559, 1570: an empty component of level g with region r *)
Definition fresh_vcomp (g r : nat) : vcomp := VComp g (Some r) 0 None None 0 0 0 0.

(* img_fast_mser_v1.cpp:1222, 1254, 3472: region r gets parent t *)
Definition vset_par (k : nat) (regs : list wreg) (r t : nat) : option (list wreg) :=
  match regs !! r with
  | Some a => Some (<[r := wset_par a (Some (k, t))]> regs)
  | None => None
  end.
(* img_fast_mser_v1.h:46: m_boundary_region *)
Definition wset_bnd (a : wreg) (v : nat) : wreg :=
  WReg (w_gray a) (w_flag a) v (w_patch a) (w_size a) (w_un a) (w_par a) (w_head a) (w_tail a)
       (w_left a) (w_right a) (w_top a) (w_bot a).
(* img_fast_mser_v1.cpp:1119, 3473: assignment to m_boundary_region *)
Definition vset_bnd (regs : list wreg) (r v : nat) : option (list wreg) :=
  match regs !! r with
  | Some a => Some (<[r := wset_bnd a v]> regs)
  | None => None
  end.
(* img_fast_mser_v1.cpp:1169-1173: close the region of a component *)
Definition vclose (k : nat) (regs : list wreg) (r : nat) (c : vcomp) : option (list wreg) :=
  match regs !! r with
  | Some a =>
      Some (<[r := WReg (w_gray a) (w_flag a) (w_bnd a) (w_patch a) (Z.of_nat (d_size c)) (Z.of_nat (d_size c))
                        (w_par a) (pair k <$> d_head c) (pair k <$> d_tail c)
                        (d_left c) (d_right c) (d_top c) (d_bot c)]> regs)
  | None => None
  end.

(* img_fast_mser_v1.cpp:1101-1117: an entry of a table, if the table exists *)
Definition tput (cond : bool) (t : option (list (option rref))) (i : nat) (r : rref)
  : option (option (list (option rref))) :=
  if cond then
    match t with
    | None => Some None
    | Some l => match store l i (Some r) with Some l' => Some (Some l') | None => None end
    end
  else Some t.
(* img_fast_mser_v1.cpp:1101-1117: the tables get the region of the seam pixel (x, y) *)
Definition record_seam (w h : nat) (t : vtab) (x y : nat) (r : rref) : option vtab :=
  match tput (x =? 0) (tb_l t) y r, tput (S x =? w) (tb_r t) y r,
        tput (y =? 0) (tb_t t) x r, tput (S y =? h) (tb_b t) x r with
  | Some a, Some b, Some c, Some d => Some (VTab a b c d)
  | _, _, _, _ => None
  end.

(* img_fast_mser_v1.cpp:1125-1161: the point np with coordinates (x, y) is put in
   front of the list of component c *)
Definition vaccum (k : nat) (c : vcomp) (np x y : nat) (pts : list wpt)
  : option (vcomp * list wpt) :=
  if 0 <? d_size c then
    match d_head c with
    | None => None
    | Some h =>
        match pts !! h with
        | None => None
        | Some q =>
            match store (<[h := WPt (t_x q) (t_y q) (t_next q) (Some (k, np)) (t_ref q)]> pts) np
                        (WPt x y (Some (k, h)) None None) with
            | None => None
            | Some pts' =>
                Some (VComp (d_gray c) (d_reg c) (S (d_size c)) (Some np) (d_tail c)
                        (if x <? d_left c then x else d_left c)
                        (if x <? d_left c then d_right c else if d_right c <? x then x else d_right c)
                        (if y <? d_top c then y else d_top c)
                        (if y <? d_top c then d_bot c else if d_bot c <? y then y else d_bot c), pts')
            end
        end
    end
  else
    match store pts np (WPt x y None None None) with
    | None => None
    | Some pts' => Some (VComp (d_gray c) (d_reg c) (S (d_size c)) (Some np) (Some np) x x y y, pts')
    end.

(* img_fast_mser_v1.cpp:3471-3491: comp1 is c1 (above), comp2 is c2 *)
Definition vmerge_comp (k : nat) (c1 c2 : vcomp) (pts : list wpt) (regs : list wreg)
  : option (vcomp * list wpt * list wreg) :=
  match d_reg c1, d_reg c2 with
  | Some r1, Some r2 =>
      match vset_par k regs r1 r2 with
      | None => None
      | Some regs1 =>
          match regs1 !! r1, regs1 !! r2 with
          | Some a1, Some a2 =>
              match vset_bnd regs1 r2 (Nat.lor (w_bnd a2) (w_bnd a1)) with
              | None => None
              | Some regs2 =>
                  if 0 <? d_size c2 then
                    match d_tail c2, d_head c1 with
                    | Some t2, Some h1 =>
                        match pts !! t2 with
                        | None => None
                        | Some q2 =>
                            let pts1 := <[t2 := WPt (t_x q2) (t_y q2) (Some (k, h1)) (t_prev q2) (t_ref q2)]> pts in
                            match pts1 !! h1 with
                            | None => None
                            | Some q1 =>
                                Some (VComp (d_gray c2) (d_reg c2) (d_size c2 + d_size c1) (d_head c2) (d_tail c1)
                                        (if d_left c1 <? d_left c2 then d_left c1 else d_left c2)
                                        (if d_right c2 <? d_right c1 then d_right c1 else d_right c2)
                                        (if d_top c1 <? d_top c2 then d_top c1 else d_top c2)
                                        (if d_bot c2 <? d_bot c1 then d_bot c1 else d_bot c2),
                                      <[h1 := WPt (t_x q1) (t_y q1) (t_next q1) (Some (k, t2)) (t_ref q1)]> pts1,
                                      regs2)
                            end
                        end
                    | _, _ => None
                    end
                  else
                    Some (VComp (d_gray c2) (d_reg c2) (d_size c2 + d_size c1) (d_head c1) (d_tail c1)
                            (d_left c1) (d_right c1) (d_top c1) (d_bot c1), pts, regs2)
              end
          | _, _ => None
          end
      end
  | _, _ => None
  end.

(* img_fast_mser_v1.cpp:1218-1227, 1250-1259: raise component c to level g *)
Definition vraise (k g : nat) (c : vcomp) (regs : list wreg) : option (vcomp * list wreg) :=
  match d_reg c with
  | None => None
  | Some r =>
      match regs !! r, vset_par k regs r (length regs) with
      | Some a, Some regs1 =>
          Some (VComp g (Some (length regs)) (d_size c) (d_head c) (d_tail c)
                  (d_left c) (d_right c) (d_top c) (d_bot c),
                regs1 ++ [fresh_wreg k g (w_bnd a)])
      | _, _ => None
      end
  end.

(* img_fast_mser_v1.cpp:1234-1264: merging loop; c is *comptr, rest the slots below *)
Fixpoint vmerge (k g : nat) (c : vcomp) (rest : list vcomp) (pts : list wpt) (regs : list wreg)
  : option (list vcomp * list wpt * list wreg) :=
  match rest with
  | [] => None
  | c2 :: rest' =>
      match vmerge_comp k c c2 pts regs with
      | None => None
      | Some (c2', pts', regs') =>
          if g <=? d_gray c2' then Some (c2' :: rest', pts', regs')
          else match rest' with
               | [] => None
               | c3 :: _ =>
                   if g <? d_gray c3 then
                     match vraise k g c2' regs' with
                     | Some (c2'', regs'') => Some (c2'' :: rest', pts', regs'')
                     | None => None
                     end
                   else vmerge k g c2' rest' pts' regs'
               end
      end
  end.

(* img_fast_mser_v1.cpp:1216-1265 *)
Definition vup_comp (k g : nat) (c : vcomp) (rest : list vcomp) (pts : list wpt) (regs : list wreg)
  : option (list vcomp * list wpt * list wreg) :=
  match rest with
  | [] => None
  | c2 :: _ =>
      if g <? d_gray c2 then
        match vraise k g c regs with
        | Some (c', regs') => Some (c' :: rest, pts, regs')
        | None => None
        end
      else vmerge k g c rest pts regs
  end.

(* ---------- make_tree_patch ---------- *)

(* img_fast_mser_v1.cpp:1027-1050: the variables of the loop; z_hc is
   heap_cur - m_heap_start, z_np is ptsptr - m_link_points; component stack top first *)
Record vst := VSt {
  z_img : list N; z_cur : nat; z_hc : nat;
  z_heap : list (option nat); z_hs : list nat;
  z_pts : list wpt; z_np : nat;
  z_comps : list vcomp; z_regs : list wreg; z_tab : vtab
}.
(* img_fast_mser_v1.cpp:1052-1269: outcome of an iteration; VUB: undefined behaviour *)
Inductive vres := VNext (s : vst) | VHalt (s : vst) | VUB.

Section pass.
Context (k : vcfg).

(* img_fast_mser_v1.cpp:1165-1166, 1213-1214: take the top pixel of stack hc *)
Definition vtake (img : list N) (heap : list (option nat)) (hs : list nat) (hc : nat)
  (pts : list wpt) (np : nat) (comps : list vcomp) (regs : list wreg) (tab : vtab) : vres :=
  match heap_top heap hs hc, heap_pop hs hc with
  | Some (Some p), Some hs' => VNext (VSt img p hc heap hs' pts np comps regs tab)
  | _, _ => VUB
  end.

(* img_fast_mser_v1.cpp:1055-1089: one iteration of the tour; w is the word of the
   current pixel. m_comp has 256 slots (h:110). *)
Definition vtour (s : vst) (w : N) : vres :=
  match lnbr (v_lc k) (z_img s) (z_cur s) (N.to_nat (N.shiftr (N.land w (l_mask (v_lc k))) 9)) with
  | None => VUB
  | Some q =>
      match z_img s !! q with
      | None => VUB
      | Some wq0 =>
          if (wq0 <? 0x8000)%N then
            let wq := N.lor wq0 0x8000 in
            let img1 := <[q := wq]> (z_img s) in
            match img1 !! z_cur s, bump img1 (z_cur s) with
            | Some wc, Some img2 =>
                let o := (Z.of_nat (lgray wq) - Z.of_nat (lgray wc))%Z in
                match hmove (z_hc s) o with
                | None => VUB
                | Some hc' =>
                    if (o <? 0)%Z then
                      match heap_push (z_heap s) (z_hs s) (z_hc s) (z_cur s) with
                      | None => VUB
                      | Some (heap', hs') =>
                          match img2 !! q with
                          | Some wn =>
                              if length (z_comps s) <? 256 then
                                VNext (VSt img2 q hc' heap' hs' (z_pts s) (z_np s)
                                  (fresh_vcomp (lgray wn) (length (z_regs s)) :: z_comps s)
                                  (z_regs s ++ [fresh_wreg (v_part k) (lgray wn) 0]) (z_tab s))
                              else VUB
                          | None => VUB
                          end
                      end
                    else
                      match heap_push (z_heap s) (z_hs s) hc' q with
                      | None => VUB
                      | Some (heap', hs') =>
                          VNext (VSt img2 (z_cur s) (z_hc s) heap' hs' (z_pts s) (z_np s)
                                     (z_comps s) (z_regs s) (z_tab s))
                      end
                end
            | _, _ => VUB
            end
          else
            match bump (z_img s) (z_cur s) with
            | Some img2 => VNext (VSt img2 (z_cur s) (z_hc s) (z_heap s) (z_hs s) (z_pts s) (z_np s)
                                      (z_comps s) (z_regs s) (z_tab s))
            | None => VUB
            end
      end
  end.

(* img_fast_mser_v1.cpp:1093-1268: finish the current pixel and take the next one;
   ioptr is the pixel (1, 1) of the bordered image *)
Definition vfinish (s : vst) (w : N) : vres :=
  let wd := Z.of_nat (l_w (v_lc k) + 2) in
  let imsk := (Z.of_nat (z_cur s) - (wd + 1))%Z in
  let y := Z.to_nat (Z.quot imsk wd mod 2 ^ 16) in
  let x := Z.to_nat ((imsk - Z.of_nat y * wd) mod 2 ^ 16) in
  match z_comps s with
  | [] => VUB
  | c :: rest =>
      match d_reg c with
      | None => VUB
      | Some r =>
          match
            (if (N.land w 0x4000 =? 0)%N then Some (z_tab s, z_regs s)
             else match record_seam (l_w (v_lc k)) (l_h (v_lc k)) (z_tab s) x y (v_part k, r),
                        vset_bnd (z_regs s) r 1 with
                  | Some t', Some regs' => Some (t', regs')
                  | _, _ => None
                  end) with
          | None => VUB
          | Some (tab, regs0) =>
              match vaccum (v_part k) c (z_np s) ((x + v_left k) mod 2 ^ 16) ((y + v_top k) mod 2 ^ 16) (z_pts s) with
              | None => VUB
              | Some (c', pts2) =>
                  match heap_top (z_heap s) (z_hs s) (z_hc s) with
                  | None => VUB
                  | Some (Some _) =>
                      vtake (z_img s) (z_heap s) (z_hs s) (z_hc s) pts2 (S (z_np s)) (c' :: rest) regs0 tab
                  | Some None =>
                      match vclose (v_part k) regs0 r c' with
                      | None => VUB
                      | Some regs1 =>
                          match lfind (z_heap s) (z_hs s) (S (z_hc s)) (S (lgray w)) (256 - lgray w) with
                          | None => VUB
                          | Some None =>
                              VHalt (VSt (z_img s) (z_cur s) (z_hc s) (z_heap s) (z_hs s) pts2 (S (z_np s))
                                         (c' :: rest) regs1 tab)
                          | Some (Some (hc, g)) =>
                              match vup_comp (v_part k) g c' rest pts2 regs1 with
                              | None => VUB
                              | Some (comps', pts3, regs2) =>
                                  vtake (z_img s) (z_heap s) (z_hs s) hc pts3 (S (z_np s)) comps' regs2 tab
                              end
                          end
                      end
                  end
              end
          end
      end
  end.

(* img_fast_mser_v1.cpp:1054-1268 *)
Definition vkstep (s : vst) : vres :=
  match z_img s !! z_cur s with
  | None => VUB
  | Some w => if (N.land w (l_mask (v_lc k)) <? l_max (v_lc k))%N then vtour s w else vfinish s w
  end.

(* img_fast_mser_v1.cpp:1052: n iterations of the loop *)
Fixpoint vkrun (n : nat) (s : vst) : vres :=
  match n with
  | O => VNext s
  | S n' => match vkstep s with VNext s' => vkrun n' s' | r => r end
  end.

(* img_fast_mser_v1.cpp:1025-1046: entry of the loop *)
Definition vkinit (b : vbuf) : vres :=
  let p := l_w (v_lc k) + 2 + 1 in
  match vb_img b !! p with
  | None => VUB
  | Some w =>
      let img := <[p := N.lor w 0x8000]> (vb_img b) in
      VNext (VSt img p (lgray w) (vb_heap b) (vb_hs b) (vb_pts b) 0
              [fresh_vcomp (lgray w) 0; VComp 257 None 0 None None 0 0 0 0]
              [fresh_wreg (v_part k) (lgray w) 0] (vb_tab b))
  end.
End pass.

(* img_fast_mser_v1.cpp:1017-1305: result of make_tree_patch: the regions and the
   buffers; VMore: budget used up *)
Inductive vout := VTree (regs : list wreg) (b : vbuf) | VBad | VMore.

(* img_fast_mser_v1.cpp:1017-1305; step is img.step()[0] *)
Definition vmake_tree (n : nat) (k : vcfg) (fresh : bool) (gm : N) (src : list N) (step : nat) (b : vbuf)
  : vout :=
  match vprocess (v_lc k) fresh gm src step (v_top k * step + v_left k) b with
  | None => VBad
  | Some b1 =>
      match vkinit k b1 with
      | VNext s =>
          match vkrun k n s with
          | VHalt s' => VTree (z_regs s') (VBuf (z_img s') (z_heap s') (z_hs s') (vb_lvl b1) (z_pts s') (z_tab s'))
          | VNext _ => VMore
          | VUB => VBad
          end
      | _ => VBad
      end
  end.
