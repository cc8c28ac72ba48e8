(* Word- and pointer-level model of building the tree in CV-MSER+, the linear
   implementation with linked pixel lists (basicimg/src/img_linked_linear_mser.cpp:6-64,
   118-121, 189-229, 255-321, 428-576, 1141-1145 and
   basicimg/include/img_linked_linear_mser.h:33-102).

   Simplifications, valid for every definition below:
   - a pointer into one of the arrays m_masked_image, m_heap, m_points, m_regions
     is the nat offset from the start of the array, None is the null pointer or an
     uninitialised one;
   - null mask (img_Mask_Type_Null, 292-321) only; the active rectangle is the whole
     image (120);
   - offsets and sizes are not wrapped (the bordered area is assumed to be below 2^31);
     the coordinates of a point are i32 (mt_point is mt_point_t<i32>);
   - i16 words are their 16 bits, as numbers below 2^16, "negative" is bit 15;
   - the regions already handed out of m_regions are a list, the size of the array
     is kept as a bound;
   - values that are only logged or compared by an assertion (mser_number, erCount,
     er_number) are dropped, so is m_short_cut_offset / m_calculated_var, used by
     functions that are never called;
   - *++p = x, top and pop of a boundary stack are heap_push, heap_top, heap_pop of
     FloodModel (here 484-485, 496-497; 512-513, 524, 533; 514, 534). *)
From stdpp Require Import sorting relations functions list.
From Coq Require Import NArith ZArith.
From Verif Require Import FloodModel.
Local Open Scope nat_scope.

(* img_linked_linear_mser.h:83,100-102: size of the image, m_dir, m_dir_mask, m_dir_max *)
Record lcfg := LCfg { l_w : nat; l_h : nat; l_dirs : list Z; l_mask : N; l_max : N }.

(* img_linked_linear_mser.cpp:255,270-275: four neighbours *)
Definition lcfg4 (w h : nat) : lcfg :=
  let rs := Z.of_nat (w + 2) in
  LCfg w h [1; - rs; -1; rs]%Z 0x0e00 0x800.

(* img_linked_linear_mser.cpp:255-268: eight neighbours *)
Definition lcfg8 (w h : nat) : lcfg :=
  let rs := Z.of_nat (w + 2) in
  LCfg w h [1; 1 - rs; - rs; -1 - rs; -1; -1 + rs; rs; 1 + rs]%Z 0x1e00 0x1000.

(* img_linked_linear_mser.h:35-40 *)
Record lpt := LPt { p_prev : option nat; p_next : option nat; p_x : Z; p_y : Z }.

(* img_linked_linear_mser.h:42-68; the size is uninitialised until the region is closed *)
Record lreg := LReg {
  n_gray : nat; n_flag : nat; n_child : nat; n_size : option nat;
  n_parent : option nat; n_head : option nat; n_tail : option nat
}.

(* img_linked_linear_mser.h:70-78 *)
Record lcomp := LComp {
  q_gray : nat; q_reg : option nat; q_size : nat; q_head : option nat; q_tail : option nat
}.

(* img_linked_linear_mser.h:80-96: the arrays that survive between passes *)
Record lbuf := LBuf {
  lb_img : list N;              (* m_masked_image *)
  lb_heap : list (option nat);  (* m_heap *)
  lb_hs : list nat;             (* m_heap_start[257] *)
  lb_pts : list lpt             (* m_points *)
}.

(* ---------- pre_process_image ---------- *)

(* img_linked_linear_mser.cpp:281-294: loop variables imgptr, level_size, srcptr *)
Record lini := LIni { li_img : list N; li_ip : nat; li_lvl : list nat; li_sp : nat }.

(* img_linked_linear_mser.cpp:289,298,306,312,318,429: *imgptr++ = -1 *)
Definition put_border (s : lini) : option lini :=
  match store (li_img s) (li_ip s) 0xffff%N with
  | Some l => Some (LIni l (S (li_ip s)) (li_lvl s) (li_sp s))
  | None => None
  end.

(* img_linked_linear_mser.cpp:303-304 (gray_mask 0) and 314-316 (otherwise) *)
Definition put_pixel (gm : N) (src : list N) (s : lini) : option lini :=
  match src !! li_sp s with
  | None => None
  | Some v0 =>
      let v := if (gm =? 0)%N then v0 else (0xff - v0)%N in
      match li_lvl s !! N.to_nat v, store (li_img s) (li_ip s) v with
      | Some n, Some l =>
          Some (LIni l (S (li_ip s)) (<[N.to_nat v := S n]> (li_lvl s)) (S (li_sp s)))
      | _, _ => None
      end
  end.

(* img_linked_linear_mser.cpp:298-307, 312-319: one row; [step] is src.step()[0] *)
Definition put_row (k : lcfg) (gm : N) (src : list N) (step : nat) (s : lini) : option lini :=
  match put_border s with
  | None => None
  | Some s1 =>
      match for_n (l_w k) (put_pixel gm src) s1 with
      | None => None
      | Some s2 =>
          match put_border s2 with
          | None => None
          | Some s3 => Some (LIni (li_img s3) (li_ip s3) (li_lvl s3) (li_sp s3 + (step - l_w k)))
          end
      end
  end.

(* img_linked_linear_mser.cpp:433-436: one iteration, i from 1 *)
Definition start_iter (lvl : list nat) (s : list (option nat) * list nat * nat)
  : option (list (option nat) * list nat * nat) :=
  let '(heap, hs, i) := s in
  match hs !! (i - 1), lvl !! (i - 1) with
  | Some a, Some n =>
      match store hs i (a + n + 1) with
      | Some hs' => match store heap (a + n + 1) None with
                    | Some heap' => Some (heap', hs', S i)
                    | None => None
                    end
      | None => None
      end
  | _, _ => None
  end.

(* img_linked_linear_mser.cpp:279-437 *)
Definition pre_process (k : lcfg) (gm : N) (src : list N) (step : nat) (b : lbuf) : option lbuf :=
  match for_n (l_w k + 2) put_border (LIni (lb_img b) 0 (replicate 257 0) 0) with
  | None => None
  | Some s1 =>
      match for_n (l_h k) (put_row k gm src step) s1 with
      | None => None
      | Some s2 =>
          match for_n (l_w k + 2) put_border s2 with
          | None => None
          | Some s3 =>
              match lb_hs b !! 0 with
              | None => None
              | Some a =>
                  match store (lb_heap b) a None with
                  | None => None
                  | Some heap0 =>
                      match for_n 256 (start_iter (li_lvl s3)) (heap0, lb_hs b, 1) with
                      | Some (heap', hs', _) => Some (LBuf (li_img s3) heap' hs' (lb_pts b))
                      | None => None
                      end
                  end
              end
          end
      end
  end.

(* ---------- points, components, regions ---------- *)

(* img_linked_linear_mser.cpp:40,54,55,57: point->m_prev = v *)
Definition set_prev (pts : list lpt) (i : nat) (v : option nat) : option (list lpt) :=
  match pts !! i with
  | Some p => Some (<[i := LPt v (p_next p) (p_x p) (p_y p)]> pts)
  | None => None
  end.
(* img_linked_linear_mser.cpp:39,53,58: point->m_next = v *)
Definition set_next (pts : list lpt) (i : nat) (v : option nat) : option (list lpt) :=
  match pts !! i with
  | Some p => Some (<[i := LPt (p_prev p) v (p_x p) (p_y p)]> pts)
  | None => None
  end.
(* img_linked_linear_mser.cpp:506-507: the coordinates of a point *)
Definition set_xy (pts : list lpt) (i : nat) (x y : Z) : option (list lpt) :=
  match pts !! i with
  | Some p => Some (<[i := LPt (p_prev p) (p_next p) x y]> pts)
  | None => None
  end.

(* img_linked_linear_mser.cpp:6-29: a region record fresh from init_comp (child 0)
   or new_region (child 1) *)
Definition fresh_lreg (g child : nat) : lreg := LReg (g mod 256) 0 child None None None None.

(* img_linked_linear_mser.cpp:51-64 *)
Definition accumulate_comp (c : lcomp) (i : nat) (pts : list lpt) : option (lcomp * list lpt) :=
  if 0 <? q_size c then
    match q_head c with
    | None => None
    | Some h =>
        match set_next pts i (Some h) with
        | None => None
        | Some pts1 =>
            match set_prev pts1 h (Some i) with
            | None => None
            | Some pts2 =>
                match set_prev pts2 i None with
                | None => None
                | Some pts3 =>
                    Some (LComp (q_gray c) (q_reg c) (S (q_size c)) (Some i) (q_tail c), pts3)
                end
            end
        end
    end
  else
    match set_prev pts i None with
    | None => None
    | Some pts1 =>
        match set_next pts1 i None with
        | None => None
        | Some pts2 => Some (LComp (q_gray c) (q_reg c) (S (q_size c)) (Some i) (Some i), pts2)
        end
    end.

(* img_linked_linear_mser.cpp:32,538,562: region r gets parent t *)
Definition lset_par (regs : list lreg) (r t : nat) : option (list lreg) :=
  match regs !! r with
  | Some a => Some (<[r := LReg (n_gray a) (n_flag a) (n_child a) (n_size a) (Some t)
                               (n_head a) (n_tail a)]> regs)
  | None => None
  end.
(* img_linked_linear_mser.cpp:33 *)
Definition lset_child (regs : list lreg) (r : nat) : option (list lreg) :=
  match regs !! r with
  | Some a => Some (<[r := LReg (n_gray a) (n_flag a) 1 (n_size a) (n_parent a)
                               (n_head a) (n_tail a)]> regs)
  | None => None
  end.
(* img_linked_linear_mser.cpp:517-519: close the region of a component *)
Definition lclose (regs : list lreg) (r : nat) (c : lcomp) : option (list lreg) :=
  match regs !! r with
  | Some a => Some (<[r := LReg (n_gray a) (n_flag a) (n_child a) (Some (q_size c)) (n_parent a)
                               (q_head c) (q_tail c)]> regs)
  | None => None
  end.

(* img_linked_linear_mser.cpp:31-49: comp1 is c1 (above), comp2 is c2; the two
   assertions 36-37 are checked, None = undefined behaviour or a failed assertion *)
Definition merge_comp (c1 c2 : lcomp) (pts : list lpt) (regs : list lreg)
  : option (lcomp * list lpt * list lreg) :=
  match q_reg c1, q_reg c2 with
  | Some r1, Some r2 =>
      match lset_par regs r1 r2 with
      | None => None
      | Some regs1 =>
          match lset_child regs1 r2 with
          | None => None
          | Some regs2 =>
              if 0 <? q_size c2 then
                match q_tail c2, q_tail c1, q_head c1 with
                | Some t2, Some t1, Some h1 =>
                    match pts !! t2, pts !! t1 with
                    | Some x2, Some x1 =>
                        match p_next x2, p_next x1 with
                        | None, None =>
                            match set_next pts t2 (Some h1) with
                            | None => None
                            | Some pts1 =>
                                match set_prev pts1 h1 (Some t2) with
                                | None => None
                                | Some pts2 =>
                                    Some (LComp (q_gray c2) (q_reg c2) (q_size c2 + q_size c1)
                                                (q_head c2) (q_tail c1), pts2, regs2)
                                end
                            end
                        | _, _ => None
                        end
                    | _, _ => None
                    end
                | _, _, _ => None
                end
              else
                Some (LComp (q_gray c2) (q_reg c2) (q_size c2 + q_size c1)
                            (q_head c1) (q_tail c1), pts, regs2)
          end
      end
  | _, _ => None
  end.

(* ---------- extract_pass ---------- *)

(* img_linked_linear_mser.cpp:445-455: the variables of the loop; [s_hc] is
   heap_cur - m_heap_start, [s_np] is ptsptr - m_points; component stack top first *)
Record lst := LSt {
  s_img : list N; s_cur : nat; s_hc : nat;
  s_heap : list (option nat); s_hs : list nat;
  s_pts : list lpt; s_np : nat;
  s_comps : list lcomp; s_regs : list lreg
}.

(* img_linked_linear_mser.cpp:180-385: outcome of an iteration; LUB: undefined behaviour or a failed assertion *)
Inductive lres := LNext (s : lst) | LHalt (s : lst) | LUB.

Section pass.
Context (k : lcfg).

(* img_linked_linear_mser.cpp:459,462,478,491,523: word & 0x01ff *)
Definition lgray (w : N) : nat := N.to_nat (N.land w 0x01ff).

(* img_linked_linear_mser.cpp:486,501: *imgptr += 0x200, sixteen bits *)
Definition bump (img : list N) (p : nat) : option (list N) :=
  match img !! p with
  | Some w => Some (<[p := ((w + 0x200) mod 2 ^ 16)%N]> img)
  | None => None
  end.

(* img_linked_linear_mser.cpp:472: imgptr + m_dir[d], None when outside the array *)
Definition lnbr (img : list N) (p d : nat) : option nat :=
  match l_dirs k !! d with
  | None => None
  | Some o =>
      let q := (Z.of_nat p + o)%Z in
      if ((0 <=? q) && (q <? Z.of_nat (length img)))%Z then Some (Z.to_nat q) else None
  end.

(* img_linked_linear_mser.cpp:487,496: heap_cur + offset within m_heap_start[257] *)
Definition hmove (hc : nat) (o : Z) : option nat :=
  let q := (Z.of_nat hc + o)%Z in
  if ((0 <=? q) && (q <? 257))%Z then Some (Z.to_nat q) else None.

(* img_linked_linear_mser.cpp:523-530: level i, stack hc, n iterations left;
   None = undefined behaviour, Some None = nothing found *)
Fixpoint lfind (heap : list (option nat)) (hs : list nat) (hc i n : nat)
  : option (option (nat * nat)) :=
  match n with
  | O => Some None
  | S n' => match heap_top heap hs hc with
            | None => None
            | Some (Some _) => Some (Some (hc, i))
            | Some None => lfind heap hs (S hc) (S i) n'
            end
  end.

(* img_linked_linear_mser.cpp:6-17,19-29: ++region within m_regions[area] *)
Definition lalloc (regs : list lreg) (g child : nat) : option (list lreg) :=
  if length regs <? l_w k * l_h k then Some (regs ++ [fresh_lreg g child]) else None.

(* img_linked_linear_mser.cpp:538-540, 562-564: raise component c to level g *)
Definition lraise (g : nat) (c : lcomp) (regs : list lreg) : option (lcomp * list lreg) :=
  match q_reg c with
  | None => None
  | Some r =>
      match lset_par regs r (length regs) with
      | None => None
      | Some regs1 =>
          match lalloc regs1 g 1 with
          | None => None
          | Some regs2 => Some (LComp g (Some (length regs)) (q_size c) (q_head c) (q_tail c), regs2)
          end
      end
  end.

(* img_linked_linear_mser.cpp:547-569: merging loop; c is *comptr, rest the slots below *)
Fixpoint lmerge (g : nat) (c : lcomp) (rest : list lcomp) (pts : list lpt) (regs : list lreg)
  : option (list lcomp * list lpt * list lreg) :=
  match rest with
  | [] => None
  | c2 :: rest' =>
      match merge_comp c c2 pts regs with
      | None => None
      | Some (c2', pts', regs') =>
          if g <=? q_gray c2' then Some (c2' :: rest', pts', regs')
          else match rest' with
               | [] => None
               | c3 :: _ =>
                   if g <? q_gray c3 then
                     match lraise g c2' regs' with
                     | Some (c2'', regs'') => Some (c2'' :: rest', pts', regs'')
                     | None => None
                     end
                   else lmerge g c2' rest' pts' regs'
               end
      end
  end.

(* img_linked_linear_mser.cpp:536-570 *)
Definition lup (g : nat) (c : lcomp) (rest : list lcomp) (pts : list lpt) (regs : list lreg)
  : option (list lcomp * list lpt * list lreg) :=
  match rest with
  | [] => None
  | c2 :: _ =>
      if g <? q_gray c2 then
        match lraise g c regs with
        | Some (c', regs') => Some (c' :: rest, pts, regs')
        | None => None
        end
      else lmerge g c rest pts regs
  end.

(* img_linked_linear_mser.cpp:513-514, 533-534: take the top pixel of stack hc *)
Definition ltake (img : list N) (heap : list (option nat)) (hs : list nat) (hc : nat)
  (pts : list lpt) (np : nat) (comps : list lcomp) (regs : list lreg) : lres :=
  match heap_top heap hs hc, heap_pop hs hc with
  | Some (Some p), Some hs' => LNext (LSt img p hc heap hs' pts np comps regs)
  | _, _ => LUB
  end.

(* img_linked_linear_mser.cpp:470-502: one iteration of the tour; w is the word of
   the current pixel. m_comp has 258 slots (h:99). *)
Definition ltour (s : lst) (w : N) : lres :=
  match lnbr (s_img s) (s_cur s) (N.to_nat (N.shiftr (N.land w (l_mask k)) 9)) with
  | None => LUB
  | Some q =>
      match s_img s !! q with
      | None => LUB
      | Some wq0 =>
          if (wq0 <? 0x8000)%N then
            let wq := N.lor wq0 0x8000 in
            let img1 := <[q := wq]> (s_img s) in
            match img1 !! s_cur s, bump img1 (s_cur s) with
            | Some wc, Some img2 =>
                let o := (Z.of_nat (lgray wq) - Z.of_nat (lgray wc))%Z in
                match hmove (s_hc s) o with
                | None => LUB
                | Some hc' =>
                    if (o <? 0)%Z then
                      match heap_push (s_heap s) (s_hs s) (s_hc s) (s_cur s) with
                      | None => LUB
                      | Some (heap', hs') =>
                          match img2 !! q, lalloc (s_regs s) (lgray wq) 0 with
                          | Some wn, Some regs' =>
                              if length (s_comps s) <? 258 then
                                LNext (LSt img2 q hc' heap' hs' (s_pts s) (s_np s)
                                  (LComp (lgray wn) (Some (length (s_regs s))) 0 None None :: s_comps s)
                                  regs')
                              else LUB
                          | _, _ => LUB
                          end
                      end
                    else
                      match heap_push (s_heap s) (s_hs s) hc' q with
                      | None => LUB
                      | Some (heap', hs') =>
                          LNext (LSt img2 (s_cur s) (s_hc s) heap' hs' (s_pts s) (s_np s)
                                     (s_comps s) (s_regs s))
                      end
                end
            | _, _ => LUB
            end
          else
            match bump (s_img s) (s_cur s) with
            | Some img2 => LNext (LSt img2 (s_cur s) (s_hc s) (s_heap s) (s_hs s) (s_pts s) (s_np s)
                                      (s_comps s) (s_regs s))
            | None => LUB
            end
      end
  end.

(* img_linked_linear_mser.cpp:505-573: finish the current pixel and take the next
   one; ioptr is the pixel (1, 1) of the bordered image *)
Definition lfinish (s : lst) (w : N) : lres :=
  let wd := Z.of_nat (l_w k + 2) in
  let imsk := (Z.of_nat (s_cur s) - (wd + 1))%Z in
  let y := Z.quot imsk wd in
  let x := (imsk - y * wd)%Z in
  match set_xy (s_pts s) (s_np s) x y, s_comps s with
  | Some pts1, c :: rest =>
      match accumulate_comp c (s_np s) pts1, q_reg c with
      | Some (c', pts2), Some r =>
          match heap_top (s_heap s) (s_hs s) (s_hc s) with
          | None => LUB
          | Some (Some _) =>
              ltake (s_img s) (s_heap s) (s_hs s) (s_hc s) pts2 (S (s_np s)) (c' :: rest) (s_regs s)
          | Some None =>
              match lclose (s_regs s) r c' with
              | None => LUB
              | Some regs1 =>
                  match lfind (s_heap s) (s_hs s) (S (s_hc s)) (S (lgray w)) (256 - lgray w) with
                  | None => LUB
                  | Some None =>
                      LHalt (LSt (s_img s) (s_cur s) (s_hc s) (s_heap s) (s_hs s) pts2 (S (s_np s))
                                 (c' :: rest) regs1)
                  | Some (Some (hc, g)) =>
                      match lup g c' rest pts2 regs1 with
                      | None => LUB
                      | Some (comps', pts3, regs2) =>
                          ltake (s_img s) (s_heap s) (s_hs s) hc pts3 (S (s_np s)) comps' regs2
                      end
                  end
              end
          end
      | _, _ => LUB
      end
  | _, _ => LUB
  end.

(* img_linked_linear_mser.cpp:468-574 *)
Definition lkstep (s : lst) : lres :=
  match s_img s !! s_cur s with
  | None => LUB
  | Some w => if (N.land w (l_mask k) <? l_max k)%N then ltour s w else lfinish s w
  end.

(* img_linked_linear_mser.cpp:445-462: entry of the loop *)
Definition lkinit (b : lbuf) : lres :=
  let p := l_w k + 2 + 1 in
  match lb_img b !! p with
  | None => LUB
  | Some w =>
      match lalloc [] (lgray w) 0 with
      | None => LUB
      | Some regs =>
          LNext (LSt (<[p := N.lor w 0x8000]> (lb_img b)) p (lgray w) (lb_heap b) (lb_hs b)
                     (lb_pts b) 0
                     [LComp (lgray w) (Some 0) 0 None None; LComp 257 None 0 None None] regs)
      end
  end.

(* img_linked_linear_mser.cpp:468: the loop, bounded by fuel *)
Fixpoint lkrun (n : nat) (s : lst) : lres :=
  match n with
  | O => LNext s
  | S n' => match lkstep s with LNext s' => lkrun n' s' | r => r end
  end.
End pass.

(* img_linked_linear_mser.cpp:1141-1145: the tree, the points and the buffers left
   behind; LFuel = step budget exhausted *)
Inductive ltree := LTree (regs : list lreg) (b : lbuf) | LFuel | LTUB.

(* img_linked_linear_mser.cpp:1141-1145; m_er_number (576) is the length of the table *)
Definition lbuild (fuel : nat) (k : lcfg) (gm : N) (src : list N) (step : nat) (b : lbuf) : ltree :=
  match pre_process k gm src step b with
  | None => LTUB
  | Some b1 =>
      match lkinit k b1 with
      | LNext s =>
          match lkrun k fuel s with
          | LHalt s' => LTree (s_regs s') (LBuf (s_img s') (s_heap s') (s_hs s') (s_pts s'))
          | LNext _ => LFuel
          | LUB => LTUB
          end
      | _ => LTUB
      end
  end.

(* img_linked_linear_mser.cpp:189-229: buffers as malloc leaves them *)
Definition lalloc_buf (w h : nat) (junk : N) : lbuf :=
  LBuf (replicate ((h + 2) * (w + 2)) junk) (replicate (w * h + 257) (Some 0))
       (0 :: replicate 256 0) (replicate (w * h) (LPt None None 0 0)).

(* img_linked_linear_mser.cpp:973-998: follow m_next from m_head,
   [n] points; None = a null pointer is followed *)
Fixpoint lwalk (pts : list lpt) (i : option nat) (n : nat) : option (list (Z * Z)) :=
  match n with
  | O => Some []
  | S n' =>
      match i with
      | None => None
      | Some j =>
          match pts !! j with
          | None => None
          | Some p => match lwalk pts (p_next p) n' with
                      | Some l => Some ((p_x p, p_y p) :: l)
                      | None => None
                      end
          end
      end
  end.
