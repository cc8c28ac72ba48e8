(* Word-level model of process_tree_patch and make_tree_patch of Fast MSER V2
   (basicimg/src/img_fast_mser_v2.cpp:238-500, basicimg/src/img_fast_mser_v2.h:20-94).

   Simplifications, valid for every definition below:
   - the pixel words, the bordered image, the boundary stack memory of one
     partition are separate lists (in the code: disjoint slices of three
     allocations, img_fast_mser_v2.cpp:145-152; disjointness is a theorem of
     Geometry);
   - a pointer into a slice is the nat offset from the start of the slice; a
     region pointer is the er index of the region in the partition's table;
   - the block memory of regions is a list (see BlockMem for that refinement);
   - no mask image (mask type Null is the only one the code handles: 427, 451);
   - counters that are only logged (mser_number) are dropped. *)
From stdpp Require Import sorting relations functions list.
From Coq Require Import NArith ZArith.

(* img_fast_mser_v2.cpp:238-475: every assignment to an element of an array; None = write outside the array (undefined behaviour) *)
Definition store {A} (l : list A) (i : nat) (v : A) : option (list A) :=
  if i <? length l then Some (<[i := v]> l) else None.

(* img_fast_mser_v2.cpp:417-473: a C for loop of n iterations whose body may run into undefined behaviour *)
Fixpoint for_n {S} (n : nat) (body : S -> option S) (s : S) : option S :=
  match n with
  | O => Some s
  | Datatypes.S n' => match body s with Some s' => for_n n' body s' | None => None end
  end.

(* img_fast_mser_v2.cpp:154-199: 32-bit unsigned arithmetic of the pixel words *)
Definition u32 (x : N) : N := (x mod 2 ^ 32)%N.

(* img_fast_mser_v2.h:66-94, img_fast_mser_v2.cpp:154-199: geometry, direction
   table (entry 0 unused), and word layout of one partition; [k_gm] is the
   gray_mask argument, [k_patch] the patch_index argument. *)
Record fcfg := FCfg {
  k_w : nat; k_h : nat;
  k_shift : N; k_mask : N; k_bnd : N;
  k_dirs : list Z;
  k_gm : N; k_patch : nat
}.
(* img_fast_mser_v2.cpp:154-199: width of the bordered partition *)
Definition k_w2 (k : fcfg) : nat := k_w k + 2.

(* img_fast_mser_v2.cpp:171-176,196-198: four-neighbour tables *)
Definition cfg4 (w h : nat) (gm : N) (patch : nat) : fcfg :=
  let rs := Z.of_nat (w + 2) in
  FCfg w h 29 0xe0000000 (u32 (N.shiftl 5 29)) [0; 1; - rs; -1; rs]%Z gm patch.

(* img_fast_mser_v2.cpp:156-168,191-194: eight-neighbour tables *)
Definition cfg8 (w h : nat) (gm : N) (patch : nat) : fcfg :=
  let rs := Z.of_nat (w + 2) in
  FCfg w h 28 0xF0000000 (u32 (N.shiftl 9 28))
       [0; 1; 1 - rs; - rs; -1 - rs; -1; -1 + rs; rs; 1 + rs]%Z gm patch.

(* ---------- process_tree_patch ---------- *)

(* img_fast_mser_v2.h:66-94: the buffers of a partition that survive between passes *)
Record fbuf := FBuf {
  b_pts : list N;            (* pinfo.m_points *)
  b_ext : list N;            (* pinfo.m_extended_image *)
  b_lvl : list nat;          (* pinfo.m_level_size[257] *)
  b_heap : list (option nat);(* pinfo.m_heap, None = null pointer *)
  b_hs : list nat            (* pinfo.m_heap_start[257], offsets into m_heap *)
}.

(* img_fast_mser_v2.cpp:422-424,431,439,444-446: *points++ = v *)
Definition put_word (v : N) (s : list N * nat) : option (list N * nat) :=
  match store (fst s) (snd s) v with Some l => Some (l, S (snd s)) | None => None end.

(* img_fast_mser_v2.cpp:414-446: loop state of the fresh branch *)
Record fini := FIni { i_pts : list N; i_pp : nat; i_ext : list N; i_ep : nat;
                      i_lvl : list nat; i_ip : nat }.

(* img_fast_mser_v2.cpp:433-437: one pixel *)
Definition fresh_pixel (img : list N) (s : fini) : option fini :=
  match img !! i_ip s with
  | None => None
  | Some v =>
      match i_lvl s !! N.to_nat v with
      | None => None
      | Some n =>
          match store (i_ext s) (i_ep s) v, store (i_pts s) (i_pp s) 0%N with
          | Some ext', Some pts' =>
              Some (FIni pts' (S (i_pp s)) ext' (S (i_ep s))
                         (<[N.to_nat v := S n]> (i_lvl s)) (S (i_ip s)))
          | _, _ => None
          end
      end
  end.

(* img_fast_mser_v2.cpp:431,439 *)
Definition fresh_word (v : N) (s : fini) : option fini :=
  match put_word v (i_pts s, i_pp s) with
  | Some (l, p) => Some (FIni l p (i_ext s) (i_ep s) (i_lvl s) (i_ip s))
  | None => None
  end.

(* img_fast_mser_v2.cpp:430-442: one row; [step] is img.step()[0] *)
Definition fresh_row (k : fcfg) (img : list N) (step : nat) (s : fini) : option fini :=
  match fresh_word (k_bnd k) s with
  | None => None
  | Some s1 =>
      match for_n (k_w k) (fresh_pixel img) s1 with
      | None => None
      | Some s2 =>
          match fresh_word (k_bnd k) s2 with
          | None => None
          | Some s3 => Some (FIni (i_pts s3) (i_pp s3) (i_ext s3) (i_ep s3 + 2)
                                  (i_lvl s3) (i_ip s3 + (step - k_w k)))
          end
      end
  end.

(* img_fast_mser_v2.cpp:413-446: the branch taken on the first pass of a call;
   [first] is the offset of pixel (m_top, m_left) in the image. *)
Definition fresh_branch (k : fcfg) (img : list N) (step first : nat) (b : fbuf) : option fbuf :=
  match for_n (k_w2 k) (fresh_word (k_bnd k))
          (FIni (b_pts b) 0 (b_ext b) (k_w2 k + 1) (replicate 257 0) first) with
  | None => None
  | Some s1 =>
      match for_n (k_h k) (fresh_row k img step) s1 with
      | None => None
      | Some s2 =>
          match for_n (k_w2 k) (fresh_word (k_bnd k)) s2 with
          | None => None
          | Some s3 => Some (FBuf (i_pts s3) (i_ext s3) (i_lvl s3) (b_heap b) (b_hs b))
          end
      end
  end.

(* img_fast_mser_v2.cpp:453-459: clear the words of one row, skip its border *)
Definition reuse_row (k : fcfg) (s : list N * nat) : option (list N * nat) :=
  match for_n (k_w k) (put_word 0%N) s with
  | Some (l, p) => Some (l, p + 2)
  | None => None
  end.

(* img_fast_mser_v2.cpp:463-467: swap two level counters *)
Definition swap_level (s : list nat * nat) : option (list nat * nat) :=
  let '(l, i) := s in
  match l !! i, l !! (255 - i) with
  | Some x, Some y => Some (<[255 - i := x]> (<[i := y]> l), S i)
  | _, _ => None
  end.

(* img_fast_mser_v2.cpp:447-468: the branch taken on the second (bright) pass *)
Definition reuse_branch (k : fcfg) (b : fbuf) : option fbuf :=
  match for_n (k_h k) (reuse_row k) (b_pts b, k_w2 k + 1) with
  | None => None
  | Some (pts', _) =>
      match for_n 128 swap_level (b_lvl b, 0) with
      | None => None
      | Some (lvl', _) => Some (FBuf pts' (b_ext b) lvl' (b_heap b) (b_hs b))
      end
  end.

(* img_fast_mser_v2.cpp:471-474: one iteration, i from 1 *)
Definition heap_init_iter (lvl : list nat) (s : list (option nat) * list nat * nat)
  : option (list (option nat) * list nat * nat) :=
  let '(heap, hs, i) := s in
  match hs !! (i - 1), lvl !! (i - 1) with
  | Some a, Some n =>
      match store hs i (a + n + 1) with
      | Some hs' => match store heap (a + n + 1) None with
                    | Some heap' => Some (heap', hs', S i)
                    | None => None
                    end
      | None => None
      end
  | _, _ => None
  end.

(* img_fast_mser_v2.cpp:470-474 *)
Definition heap_init (b : fbuf) : option fbuf :=
  match b_hs b !! 0 with
  | None => None
  | Some a =>
      match store (b_heap b) a None with
      | None => None
      | Some heap' =>
          match for_n 256 (heap_init_iter (b_lvl b)) (heap', b_hs b, 1) with
          | Some (heap'', hs', _) => Some (FBuf (b_pts b) (b_ext b) (b_lvl b) heap'' hs')
          | None => None
          end
      end
  end.

(* img_fast_mser_v2.cpp:406-475; [fresh] = (gray_mask == 0 || !m_from_min_max[0]) *)
Definition process_tree_patch (k : fcfg) (fresh : bool) (img : list N) (step first : nat)
  (b : fbuf) : option fbuf :=
  match (if fresh then fresh_branch k img step first b else reuse_branch k b) with
  | Some b' => heap_init b'
  | None => None
  end.

(* ---------- make_tree_patch ---------- *)

(* img_fast_mser_v2.h:34-56: a region; flag 0 unknown, 1 invalid, 2 valid, 3 merged *)
Record creg := CReg {
  m_gray : nat; m_flag : nat; m_size : nat; m_parent : option nat;
  m_er_index : nat; m_patch : nat
}.
(* img_fast_mser_v2.h:59-64; the region pointer of the sentinel is uninitialised *)
Record ccomp := CComp { cc_gray : nat; cc_reg : option nat; cc_size : nat }.

(* img_fast_mser_v2.cpp:245-270: the variables of the flooding loop; component
   stack top first, sentinel last, comptr - m_comp = length - 1 *)
Record cst := CSt {
  c_pts : list N; c_cur : nat; c_ni : nat; c_gray : nat;
  c_heap : list (option nat); c_hs : list nat;
  c_comps : list ccomp; c_regs : list creg
}.

(* img_fast_mser_v2.cpp:272-397: outcome of an iteration; CUB: undefined behaviour or a failed assertion *)
Inductive cres := CNext (s : cst) | CHalt (s : cst) | CUB.

Section flood.
Context (k : fcfg) (ext : list N).

(* img_fast_mser_v2.cpp:241, with m_mask_mask == 0 (189) *)
Definition get_gray (p : nat) : option nat :=
  match ext !! p with Some v => Some (N.to_nat (N.lxor v (k_gm k))) | None => None end.

(* img_fast_mser_v2.cpp:286: points + dir[nbr_index], None when outside m_points *)
Definition nbr_of (pts : list N) (p ni : nat) : option nat :=
  match k_dirs k !! ni with
  | None => None
  | Some d =>
      let q := (Z.of_nat p + d)%Z in
      if ((0 <=? q) && (q <? Z.of_nat (length pts)))%Z then Some (Z.to_nat q) else None
  end.

(* img_fast_mser_v2.cpp:289,297: *++( *heap_cur) = p on level g *)
Definition heap_push (heap : list (option nat)) (hs : list nat) (g p : nat)
  : option (list (option nat) * list nat) :=
  match hs !! g with
  | None => None
  | Some a => match store heap (S a) (Some p) with
              | Some heap' => Some (heap', <[g := S a]> hs)
              | None => None
              end
  end.

(* img_fast_mser_v2.cpp:321,331,343: **heap_cur on level g *)
Definition heap_top (heap : list (option nat)) (hs : list nat) (g : nat) : option (option nat) :=
  match hs !! g with Some a => heap !! a | None => None end.

(* img_fast_mser_v2.cpp:323,344: ( *heap_cur)-- on level g *)
Definition heap_pop (hs : list nat) (g : nat) : option (list nat) :=
  match hs !! g with Some (S a) => Some (<[g := a]> hs) | _ => None end.

(* img_fast_mser_v2.cpp:333-340: i from g, n iterations left;
   None = UB, Some None = nothing found *)
Fixpoint cfind (heap : list (option nat)) (hs : list nat) (g n : nat) : option (option nat) :=
  match n with
  | O => Some None
  | S n' => match heap_top heap hs g with
            | None => None
            | Some (Some _) => Some (Some g)
            | Some None => cfind heap hs (S g) n'
            end
  end.

(* img_fast_mser_v2.cpp:477-500 init_comp / new_region: a fresh region record *)
Definition fresh_reg (g idx : nat) : creg := CReg (g mod 256) 0 0 None idx (k_patch k).

(* img_fast_mser_v2.cpp:354,369: region->m_parent = parent *)
Definition cset_par (regs : list creg) (r t : nat) : option (list creg) :=
  match regs !! r with
  | Some a => Some (<[r := CReg (m_gray a) (m_flag a) (m_size a) (Some t)
                               (m_er_index a) (m_patch a)]> regs)
  | None => None
  end.
(* img_fast_mser_v2.cpp:328 *)
Definition cset_size (regs : list creg) (r n : nat) : option (list creg) :=
  match regs !! r with
  | Some a => Some (<[r := CReg (m_gray a) (m_flag a) n (m_parent a)
                               (m_er_index a) (m_patch a)]> regs)
  | None => None
  end.

(* img_fast_mser_v2.cpp:347-359 (and 379-388): raise component c to level g *)
Definition craise (g : nat) (c : ccomp) (rest : list ccomp) (regs : list creg)
  : option (list ccomp * list creg) :=
  match cc_reg c with
  | None => None
  | Some r =>
      match cset_par regs r (length regs) with
      | None => None
      | Some regs' => Some (CComp g (Some (length regs)) (cc_size c) :: rest,
                            regs' ++ [fresh_reg g (length regs)])
      end
  end.

(* img_fast_mser_v2.cpp:364-391: merging loop; c is *comptr, rest the slots below *)
Fixpoint cmerge (g : nat) (c : ccomp) (rest : list ccomp) (regs : list creg)
  : option (list ccomp * list creg) :=
  match rest with
  | [] => None
  | c2 :: rest' =>
      match cc_reg c, cc_reg c2 with
      | Some r, Some r2 =>
          match cset_par regs r r2 with
          | None => None
          | Some regs' =>
              let c2' := CComp (cc_gray c2) (Some r2) (cc_size c2 + cc_size c) in
              if g <=? cc_gray c2 then Some (c2' :: rest', regs')
              else match rest' with
                   | [] => None
                   | c3 :: _ => if g <? cc_gray c3 then craise g c2' rest' regs'
                                else cmerge g c2' rest' regs'
                   end
          end
      | _, _ => None
      end
  end.

(* img_fast_mser_v2.cpp:347-391 *)
Definition cup (g : nat) (c : ccomp) (rest : list ccomp) (regs : list creg)
  : option (list ccomp * list creg) :=
  match rest with
  | [] => None
  | c2 :: _ => if g <? cc_gray c2 then craise g c rest regs else cmerge g c rest regs
  end.

(* img_fast_mser_v2.cpp:322-323/343-344 followed by 273: take the top pixel of level g *)
Definition ctake (pts : list N) (heap : list (option nat)) (hs : list nat) (g : nat)
  (comps : list ccomp) (regs : list creg) : cres :=
  match heap_top heap hs g, heap_pop hs g with
  | Some (Some p), Some hs' =>
      match pts !! p with
      | Some w => CNext (CSt pts p (N.to_nat (N.shiftr w (k_shift k))) g heap hs' comps regs)
      | None => CUB
      end
  | _, _ => CUB
  end.

(* img_fast_mser_v2.cpp:276-309: the word d << m_dir_shift as a 32-bit value *)
Definition dword (d : nat) : N := u32 (N.shiftl (N.of_nat d) (k_shift k)).

(* img_fast_mser_v2.cpp:272-397: one direction of the tour (276-309), or finishing
   the pixel and taking the next one (312-396). m_comp has 256 slots
   (img_fast_mser_v2.h:83). *)
Definition cstep (s : cst) : cres :=
  if c_ni s <=? 4 then
    match nbr_of (c_pts s) (c_cur s) (c_ni s) with
    | None => CUB
    | Some q =>
        match c_pts s !! q with
        | None => CUB
        | Some w =>
            if (N.land w (k_mask k) =? 0)%N then
              match get_gray q with
              | None => CUB
              | Some ng =>
                  let pts1 := <[q := dword 1]> (c_pts s) in
                  if ng <? c_gray s then
                    match heap_push (c_heap s) (c_hs s) (c_gray s) (c_cur s) with
                    | None => CUB
                    | Some (heap', hs') =>
                        if length (c_comps s) <? 256 then
                          CNext (CSt (<[c_cur s := dword (S (c_ni s))]> pts1) q 1 ng heap' hs'
                                     (CComp ng (Some (length (c_regs s))) 0 :: c_comps s)
                                     (c_regs s ++ [fresh_reg ng (length (c_regs s))]))
                        else CUB
                    end
                  else
                    match heap_push (c_heap s) (c_hs s) ng q with
                    | None => CUB
                    | Some (heap', hs') =>
                        CNext (CSt pts1 (c_cur s) (S (c_ni s)) (c_gray s) heap' hs'
                                   (c_comps s) (c_regs s))
                    end
              end
            else CNext (CSt (c_pts s) (c_cur s) (S (c_ni s)) (c_gray s) (c_heap s) (c_hs s)
                            (c_comps s) (c_regs s))
        end
    end
  else
    match c_comps s with
    | [] => CUB
    | c :: rest =>
        match cc_reg c with
        | None => CUB
        | Some r =>
            match c_regs s !! r with
            | None => CUB
            | Some a =>
                let w := N.lor (dword (c_ni s)) (N.of_nat (m_er_index a)) in
                match store (c_pts s) (c_cur s) w with
                | None => CUB
                | Some pts' =>
                    (* 315-317: at( *points - m_boundary_pixel) is the region *)
                    if (u32 (w + 2 ^ 32 - k_bnd k) =? N.of_nat r)%N then
                      let c' := CComp (cc_gray c) (Some r) (S (cc_size c)) in
                      match heap_top (c_heap s) (c_hs s) (c_gray s) with
                      | None => CUB
                      | Some (Some _) =>
                          ctake pts' (c_heap s) (c_hs s) (c_gray s) (c' :: rest) (c_regs s)
                      | Some None =>
                          match cset_size (c_regs s) r (cc_size c') with
                          | None => CUB
                          | Some regs' =>
                              match cfind (c_heap s) (c_hs s) (S (c_gray s)) (256 - c_gray s) with
                              | None => CUB
                              | Some None => CHalt (CSt pts' (c_cur s) (c_ni s) (c_gray s)
                                                        (c_heap s) (c_hs s) (c' :: rest) regs')
                              | Some (Some g) =>
                                  match cup g c' rest regs' with
                                  | None => CUB
                                  | Some (comps', regs'') =>
                                      ctake pts' (c_heap s) (c_hs s) g comps' regs''
                                  end
                              end
                          end
                      end
                    else CUB
                end
            end
        end
    end.

(* img_fast_mser_v2.cpp:243-263: entry of the loop *)
Definition cinit (b : fbuf) : cres :=
  let p := 1 + k_w2 k in
  match get_gray p, store (b_pts b) p (dword 1) with
  | Some g, Some pts =>
      CNext (CSt pts p 1 g (b_heap b) (b_hs b)
                 [CComp g (Some 0) 0; CComp 257 None 0] [fresh_reg g 0])
  | _, _ => CUB
  end.

(* img_fast_mser_v2.cpp:272-397: n iterations of the loop *)
Fixpoint crun (n : nat) (s : cst) : cres :=
  match n with
  | O => CNext s
  | S n' => match cstep s with CNext s' => crun n' s' | r => r end
  end.
End flood.

(* img_fast_mser_v2.cpp:238-404: result of building the tree of one partition:
   the region table and the buffers left behind. FFuel = step budget exhausted. *)
Inductive fres := FTree (regs : list creg) (b : fbuf) | FFuel | FUB.

(* img_fast_mser_v2.cpp:238-404 make_tree_patch *)
Definition make_tree_patch (fuel : nat) (k : fcfg) (fresh : bool) (img : list N)
  (step first : nat) (b : fbuf) : fres :=
  match process_tree_patch k fresh img step first b with
  | None => FUB
  | Some b1 =>
      match cinit k (b_ext b1) b1 with
      | CNext s =>
          match crun k (b_ext b1) fuel s with
          | CHalt s' => FTree (c_regs s') (FBuf (c_pts s') (b_ext b1) (b_lvl b1) (c_heap s') (c_hs s'))
          | CNext _ => FFuel
          | CUB => FUB
          end
      | _ => FUB
      end
  end.

(* img_fast_mser_v2.cpp:128-152,154,195: uninitialised buffers of one partition *)
Definition alloc_patch (w h : nat) (junk : N) : fbuf :=
  FBuf (replicate ((w + 2) * (h + 2)) junk) (replicate ((w + 2) * (h + 2)) junk)
       (replicate 257 0) (replicate (w * h + 257) (Some 0)) (replicate 257 0).
