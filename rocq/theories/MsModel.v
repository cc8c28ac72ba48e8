(* Model of MS-MSER, the class img_ms_mser (basicimg/src/img_ms_mser.cpp,
   basicimg/include/img_ms_mser.h), of a channel of img_mser_base::extract with it
   (basicimg/src/img_mser_base.cpp:90-109) and of reading its records
   (basicimg/src/img_mser_helper.cpp:55-64, 121-160).

   What is reused, because the code is the same up to the names of variables:
   - building the tree (150-385) is FloodModel.make_tree_patch for the whole image as one
     partition, with the directions in another order and without a row step;
   - recognition (391-572, 876-906) is CvModel's, and the two searches and the chains of
     extract_pixel (689-720, 745-775) are ExtractModel's.

   Simplifications, valid for every definition below:
   - four neighbours, a null mask, the default m_recursive_point_threshold (neither -1
     nor INT_MAX, so 594-676 is left out);
   - m_heap has 257 * 3 entries more than the model gives it; an access to one of them
     is undefined in the model;
   - the fields that share memory (img_ms_mser.h:48-58) are kept apart: m_size is not
     read after 684, m_var not after recognition, m_child_memory_number not after 740;
   - m_gray_order_regions has exactly as many entries as there are candidates (475-491);
     the code keeps a larger array from an earlier call if there is one;
   - the pointers in mser_heap (590) are numbers of records, NULL is -1;
   - the memory of the result as in ExtractModel; the numbers that are only logged are
     dropped. *)
From stdpp Require Import sorting relations functions list.
From Coq Require Import NArith ZArith SpecFloat.
From Verif Require Import FloodModel ConnectModel PartModel WholeModel FloatModel RecogModel RectModel ExtractModel LinkedModel CvModel.
Local Open Scope nat_scope.

(* ---------- build_tree ---------- *)

(* img_ms_mser.cpp:109,139-147: row_step, m_dir, m_dir_mask, m_dir_shift, m_boundary_pixel *)
Definition ms_cfg (w h : nat) (gm : N) : fcfg :=
  let rs := Z.of_nat (w + 2) in
  FCfg w h 29 0xe0000000 (u32 (N.shiftl 5 29)) [0; 1; -1; rs; - rs]%Z gm 0.

(* img_ms_mser.cpp:53-101: the buffers of a w x h image, with arbitrary contents [d] *)
Definition ms_alloc (w h : nat) (d : N) : fbuf :=
  FBuf (replicate ((w + 2) * (h + 2)) d) (replicate ((w + 2) * (h + 2)) d) (replicate 257 7)
    (replicate (w * h + 257) (Some 1)) (0 :: replicate 256 5).

(* img_ms_mser.cpp:150-359; [fresh] = gray_mask == 0 || !m_from_min_max[0] (158); the
   image is read one pixel after the other, whatever its row step (160,176-179) *)
Definition ms_build (n w h : nat) (gm : N) (fresh : bool) (img : list N) (b : fbuf) : fres :=
  make_tree_patch n (ms_cfg w h gm) fresh img w 0 b.

(* ---------- recognition ---------- *)

(* img_ms_mser.h:44-61: a region for recognition *)
Definition ms_lreg (a : creg) : lreg :=
  LReg (m_gray a) (m_flag a) 0 (Some (m_size a)) (m_parent a) None None.

(* img_ms_mser.cpp:391-446: the two loops of recognize_mser_normal *)
Definition ms_candidates (n : nat) (P : rparam) (regs : list lreg) (var0 : nat -> flt) : option cvst :=
  match cv_each (cv_base n P) (seq 0 (length regs)) (CvSt regs var0 lvl0) with
  | None => None
  | Some s1 => if (0 <? p_delta P)%Z && fge (p_nms P) fzero
               then cv_each (cv_nms P) (seq 0 (length (cs_regs s1))) s1 else Some s1
  end.

(* img_ms_mser.cpp:470-572: with remove_duplicated *)
Definition ms_recognize (n : nat) (P : rparam) (regs : list lreg) (var0 : nat -> flt)
  : option (list lreg * list nat * N) :=
  match ms_candidates n P regs var0 with
  | None => None
  | Some s2 =>
      match cv_order (sum_list (take 256 (cs_lvl s2))) (cs_regs s2) (cs_lvl s2) with
      | None => None
      | Some l => cv_dedup n P (cs_regs s2) l
      end
  end.

(* img_ms_mser.h:44-61: the regions for extraction, as a table of one partition *)
Definition ms_forest (regs : list lreg) : forest :=
  [imap (fun i a => GReg (n_gray a) (n_flag a) (default 0 (n_size a)) (pair 0 <$> n_parent a) i 0) regs].

(* ---------- extract_pixel ---------- *)

(* img_ms_mser.cpp:678-687: the first loop over the reported regions *)
Definition ms_start (gm : N) (t : est * list mrec) (i : nat) (x : rref) : option (est * list mrec) :=
  let '(s, ms) := t in
  match fget (e_F s) x with
  | None => None
  | Some a =>
      Some (ESt (e_F s) (e_heap s) (<[x := 0]> (e_kids s)) (<[x := 0]> (e_kpix s)) (e_asg s),
            ms ++ [MRec (N.lxor (N.of_nat (g_gray a)) gm) false (g_size a) 0 (Rect (-1) 0 0 0)])
  end.

(* img_ms_mser.cpp:689-721: the second loop; state with region_memory_size *)
Definition ms_classify (fuel : nat) (thr : Z) (t : est * list mrec * Z) (i : nat) (x : rref) : option (est * list mrec * Z) :=
  let '(s0, ms, total) := t in
  match h_put s0 x (Z.of_nat i) with
  | None => None
  | Some s =>
  match fget (e_F s) x, ms !! i with
  | Some a, Some m =>
      let share := (e_kids s x =? 0) || (Z.of_nat (ms_size m) <=? thr)%Z in
      match add_z total (if share then Z.of_nat (ms_size m)
                         else 1 + Z.of_nat (ms_size m) - Z.of_nat (e_kpix s x) + Z.of_nat ((1 + e_kids s x) / 2)) with
      | None => None
      | Some total' =>
          match find_valid fuel (e_F s) (g_par a) with
          | None => None
          | Some real =>
              let '(kids, kpix) :=
                match real with
                | Some y => (<[y := e_kids s y + 1]> (e_kids s), <[y := e_kpix s y + ms_size m]> (e_kpix s))
                | None => (e_kids s, e_kpix s)
                end in
              match relink fuel (fset (e_F s) x (set_par a real)) real (g_par a) with
              | None => None
              | Some F' => Some (ESt F' (e_heap s) kids kpix (e_asg s),
                                 <[i := MRec (ms_gray m) share (ms_size m) (ms_pts m) (ms_rect m)]> ms, total')
              end
          end
      end
  | _, _ => None
  end
  end.

(* img_ms_mser.cpp:722-743: memory, records, memory_offset, m_mser_index *)
Record mslay := MsLay { y_mem : emem; y_ms : list mrec; y_off : nat; y_mi : rref -> option nat }.
(* img_ms_mser.cpp:725-743: one region of the loop that places the records *)
Definition ms_place (size : nat) (s : est) (t : mslay) (i : nat) (x : rref) : option mslay :=
  match y_ms t !! i with
  | None => None
  | Some m =>
      let put p := <[i := MRec (ms_gray m) (ms_share m) (ms_size m) p (ms_rect m)]> (y_ms t) in
      if ms_share m then Some (MsLay (y_mem t) (put (y_off t)) (y_off t + ms_size m) (<[x := Some i]> (y_mi t)))
      else if ms_size m <? e_kpix s x then None else
      match p_put size (y_mem t) (y_off t) (Z.of_nat (ms_size m - e_kpix s x)) 0 with
      | None => None
      | Some mem => Some (MsLay mem (put (y_off t + 1)) (y_off t + 1 + (ms_size m - e_kpix s x) + (1 + e_kids s x) / 2)
                            (<[x := Some i]> (y_mi t)))
      end
  end.

(* img_ms_mser.cpp:792-812: extend the rectangle by the pixel; m_width and m_height hold
   the greatest coordinates *)
Definition ms_grow (r : rect) (x y : Z) : rect :=
  if (x_left r =? -1)%Z then Rect x y x y else
  let '(l, rt) := if (x <? x_left r)%Z then (x, x_w r)
                  else if (x_w r <? x)%Z then (x_left r, x) else (x_left r, x_w r) in
  let '(t, d) := if (y <? x_top r)%Z then (y, x_h r)
                 else if (x_h r <? y)%Z then (x_top r, y) else (x_top r, x_h r) in
  Rect l t rt d.

(* img_ms_mser.cpp:782-819: one pixel; [pts] are the words of the bordered image *)
Definition ms_px (size : nat) (s : est) (pts : list N) (r : prect) (t : emem * list mrec) (c : nat * nat)
  : option (emem * list mrec) :=
  let '(mem, ms) := t in
  match pts !! word_at r c with
  | None => None
  | Some w =>
      match h_get s (0, N.to_nat ((w + 2 ^ 32 - bnd4) mod 2 ^ 32)) with
      | None => None
      | Some v =>
          if (v =? -1)%Z then Some (mem, ms) else if (v <? 0)%Z then None else
          let x := Z.of_nat (snd c + r_left r) in
          let y := Z.of_nat (fst c + r_top r) in
          match ms !! Z.to_nat v with
          | None => None
          | Some m =>
              match p_put size mem (ms_pts m) x y with
              | None => None
              | Some mem' => Some (mem', <[Z.to_nat v := MRec (ms_gray m) (ms_share m) (ms_size m) (ms_pts m + 1) (ms_grow (ms_rect m) x y)]> ms)
              end
          end
      end
  end.
(* img_ms_mser.cpp:780-825: the loop over the pixels *)
Fixpoint ms_fill (size : nat) (s : est) (pts : list N) (r : prect) (cs : list (nat * nat)) (t : emem * list mrec)
  : option (emem * list mrec) :=
  match cs with
  | [] => Some t
  | c :: cs' => match ms_px size s pts r t c with Some t' => ms_fill size s pts r cs' t' | None => None end
  end.

(* img_ms_mser.cpp:827-837: one record of the loop that ends the rectangles *)
Definition ms_close (s : est) (ms : list mrec) (i : nat) (x : rref) : option (list mrec) :=
  match ms !! i with
  | None => None
  | Some m =>
      let back := if ms_share m then 0 else 1 + (ms_size m - e_kpix s x) in
      if (ms_pts m <? back) || (ms_size m <? e_kpix s x) && negb (ms_share m) then None else
      let r := ms_rect m in
      Some (<[i := MRec (ms_gray m) (ms_share m) (ms_size m) (ms_pts m - back)
                     (Rect (x_left r) (x_top r) (x_w r - x_left r + 1) (x_h r - x_top r + 1))]> ms)
  end.

(* img_ms_mser.cpp:862-872: list the record i as a child of the record j at offset q *)
Definition ms_child (size : nat) (m : emem) (q i j : nat) : option emem :=
  match off (m_get size m (2 * q)), off (m_get size m (2 * q + 1)) with
  | Some k, Some n =>
      match m_put size m (2 * q + 1) (Z.of_nat n + 1) with
      | None => None
      | Some m1 => m_put size m1 (2 * (q + 1 + k) + n) (Z.of_nat i - Z.of_nat j)
      end
  | _, _ => None
  end.

(* img_ms_mser.cpp:842-873: one region of the last loop *)
Definition ms_finish (size : nat) (s : est) (mi : rref -> option nat) (t : emem * list mrec) (i : nat) (x : rref)
  : option (emem * list mrec) :=
  let '(m, ms) := t in
  match fget (e_F s) x, ms !! i with
  | Some a, Some c =>
      match (match g_par a with
             | None => Some None
             | Some y =>
                 match fget (e_F s) y with
                 | None => None
                 | Some b =>
                     if g_flag b =? 2 then
                       match mi y with
                       | Some j => match ms !! j with Some d => Some (Some (j, d)) | None => None end
                       | None => None
                       end
                     else Some None
                 end
             end) with
      | None => None
      | Some par =>
          let ms1 := match par with
                     | None => ms
                     | Some (j, d) => <[j := MRec (ms_gray d) (ms_share d) (ms_size d) (ms_pts d) (append_rect (ms_rect d) (ms_rect c))]> ms
                     end in
          match ms1 !! i with
          | None => None
          | Some c1 =>
              let back := if ms_share c1 then ms_size c1 else 0 in
              if ms_pts c1 <? back then None else
              let p := ms_pts c1 - back in
              let ms2 := <[i := MRec (ms_gray c1) (ms_share c1) (ms_size c1) p (ms_rect c1)]> ms1 in
              match par with
              | None => Some (m, ms2)
              | Some (j, _) =>
                  match ms2 !! j with
                  | None => None
                  | Some d =>
                      if ms_share c1 && ms_share d then
                        match memcpy_pts size m p (ms_pts d) (ms_size c1) with
                        | None => None
                        | Some m' => Some (m', <[j := MRec (ms_gray d) (ms_share d) (ms_size d) (ms_pts d + ms_size c1) (ms_rect d)]> ms2)
                        end
                      else match ms_child size m (ms_pts d) i j with
                           | None => None
                           | Some m' => Some (m', ms2)
                           end
                  end
              end
          end
      end
  | _, _ => None
  end.

(* img_ms_mser.cpp:574-874 extract_pixel; [F] the regions after recognition, [heap0] the
   old contents of m_heap, [l] the reported regions, [pts] the words of the image *)
Definition ms_extract (fuel : nat) (gm : N) (thr : Z) (w h : nat) (pts : list N) (F : forest)
  (heap0 : rref -> option Z) (l : list rref) : option mres :=
  match l with
  | [] => Some (MRes 0 (fun _ => None) [])
  | _ =>
  match loop (ms_start gm) 0 l (ESt F heap0 (fun _ => 0) (fun _ => 0) (fun _ => false), []) with
  | None => None
  | Some (s1, ms1) =>
      match loop (ms_classify fuel thr) 0 l (s1, ms1, 0%Z) with
      | None => None
      | Some (s2, ms2, total) =>
          let size := Z.to_nat total in
          match loop (ms_place size s2) 0 l (MsLay (fun _ => None) ms2 0 (fun _ => None)) with
          | None => None
          | Some ly =>
              match each (resolve fuel) (all_refs (e_F s2)) s2 with
              | None => None
              | Some s3 =>
                  let r := PRect 0 0 w h in
                  match ms_fill size s3 pts r (cells r) (y_mem ly, y_ms ly) with
                  | None => None
                  | Some (mem, ms3) =>
                      match loop (ms_close s3) 0 l ms3 with
                      | None => None
                      | Some ms4 =>
                          match loop (ms_finish size s3 (y_mi ly)) 0 l (mem, ms4) with
                          | None => None
                          | Some (mem', ms) => Some (MRes size mem' ms)
                          end
                      end
                  end
              end
          end
      end
  end
  end.

(* ---------- a call ---------- *)

(* img_mser_base.cpp:90-109: what a channel takes apart from the image: uninitialised
   memory, and what becomes of m_heap *)
Record mschan := MsChan { mc_var0 : nat -> flt; mc_heap0 : rref -> option Z; mc_dirt : list (option nat) -> list (option nat) }.

(* img_mser_base.cpp:92-106: one channel *)
Definition ms_channel (n w h : nat) (gm : N) (fresh : bool) (img : list N) (P : rparam) (thr : Z) (b : fbuf) (c : mschan)
  : option (mres * fbuf) :=
  match ms_build n w h gm fresh img b with
  | FTree regs b' =>
      match ms_recognize n P (map ms_lreg regs) (mc_var0 c) with
      | None => None
      | Some (regs', l, _) =>
          match ms_extract n gm thr w h (b_pts b') (ms_forest regs') (mc_heap0 c) (map (pair 0) l) with
          | None => None
          | Some R => Some (R, FBuf (b_pts b') (b_ext b') (b_lvl b') (mc_dirt c (b_heap b')) (b_hs b'))
          end
      end
  | _ => None
  end.

(* img_mser_base.cpp:76-109: the dark and the bright channel of a call that asks for
   both, or for the dark one only *)
Definition ms_call (n w h : nat) (bright : bool) (img : list N) (P : rparam) (thr : Z) (b : fbuf) (c0 c1 : mschan)
  : option (mres * mres) :=
  match ms_channel n w h 0 true img P thr b c0 with
  | None => None
  | Some (R0, b1) =>
      if bright then
        match ms_channel n w h 255 false img P thr b1 c1 with
        | None => None
        | Some (R1, _) => Some (R0, R1)
        end
      else Some (R0, MRes 0 (fun _ => None) [])
  end.

(* ---------- reading a record ---------- *)

(* img_mser_helper.cpp:55-64, 121-160: the points visited and the records popped; the
   stack holds record numbers; None = out of budget, no such record, or a bad read *)
Fixpoint ms_visit (n : nat) (R : mres) (stack : list nat) : option (list (Z * Z) * list nat) :=
  match stack with
  | [] => Some ([], [])
  | j :: rest =>
      match n with
      | O => None
      | S n' =>
          match r_ms R !! j with
          | None => None
          | Some c =>
              let p := ms_pts c in
              match (if ms_share c then
                       match read_pts (r_size R) (r_mem R) p (ms_size c) with
                       | Some pts => Some (pts, rest)
                       | None => None
                       end
                     else
                       match off (m_get (r_size R) (r_mem R) (2 * p)), off (m_get (r_size R) (r_mem R) (2 * p + 1)) with
                       | Some k, Some m =>
                           match read_pts (r_size R) (r_mem R) (p + 1) k,
                                 push_children (r_size R) (r_mem R) (2 * (p + 1 + k)) j m rest with
                           | Some pts, Some st => Some (pts, st)
                           | _, _ => None
                           end
                       | _, _ => None
                       end) with
              | None => None
              | Some (pts, stack') =>
                  match ms_visit n' R stack' with
                  | Some (q, js) => Some (pts ++ q, j :: js)
                  | None => None
                  end
              end
          end
      end
  end.
