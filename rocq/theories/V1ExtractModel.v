(* Model of the extraction of pixels in Fast MSER V1
   (basicimg/src/img_fast_mser_v1.cpp:2645-2661, 2867-3204) and of reading a record
   (basicimg/src/img_mser_helper.cpp:56-66).

   Simplifications, valid for every definition below:
   - the flags and parents of the regions are those recognition left (V1RecogModel.v), the
     other fields those of the build (V1BuildModel.v);
   - top_regions and top_backup (2981-3037) are one list; the code writes to the backup
     when the number of top regions equals the room behind the reported regions in m_heap,
     and behind the end of m_heap when it is larger, which is the result None;
   - what the copying writes to m_ref (3199) is kept apart from the points as a function;
     a point not written by this call has no value there;
   - memory (3038) is a list with an entry per point, None = not written; a write outside
     of it, a NULL link and a dangling link are the result None;
   - region_memory_size is checked for i32 overflow; cur_size and parallel_size
     (3083-3110) do not exceed it;
   - the stop indexes and offsets (3041-3081) are two lists of m_parallel_thread_number
     zeros in the memory of m_start_indexes, which is large enough (257 entries);
   - the five omp loops (3114-3139) differ in the number of threads only. *)
From stdpp Require Import sorting relations functions list.
From Coq Require Import NArith ZArith SpecFloat.
From Verif Require Import FloodModel ConnectModel PartModel WholeModel FloatModel RecogModel RectModel ExtractModel
  V1JoinModel V1Model V1BuildModel V1RecogModel.
Local Open Scope nat_scope.

(* img_fast_mser_v1.cpp:3003-3031 (and 2886-2910): one reported region: the nearest reported
   region above it (the loop 3006-3007 is the loop of V2 that find_valid renders), set as
   parent if [link]; a region without one is a top region and counts for the memory; state:
   flags and parents, top regions, region_memory_size; [room] is top_region_size *)
Definition v1_top (link : bool) (fuel room : nat) (t : forest * list rref * Z) (x : rref) : option (forest * list rref * Z) :=
  let '(G, tops, total) := t in
  match fget G x with
  | None => None
  | Some a =>
      match find_valid fuel G (g_par a) with
      | None => None
      | Some real =>
          let G' := if link then fset G x (set_par a real) else G in
          match real with
          | Some _ => Some (G', tops, total)
          | None =>
              if room <? length tops then None else
              match add_z total (Z.of_nat (g_size a)) with
              | None => None
              | Some total' => Some (G', tops ++ [x], total')
              end
          end
      end
  end.

(* img_fast_mser_v1.cpp:3083-3110: how the top regions, given by their sizes, are dealt to
   [n] workers: the last region of each and the offset at which it starts; [q] is
   quarter_size, [i] the region, [cur] cur_size, [par] parallel_size *)
Fixpoint v1_plan (n q : nat) (zs : list nat) (i cur par index : nat) (stops offs : list nat) : list nat * list nat :=
  match zs with
  | [] => (stops, offs)
  | z :: zs' =>
      let cur' := cur + z in
      let stops' := <[index := i]> stops in
      if par <? cur' then
        if S index =? n then (stops', offs)
        else v1_plan n q zs' (S i) cur' (par + q) (S index) stops' (<[S index := cur']> offs)
      else v1_plan n q zs' (S i) cur' par index stops' offs
  end.

(* img_fast_mser_v1.cpp:3174-3204: a worker between two points: top regions to do, m_next
   and number of the points left of the current one, cur_mem *)
Record xwk := XWk { xk_todo : list rref; xk_pt : option rref; xk_left : nat; xk_mem : nat }.
(* img_fast_mser_v1.cpp:3038, 3195-3199: the memory of the result and the m_ref of the points *)
Record xmem := XMem { xm_mem : list (option (nat * nat)); xm_ref : rref -> option nat }.

(* img_fast_mser_v1.cpp:3175-3187: the regions and the start of worker k; None = a region
   that is not there *)
Definition xstart (tops : list rref) (stops offs : list nat) (k : nat) : option xwk :=
  match stops !! k, offs !! k, (match k with O => Some 0 | S k' => S <$> stops !! k' end) with
  | Some stop, Some off, Some start =>
      match mapM (fun i => tops !! i) (seq start (S stop - start)) with
      | Some todo => Some (XWk todo None 0 off)
      | None => None
      end
  | _, _, _ => None
  end.

(* img_fast_mser_v1.cpp:3181-3203 (and 2921-2948): one step of a worker: copy a point, or go
   to the next region *)
Definition xstep (F : list (list wreg)) (Pt : list (list wpt)) (t : xmem) (w : xwk) : option (xmem * xwk) :=
  match xk_left w with
  | S rest =>
      match xk_pt w with
      | None => None
      | Some q =>
          match get2 Pt q with
          | None => None
          | Some x =>
              if xk_mem w <? length (xm_mem t) then
                Some (XMem (<[xk_mem w := Some (t_x x, t_y x)]> (xm_mem t)) (<[q := Some (xk_mem w)]> (xm_ref t)),
                      XWk (xk_todo w) (t_next x) rest (S (xk_mem w)))
              else None
          end
      end
  | O =>
      match xk_todo w with
      | [] => Some (t, w)
      | r :: todo =>
          match get2 F r with
          | None => None
          | Some a => Some (t, XWk todo (w_head a) (Z.to_nat (w_size a)) (xk_mem w))
          end
      end
  end.

(* img_fast_mser_v1.cpp:3114-3139: the workers under the schedule [sched] *)
Fixpoint xrun (F : list (list wreg)) (Pt : list (list wpt)) (sched : list nat) (t : xmem) (ws : list xwk)
  : option (xmem * list xwk) :=
  match sched with
  | [] => Some (t, ws)
  | k :: rest =>
      match ws !! k with
      | None => None
      | Some w =>
          match xstep F Pt t w with
          | None => None
          | Some (t', w') => xrun F Pt rest t' (<[k := w']> ws)
          end
      end
  end.

(* img_fast_mser_v1.cpp:3181, 3189: a worker at its end *)
Definition xdone (w : xwk) : bool := match xk_left w, xk_todo w with O, [] => true | _, _ => false end.

(* img_mser_base.h:33-38, img_fast_mser_v1.cpp:3145-3157: a record; [kr_pts] is the offset of
   m_points in the memory, None if it is computed from a m_ref the call has not written; the
   type is Memory_Type_Range *)
Record krec := KRec { kr_size : nat; kr_rect : rect; kr_gray : N; kr_pts : option nat }.

(* img_fast_mser_v1.cpp:3145-3157: the record of region x *)
Definition v1_record (gm : N) (F : list (list wreg)) (ref : rref -> option nat) (x : rref) : option krec :=
  match get2 F x with
  | None => None
  | Some a =>
      match w_head a with
      | None => None
      | Some h =>
          Some (KRec (Z.to_nat (w_size a))
                     (Rect (Z.of_nat (w_left a)) (Z.of_nat (w_top a))
                           (Z.of_nat (w_right a) - Z.of_nat (w_left a) + 1) (Z.of_nat (w_bot a) - Z.of_nat (w_top a) + 1))
                     (N.lxor (N.of_nat (w_gray a)) gm) (ref h))
      end
  end.

(* img_mser_base.h:59-61: one channel of the result *)
Record kres := KRes { k_mem : list (option (nat * nat)); k_recs : list krec }.

(* img_fast_mser_v1.cpp:2981-3143: up to the end of the copying: the memory and the m_ref;
   [cap] is m_heap_size, [G] has the flags and parents, [l] the reported regions *)
Definition v1_copy (fuel n cap : nat) (F : list (list wreg)) (Pt : list (list wpt)) (G : forest) (l : list rref)
  (sched : list nat) : option xmem :=
  match each (v1_top true fuel (cap - length l)) l (G, [], 0%Z) with
  | None => None
  | Some (G', tops, total) =>
      let size := Z.to_nat total in
      let '(stops, offs) := v1_plan n (size / n) (map (fun x => match fget G' x with Some a => g_size a | None => 0 end) tops)
        0 0 (size / n) 0 (replicate n 0) (replicate n 0) in
      match mapM (xstart tops stops offs) (seq 0 n) with
      | None => None
      | Some ws =>
          match xrun F Pt sched (XMem (replicate size None) (fun _ => None)) ws with
          | None => None
          | Some (t, ws') => if forallb xdone ws' then Some t else None
          end
      end
  end.

(* img_fast_mser_v1.cpp:2981-3172 extract_pixel_parallel_k_fast; no region, no result
   (2646-2648, 2982-2984) *)
Definition v1_extract_k (fuel n cap : nat) (gm : N) (F : list (list wreg)) (Pt : list (list wpt)) (G : forest) (l : list rref)
  (sched : list nat) : option kres :=
  match l with
  | [] => Some (KRes [] [])
  | _ =>
      match v1_copy fuel n cap F Pt G l sched with
      | None => None
      | Some t =>
          match mapM (v1_record gm F (xm_ref t)) l with
          | None => None
          | Some rs => Some (KRes (xm_mem t) rs)
          end
      end
  end.

(* img_fast_mser_v1.cpp:2921-2948: the serial copying: steps of one worker until its end;
   None = out of budget *)
Fixpoint xserial (n : nat) (F : list (list wreg)) (Pt : list (list wpt)) (t : xmem) (w : xwk) : option xmem :=
  if xdone w then Some t else
  match n with
  | O => None
  | S n' => match xstep F Pt t w with None => None | Some (t', w') => xserial n' F Pt t' w' end
  end.

(* img_fast_mser_v1.cpp:2966-2978: a record of the serial extraction: the m_ref of the head
   and of the tail stand where m_points is; m_rect is not set *)
Record orec := ORec { or_size : nat; or_gray : N; or_first : option nat; or_last : option nat }.

(* img_fast_mser_v1.cpp:2966-2978: the record of region x *)
Definition v1_record_1 (gm : N) (F : list (list wreg)) (ref : rref -> option nat) (x : rref) : option orec :=
  match get2 F x with
  | None => None
  | Some a =>
      match w_head a, w_tail a with
      | Some h, Some t => Some (ORec (Z.to_nat (w_size a)) (N.lxor (N.of_nat (w_gray a)) gm) (ref h) (ref t))
      | _, _ => None
      end
  end.

(* img_fast_mser_v1.cpp:2867-2979 extract_pixel_parallel_1_fast (and 2646-2648) *)
Definition v1_extract_1 (fuel cap : nat) (gm : N) (F : list (list wreg)) (Pt : list (list wpt)) (G : forest) (l : list rref)
  : option (list (option (nat * nat)) * list orec) :=
  match l with
  | [] => Some ([], [])
  | _ =>
      match each (v1_top false fuel (cap - length l)) l (G, [], 0%Z) with
      | None => None
      | Some (_, tops, total) =>
          match xserial fuel F Pt (XMem (replicate (Z.to_nat total) None) (fun _ => None)) (XWk tops None 0 0) with
          | None => None
          | Some t =>
              match mapM (v1_record_1 gm F (xm_ref t)) l with
              | None => None
              | Some rs => Some (xm_mem t, rs)
              end
          end
      end
  end.

(* img_mser_helper.cpp:56-66: the points of a record, m_points[0] to m_points[m_size - 1];
   None = a point outside the memory or not written *)
Definition k_read (mem : list (option (nat * nat))) (r : krec) : option (list (nat * nat)) :=
  match kr_pts r with
  | None => None
  | Some p => mapM (fun i => mjoin (mem !! i)) (seq p (kr_size r))
  end.

(* img_mser_base.cpp:92-107 with the functions of V1 for more than one thread: build_tree,
   recognize_mser and extract_pixel of one channel on the buffers [bs]; [sched] is the
   interleaving of recognition, [xsched] that of the copying *)
Definition v1_channel (n fuel threads : nat) (gm : N) (fresh : bool) (img : list N) (cols rows : nat)
  (P : rparam) (bs : list vbuf) (sched : forest -> list nat) (xsched : list (list wreg) -> list rref -> list nat)
  (var0 : rref -> flt) : option (list (list wreg) * list vbuf * list rref * kres) :=
  match v1_detect n fuel threads gm fresh img cols rows P bs sched var0 with
  | None => None
  | Some (F, os, s, l, k) =>
      match v1_extract_k fuel threads (h_size threads cols rows) gm F (vb_pts <$> os) (s_F s) l (xsched F l) with
      | None => None
      | Some R => Some (F, os, l, R)
      end
  end.

(* img_mser_base.cpp:92-107 with the functions of V1 for one thread *)
Definition v1_channel_1 (n fuel : nat) (gm : N) (fresh : bool) (img : list N) (cols rows : nat)
  (P : rparam) (bs : list vbuf) (sched : forest -> list nat) (var0 : rref -> flt)
  : option (list (list wreg) * list vbuf * list rref * (list (option (nat * nat)) * list orec)) :=
  match v1_detect n fuel 1 gm fresh img cols rows P bs sched var0 with
  | None => None
  | Some (F, os, s, l, k) =>
      match v1_extract_1 fuel (h_size 1 cols rows) gm F (vb_pts <$> os) (s_F s) l with
      | None => None
      | Some R => Some (F, os, l, R)
      end
  end.
