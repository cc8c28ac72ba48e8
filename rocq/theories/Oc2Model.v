(* Model of the OpenCV-style extraction (basicimg/src/img_opencv_mser.cpp, whole file, and
   basicimg/include/img_opencv_mser.h).

   Simplifications, valid for every definition below:
   - a null mask; assertions, logging, timers and the counters that are only logged are
     left out;
   - the loops of preProcessImage that copy the image and count its values are given by
     their results; columns of m_temp_image behind the right border keep old contents;
   - an i16 of m_temp_image is its pattern of 16 bits; it is negative if bit 15 is set;
   - pointers into an array are indices; heap_cur is an index of m_heap_start, NULL in
     m_heap is None;
   - m_comp is a stack, its top is comptr; m_comp[0] is at the bottom, of which only
     mGrayLevel is set; mHead and mTail of a component without points are None;
   - m_points and m_history are the lists of the entries handed out by ptsptr++ and
     histptr++, of which there are at most as many as pixels; mPrev is never read;
   - mGrayLevel + delta is an integer (no i32 overflow for a huge m_delta);
   - undefined behaviour and exhausted fuel are the outcome None / WStuck. *)
From stdpp Require Import sorting relations functions list_numbers list.
From Coq Require Import NArith ZArith SpecFloat.
From Verif Require Import FloodModel FloatModel RectModel RecogModel OcvModel.
Local Open Scope nat_scope.

(* img_opencv_mser.h:28-36: class GrowHistory *)
Record ghist := GHist { gh_short : nat; gh_child : nat; gh_stable : nat; gh_gray : nat; gh_size : nat }.
(* img_opencv_mser.h:38-48: class ConnectedComp *)
Record wcomp := WComp { w_gray : nat; w_size : nat; w_head : option nat; w_tail : option nat; w_hist : option nat;
  w_last : bool; w_var : flt }.
(* img_opencv_mser.cpp:156-181: a record, with m_size, m_points, m_rect and m_gray_level *)
Record wmser := WMser { wm_size : nat; wm_pts : list (Z * Z); wm_rect : rect; wm_level : nat }.
(* img_opencv_mser.cpp:237-245: m_points (coordinates and mNext), m_history and the records *)
Record wmem := WMem { wm_xy : list (Z * Z); wm_next : list (option nat); wm_hist : list ghist; wm_out : list wmser }.

(* img_opencv_mser.cpp:9-15 initComp, with the assignment of mGrayLevel next to its calls *)
Definition wcomp0 (g : nat) : wcomp := WComp g 0 None None None true fzero.

(* img_opencv_mser.cpp:23, 43, 69: mHistory->mChild = history *)
Definition gset_child (a : ghist) (c : nat) : ghist := GHist (gh_short a) c (gh_stable a) (gh_gray a) (gh_size a).
(* img_opencv_mser.cpp:111: history->mShortCut = shortcut *)
Definition gset_short (a : ghist) (s : nat) : ghist := GHist s (gh_child a) (gh_stable a) (gh_gray a) (gh_size a).
(* img_opencv_mser.cpp:135: mHistory->mStable = mHistory->mSize *)
Definition gset_stable (a : ghist) (s : nat) : ghist := GHist (gh_short a) (gh_child a) s (gh_gray a) (gh_size a).

(* img_opencv_mser.cpp:18-26, 39-46, 65-72: mShortCut and mStable of the new entry number n,
   and the older entries, one of which gets a new child *)
Definition wchain (hs : list ghist) (o : option nat) (n : nat) : option (nat * nat * list ghist) :=
  match o with
  | None => Some (n, 0, hs)
  | Some h => match hs !! h with
              | None => None
              | Some a => Some (gh_short a, gh_stable a, <[h := gset_child a n]> hs)
              end
  end.

(* img_opencv_mser.cpp:17-30 newHistory; [area] is the size of m_history *)
Definition wnew (area : nat) (c : wcomp) (hs : list ghist) : option (wcomp * list ghist) :=
  let n := length hs in
  if area <=? n then None else
  match wchain hs (w_hist c) n with
  | None => None
  | Some (sc, st, hs') =>
      Some (WComp (w_gray c) (w_size c) (w_head c) (w_tail c) (Some n) (w_last c) (w_var c),
            hs' ++ [GHist sc n st (w_gray c) (w_size c)])
  end.

(* img_opencv_mser.cpp:32-94 mergeComp, called (329) with comp = comp2 *)
Definition wmerge (area : nat) (c1 c2 : wcomp) (next : list (option nat)) (hs : list ghist)
  : option (wcomp * list (option nat) * list ghist) :=
  let n := length hs in
  if area <=? n then None else
  let '(a, b) := if w_size c2 <=? w_size c1 then (c1, c2) else (c2, c1) in
  match wchain hs (w_hist a) n with
  | None => None
  | Some (sc, st, hs1) =>
      match (match w_hist b with
             | None => Some st
             | Some h => match hs1 !! h with
                         | None => None
                         | Some e => Some (if st <? gh_stable e then gh_stable e else st)
                         end
             end) with
      | None => None
      | Some st' =>
          match (if (0 <? w_size c1) && (0 <? w_size c2)
                 then match w_tail a, w_head b with
                      | Some t, Some x => store next t (Some x)
                      | _, _ => None
                      end
                 else Some next) with
          | None => None
          | Some next' =>
              Some (WComp (w_gray c2) (w_size c1 + w_size c2)
                      (if 0 <? w_size a then w_head a else w_head b) (if 0 <? w_size b then w_tail b else w_tail a)
                      (Some n) (w_last a) (w_var a),
                    next', hs1 ++ [GHist sc n st' (w_gray a) (w_size a)])
          end
      end
  end.

(* img_opencv_mser.cpp:100-103: the loop along mShortCut *)
Fixpoint wback (n : nat) (hs : list ghist) (delta val : Z) (s : nat) : option nat :=
  match n with
  | O => None
  | S n' => match hs !! s with
            | None => None
            | Some a => if gh_short a =? s then Some s
                        else if (val <? Z.of_nat (gh_gray a) + delta)%Z then wback n' hs delta val (gh_short a)
                        else Some s
            end
  end.
(* img_opencv_mser.cpp:105-109: the loop along mChild *)
Fixpoint wforth (n : nat) (hs : list ghist) (delta val : Z) (s child : nat) : option nat :=
  match n with
  | O => None
  | S n' => match hs !! child with
            | None => None
            | Some a => if gh_child a =? child then Some s
                        else if (Z.of_nat (gh_gray a) + delta <=? val)%Z then wforth n' hs delta val child (gh_child a)
                        else Some s
            end
  end.
(* img_opencv_mser.cpp:96-119 calculateVariation *)
Definition wvariation (delta : Z) (c : wcomp) (hs : list ghist) : option (flt * list ghist) :=
  match w_hist c with
  | None => Some (f64_of_int 1, hs)
  | Some h =>
      match hs !! h with
      | None => None
      | Some a =>
          let val := Z.of_nat (w_gray c) in
          match wback (S (length hs)) hs delta val (gh_short a) with
          | None => None
          | Some s0 =>
              match hs !! s0 with
              | None => None
              | Some b =>
                  match wforth (S (length hs)) hs delta val s0 (gh_child b) with
                  | None => None
                  | Some s => match hs !! s with
                              | None => None
                              | Some e => Some (f64_growth (w_size c) (gh_size e), <[h := gset_short a s]> hs)
                              end
                  end
              end
          end
      end
  end.

(* img_opencv_mser.cpp:121-139 isStable *)
Definition wstable (P : rparam) (c : wcomp) (hs : list ghist) : option (bool * wcomp * list ghist) :=
  match w_hist c with
  | None => Some (false, c, hs)
  | Some h =>
      match hs !! h with
      | None => None
      | Some a =>
          if (Z.of_nat (gh_size a) <? p_min P)%Z || (p_max P <? Z.of_nat (gh_size a))%Z then Some (false, c, hs) else
          let div := SFdiv 53 1024 (f64_of_int (Z.of_nat (gh_size a) - Z.of_nat (gh_stable a))) (f64_of_int (Z.of_nat (gh_size a))) in
          match wvariation (p_delta P) c hs with
          | None => None
          | Some (var, hs1) =>
              match hs1 !! h with
              | None => None
              | Some a1 =>
                  let dvar := fgt var (w_var c) || (gh_gray a + 1 <? w_gray c) in
                  let stable := dvar && negb (w_last c) && fgt (f64_of_f32 (p_stable P)) (w_var c) && fgt div (f64_of_f32 (p_dup P)) in
                  Some (stable, WComp (w_gray c) (w_size c) (w_head c) (w_tail c) (w_hist c) dvar var,
                        if stable then <[h := gset_stable a1 (gh_size a1)]> hs1 else hs1)
              end
          end
      end
  end.

(* img_opencv_mser.cpp:141-154 accumulateComp; the point number k has been added to m_points *)
Definition waccumulate (c : wcomp) (k : nat) (next : list (option nat)) : option (wcomp * list (option nat)) :=
  if 0 <? w_size c then
    match w_tail c with
    | None => None
    | Some t => match store next t (Some k) with
                | None => None
                | Some next' => Some (WComp (w_gray c) (S (w_size c)) (w_head c) (Some k) (w_hist c) (w_last c) (w_var c), next')
                end
    end
  else Some (WComp (w_gray c) (S (w_size c)) (Some k) (Some k) (w_hist c) (w_last c) (w_var c), next).

(* img_opencv_mser.cpp:167-177: the points of the list from [o], n of them *)
Fixpoint wwalk (xy : list (Z * Z)) (next : list (option nat)) (o : option nat) (n : nat) : option (list (Z * Z)) :=
  match n with
  | O => Some []
  | S n' => match o with
            | None => None
            | Some k => match xy !! k, next !! k with
                        | Some q, Some o' => match wwalk xy next o' n' with Some l => Some (q :: l) | None => None end
                        | _, _ => None
                        end
            end
  end.
(* img_opencv_mser.cpp:162-177: colMin, rowMin, colMax, rowMax *)
Definition wbox (l : list (Z * Z)) : Z * Z * Z * Z :=
  foldl (fun '(x0, y0, x1, y1) '(x, y) => (Z.min x0 x, Z.min y0 y, Z.max x1 x, Z.max y1 y)) (int_max, int_max, 0%Z, 0%Z) l.
(* img_opencv_mser.cpp:156-181 toMSERInfo *)
Definition winfo (gm : N) (c : wcomp) (m : wmem) : option wmem :=
  match w_hist c with
  | None => None
  | Some h =>
      match wm_hist m !! h with
      | None => None
      | Some a =>
          match wwalk (wm_xy m) (wm_next m) (w_head c) (gh_size a) with
          | None => None
          | Some l =>
              let '(x0, y0, x1, y1) := wbox l in
              Some (WMem (wm_xy m) (wm_next m) (wm_hist m)
                (wm_out m ++ [WMser (gh_size a) l (Rect x0 y0 (x1 - x0 + 1) (y1 - y0 + 1))
                                (if (gm =? 0)%N then w_gray c mod 256 else 255 - w_gray c mod 256)]))
          end
      end
  end.

(* img_opencv_mser.cpp:317-324, 337-345: check the stability, push a new history and raise
   the component to the level v *)
Definition wraise (P : rparam) (gm : N) (area v : nat) (c : wcomp) (m : wmem) : option (wcomp * wmem) :=
  match wstable P c (wm_hist m) with
  | None => None
  | Some (stable, c1, hs) =>
      let m1 := WMem (wm_xy m) (wm_next m) hs (wm_out m) in
      match (if stable then winfo gm c1 m1 else Some m1) with
      | None => None
      | Some m2 =>
          match wnew area c1 (wm_hist m2) with
          | None => None
          | Some (c2, hs2) => Some (WComp v (w_size c2) (w_head c2) (w_tail c2) (w_hist c2) (w_last c2) (w_var c2),
                                    WMem (wm_xy m2) (wm_next m2) hs2 (wm_out m2))
          end
      end
  end.

(* img_opencv_mser.cpp:326-348: merge the top two components until the level fits *)
Fixpoint wjoin (P : rparam) (gm : N) (area v : nat) (c : wcomp) (rest : list wcomp) (m : wmem) : option (list wcomp * wmem) :=
  match rest with
  | [] => None
  | c2 :: rest' =>
      match wmerge area c c2 (wm_next m) (wm_hist m) with
      | None => None
      | Some (c', next', hs') =>
          let m' := WMem (wm_xy m) next' hs' (wm_out m) in
          if v <=? w_gray c' then Some (c' :: rest', m') else
          match rest' with
          | [] => None
          | c3 :: _ => if v <? w_gray c3
                       then match wraise P gm area v c' m' with Some (c'', m'') => Some (c'' :: rest', m'') | None => None end
                       else wjoin P gm area v c' rest' m'
          end
      end
  end.

(* ---------- extractPass ---------- *)

(* img_opencv_mser.cpp:241-247: imgptr, heap_cur, the arrays and the stack of components *)
Record wst := WSt { s_img : list N; s_cur : nat; s_lev : nat; s_heap : list (option nat); s_hs : list nat;
  s_comps : list wcomp; s_mem : wmem }.
(* img_opencv_mser.cpp:257-353: outcome of an iteration; WStuck: undefined behaviour *)
Inductive wres := WNext (s : wst) | WHalt (s : wst) | WStuck.

(* img_opencv_mser.cpp:263: the value is negative *)
Definition negative16 (v : N) : bool := N.testbit v 15.
(* img_opencv_mser.cpp:250: the low byte *)
Definition gray_of (v : N) : nat := N.to_nat (N.land v 0xff).
(* img_opencv_mser.cpp:259-261: bits 8 to 10, the direction *)
Definition dir_of (v : N) : nat := N.to_nat (N.shiftr (N.land v 0x700) 8).
(* img_opencv_mser.cpp:274, 289: += 0x100 *)
Definition next_dir (v : N) : N := ((v + 0x100) mod 2 ^ 16)%N.

(* img_opencv_mser.cpp:302-310: i and heap_cur of the search, n rounds left *)
Fixpoint wfind (heap : list (option nat)) (hs : list nat) (lev i n : nat) : option (option (nat * nat)) :=
  match n with
  | O => Some None
  | S n' => match heap_top heap hs lev with
            | None => None
            | Some (Some _) => Some (Some (i, lev))
            | Some None => wfind heap hs (S lev) (S i) n'
            end
  end.

Section pass.
(* width of m_temp_image, number of pixels, m_step_gap, gray_mask and the parameters *)
Context (W area : nat) (gap : Z) (gm : N) (P : rparam).

(* img_opencv_mser.cpp:259-290: one direction of the tour; v is the word of the current pixel *)
Definition wtour (v : N) (s : wst) : wres :=
  match onbr W (s_cur s) (S (dir_of v)) with
  | None => WStuck
  | Some q =>
      match s_img s !! q with
      | None => WStuck
      | Some u =>
          if negative16 u then WNext (WSt (<[s_cur s := next_dir v]> (s_img s)) (s_cur s) (s_lev s) (s_heap s) (s_hs s) (s_comps s) (s_mem s))
          else
          let img := <[s_cur s := next_dir v]> (<[q := N.lor u 0x8000]> (s_img s)) in
          if s_lev s + gray_of u <? gray_of v then WStuck else
          let lev := s_lev s + gray_of u - gray_of v in
          if gray_of u <? gray_of v then
            match heap_push (s_heap s) (s_hs s) (s_lev s) (s_cur s) with
            | None => WStuck
            | Some (heap, hs) =>
                if length (s_comps s) <? 257
                then WNext (WSt img q lev heap hs (wcomp0 (gray_of u) :: s_comps s) (s_mem s)) else WStuck
            end
          else
            match heap_push (s_heap s) (s_hs s) lev q with
            | None => WStuck
            | Some (heap, hs) => WNext (WSt img (s_cur s) (s_lev s) heap hs (s_comps s) (s_mem s))
            end
      end
  end.

(* img_opencv_mser.cpp:291-293: the point of the pixel p *)
Definition wpoint (p : nat) : option (Z * Z) :=
  if p <? W + 1 then None else
  if (0 <=? gap)%Z && (gap <? 32)%Z then
    Some (Z.of_nat (Nat.land (p - (W + 1)) (W - 1)), Z.shiftr (Z.of_nat (p - (W + 1))) gap)
  else None.

(* img_opencv_mser.cpp:299-300, 313-314: the next pixel *)
Definition wtake (img : list N) (heap : list (option nat)) (hs : list nat) (lev : nat) (comps : list wcomp) (m : wmem) : wres :=
  match heap_top heap hs lev, heap_pop hs lev with
  | Some (Some p), Some hs' => WNext (WSt img p lev heap hs' comps m)
  | _, _ => WStuck
  end.

(* img_opencv_mser.cpp:291-352: the current pixel is finished; v is its word *)
Definition wfinish (v : N) (s : wst) : wres :=
  let m := s_mem s in
  let k := length (wm_xy m) in
  match wpoint (s_cur s), s_comps s with
  | Some q, c :: rest =>
      if area <=? k then WStuck else
      match waccumulate c k (wm_next m ++ [None]) with
      | None => WStuck
      | Some (c1, next) =>
          let m1 := WMem (wm_xy m ++ [q]) next (wm_hist m) (wm_out m) in
          match heap_top (s_heap s) (s_hs s) (s_lev s) with
          | None => WStuck
          | Some (Some _) => wtake (s_img s) (s_heap s) (s_hs s) (s_lev s) (c1 :: rest) m1
          | Some None =>
              match wfind (s_heap s) (s_hs s) (S (s_lev s)) (S (gray_of v)) (255 - gray_of v) with
              | None => WStuck
              | Some None => WHalt (WSt (s_img s) (s_cur s) (s_lev s) (s_heap s) (s_hs s) (c1 :: rest) m1)
              | Some (Some (g, lev)) =>
                  match rest with
                  | [] => WStuck
                  | c2 :: _ =>
                      match (if g <? w_gray c2
                             then match wraise P gm area g c1 m1 with Some (c', m') => Some (c' :: rest, m') | None => None end
                             else wjoin P gm area g c1 rest m1) with
                      | None => WStuck
                      | Some (comps, m2) => wtake (s_img s) (s_heap s) (s_hs s) lev comps m2
                      end
                  end
              end
          end
      end
  | _, _ => WStuck
  end.

(* img_opencv_mser.cpp:257-353: one direction, or the end of the tour *)
Definition wstep (s : wst) : wres :=
  match s_img s !! s_cur s with
  | None => WStuck
  | Some v => if (N.land v 0x700 <? 0x400)%N then wtour v s else wfinish v s
  end.
(* img_opencv_mser.cpp:257-353: n iterations *)
Fixpoint wrun (n : nat) (s : wst) : wres :=
  match n with
  | O => WNext s
  | S n' => match wstep s with WNext s' => wrun n' s' | r => r end
  end.

(* img_opencv_mser.cpp:241-255, 418: the state in which the loop is entered *)
Definition winit (img : list N) (heap : list (option nat)) (hs : list nat) : wres :=
  match img !! (W + 1) with
  | None => WStuck
  | Some v => WNext (WSt (<[W + 1 := N.lor v 0x8000]> img) (W + 1) (gray_of v) heap hs
                [wcomp0 (gray_of v); WComp 256 0 None None None false fzero] (WMem [] [] [] []))
  end.
End pass.

(* ---------- preparation ---------- *)

(* img_opencv_mser.cpp:374-379: width and stepgap; [n] bounds the number of doublings *)
Fixpoint wwidth (n need width stepgap : nat) : nat * nat :=
  match n with
  | O => (width, stepgap)
  | S n' => if width <? need then wwidth n' need (2 * width) (S stepgap) else (width, stepgap)
  end.
(* img_opencv_mser.cpp:374-384: the width of m_temp_image for images of w columns *)
Definition wide (w : nat) : nat := fst (wwidth (w + 2) (w + 2) 8 3).
(* img_opencv_mser.cpp:375-379: the variable stepgap, which is not stored *)
Definition stepgap (w : nat) : nat := snd (wwidth (w + 2) (w + 2) 8 3).

(* img_opencv_mser.cpp:200-224: the value stored for a byte of the image *)
Definition wvalue (gm : N) (v : N) : N := if (gm =? 0)%N then (0xff - v)%N else v.

(* img_opencv_mser.cpp:183-228: m_temp_image; [step] the bytes per row of the image, [old]
   the contents before *)
Definition wfill (src : list N) (step w h : nat) (gm : N) (old : list N) : option (list N) :=
  let W := wide w in
  mapM (fun i =>
    let y := i / W in let x := i mod W in
    if (1 <=? y) && (y <=? h) && (1 <=? x) && (x <=? w)
    then wvalue gm <$> src !! ((y - 1) * step + (x - 1))
    else if x <? w + 2 then Some 0xffff%N else old !! i) (seq 0 (W * (h + 2))).

(* img_opencv_mser.cpp:188-191, 204, 217: level_size *)
Definition wcounts (src : list N) (step w h : nat) (gm : N) : option (list nat) :=
  match mapM (fun k => wvalue gm <$> src !! (k / w * step + k mod w)) (seq 0 (w * h)) with
  | None => None
  | Some l => Some (map (fun g => length (filter (fun v => N.to_nat v = g) l)) (seq 0 256))
  end.

(* img_opencv_mser.cpp:230-234: m_heap_start; entry 0 has its value from allocate_memory
   (391) or the pass before *)
Definition wheaps (lvl : list nat) (heap : list (option nat)) (hs : list nat) : option (list (option nat) * list nat) :=
  match hs !! 0 with
  | None => None
  | Some a => match store heap a None with
              | None => None
              | Some heap' => for_from 1 255 (oheap_start lvl) (heap', hs)
              end
  end.

(* img_opencv_mser.h:74-78: m_temp_image, m_heap, m_heap_start *)
Record wbuf := WBuf { wb_img : list N; wb_heap : list (option nat); wb_hs : list nat }.

(* img_opencv_mser.cpp:405-421: build_tree and extract_pixel; n bounds the rounds *)
Definition w_pass (n : nat) (src : list N) (step w h : nat) (P : rparam) (gap : Z) (gm : N) (b : wbuf)
  : option (list wmser * wst * wbuf) :=
  match wfill src step w h gm (wb_img b), wcounts src step w h gm with
  | Some img, Some lvl =>
      match wheaps lvl (wb_heap b) (wb_hs b) with
      | None => None
      | Some (heap, hs) =>
          match winit (wide w) img heap hs with
          | WNext s =>
              match wrun (wide w) (w * h) gap gm P n s with
              | WHalt s' => Some (wm_out (s_mem s'), s', WBuf (s_img s') (s_heap s') (s_hs s'))
              | _ => None
              end
          | _ => None
          end
      end
  | _, _ => None
  end.

(* img_opencv_mser.cpp:373-403: the buffers after allocate_memory, with arbitrary contents;
   m_heap_start[0] points to the start of m_heap *)
Definition walloc (w h : nat) (d : N) (k : nat) : wbuf :=
  WBuf (replicate (wide w * (h + 2)) d) (replicate (w * h + 256) (Some k)) (0 :: replicate 255 k).

(* img_mser_base.cpp:84-107: a call; dark and bright are the entries of m_from_min_max *)
Definition w_call (n : nat) (src : list N) (step w h : nat) (P : rparam) (gap : Z) (dark bright : bool) (b : wbuf)
  : option (list wmser * list wmser) :=
  match (if dark then match w_pass n src step w h P gap 0 b with Some (r, _, b') => Some (r, b') | None => None end
         else Some ([], b)) with
  | None => None
  | Some (r0, b1) =>
      if bright then match w_pass n src step w h P gap 255 b1 with Some (r1, _, _) => Some (r0, r1) | None => None end
      else Some (r0, [])
  end.
