(* Model of the OpenCV3-style extraction (basicimg/src/img_opencv3_mser.cpp, whole file,
   and its header).

   Simplifications:
   - m_tempsrc is continuous (allocate_memory copies any other image), so the image is the
     list of its rows * cols samples and the row step is cols;
   - an int pixel word is its 32-bit pattern, so the shift 5 << DIR_SHIFT, which overflows a
     signed int, is taken to wrap as all compilers do;
   - the array comp[257] is a stack whose top is comptr, with the sentinel comp[0] at its
     bottom; init() overwrites every field of an entry that is entered again;
   - m_histbuf is the list of the entries handed out by hptr++, of which there are at most
     rows * cols; all fields of an entry are written when it is handed out;
   - undefined behaviour (access outside an array, a null or foreign pointer, signed
     overflow of an empty bounding box, the swap of 157-158, which would alias this) and
     exhausted fuel are the outcome None / OStuck;
   - logging, timers, assertions and m_channel_total_running_memory are left out. *)
From stdpp Require Import sorting relations functions list_numbers list.
From Coq Require Import NArith ZArith SpecFloat.
From Verif Require Import FloodModel FloatModel RectModel RecogModel.
Local Open Scope nat_scope.

(* ---------- pixel words, img_opencv3_mser.h:19-40 ---------- *)
(* img_opencv3_mser.h:19: DIR_SHIFT, NEXT_MASK *)
Definition next_mask : N := N.ones 29.
(* img_opencv3_mser.h:32 *)
Definition get_next (v : N) : N := N.land v next_mask.
(* img_opencv3_mser.h:33 *)
Definition set_onext (v n : N) : N := N.lor (N.ldiff v next_mask) n.
(* img_opencv3_mser.h:35 *)
Definition get_dir (v : N) : N := N.shiftr v 29.
(* img_opencv3_mser.h:36 *)
Definition set_dir (v d : N) : N := N.lor (N.land v next_mask) (N.shiftl d 29).
(* img_opencv3_mser.h:37 *)
Definition visited (v : N) : bool := negb (N.ldiff v next_mask =? 0)%N.
(* img_opencv3_mser.cpp:287,295,309: val = d << DIR_SHIFT *)
Definition dir_word (d : nat) : N := N.shiftl (N.of_nat d) 29.
(* img_opencv3_mser.h:26-31 getGray *)
Definition get_gray (src : list N) (gm : N) (p : nat) : option nat :=
  match src !! p with Some v => Some (N.to_nat (N.lxor v gm)) | None => None end.

(* ---------- img_opencv3_mser.h:56-78: struct CompHistory ---------- *)
Record ohist := OHist {
  h_child : option nat; h_parent : option nat; h_next : option nat;
  h_val : nat; h_size : nat; h_var : flt; h_head : nat; h_checked : bool
}.
(* img_opencv3_mser.h:80-107: struct ConnectedComp; 0 stands for no pixel as in the code *)
Record ocomp := OComp { o_gray : nat; o_size : nat; o_head : nat; o_tail : nat; o_hist : option nat }.
(* img_opencv3_mser.cpp:84-108: a region pushed to wp.msers *)
Record omser := OMser { om_size : nat; om_pts : list (Z * Z); om_rect : rect }.
(* img_opencv3_mser.cpp:8-112, img_opencv3_mser.h:40-54: the state updateTree and checkAndCapture work on:
   m_histbuf, wp.msers, *wp.m_total_pixel_number *)
Record otree := OTree { ot_h : list ohist; ot_out : list omser; ot_total : N }.

(* single field updates of a CompHistory, img_opencv3_mser.cpp:51,64,130,187-189,194-199 *)
Definition h_set_child (a : ohist) (c : option nat) : ohist :=
  OHist c (h_parent a) (h_next a) (h_val a) (h_size a) (h_var a) (h_head a) (h_checked a).
(* img_opencv3_mser.cpp:130,187-199: assignment to parent_ *)
Definition h_set_parent (a : ohist) (p : option nat) : ohist :=
  OHist (h_child a) p (h_next a) (h_val a) (h_size a) (h_var a) (h_head a) (h_checked a).
(* img_opencv3_mser.cpp:130,187-199: assignment to next_ *)
Definition h_set_next (a : ohist) (x : option nat) : ohist :=
  OHist (h_child a) (h_parent a) x (h_val a) (h_size a) (h_var a) (h_head a) (h_checked a).
(* img_opencv3_mser.cpp:51: assignment to var *)
Definition h_set_var (a : ohist) (v : flt) : ohist :=
  OHist (h_child a) (h_parent a) (h_next a) (h_val a) (h_size a) v (h_head a) (h_checked a).
(* img_opencv3_mser.cpp:64: assignment to checked *)
Definition h_set_checked (a : ohist) : ohist :=
  OHist (h_child a) (h_parent a) (h_next a) (h_val a) (h_size a) (h_var a) (h_head a) true.
(* img_opencv3_mser.cpp:134-143: the fields growHistory records *)
Definition h_record (a : ohist) (g k hd : nat) (v : flt) (ch : bool) : ohist :=
  OHist (h_child a) (h_parent a) (h_next a) g k v hd ch.
(* assignment through a pointer into m_histbuf, e.g. img_opencv3_mser.cpp:51 *)
Definition hput (hs : list ohist) (i : nat) (f : ohist -> ohist) : option (list ohist) :=
  match hs !! i with Some a => Some (<[i := f a]> hs) | None => None end.

(* img_opencv3_mser.cpp:137: FLT_MAX *)
Definition flt_max : flt := S754_finite false 16777215 104.
(* img_opencv3_mser.cpp:83: INT_MAX *)
Definition int_max : Z := 2147483647.
(* img_opencv3_mser.cpp:83: INT_MIN *)
Definition int_min : Z := (-2147483648).
(* img_opencv3_mser.cpp:51: (float)(h1->size - h0->size)/size *)
Definition ovariation (big small k : nat) : flt :=
  SFdiv 24 128 (f32_of_int (Z.of_nat big - Z.of_nat small)) (f32_of_int (Z.of_nat k)).

(* img_opencv3_mser.cpp:95-106: the pixels of the list from p, j of them still to read *)
Fixpoint opixels (pix : list N) (step : nat) (p : nat) (j : nat) : option (list (Z * Z)) :=
  match j with
  | O => Some []
  | S j' => match pix !! p with
            | None => None
            | Some v => match opixels pix step (N.to_nat (get_next v)) j' with
                        | Some l => Some ((Z.of_nat (p - p / step * step), Z.of_nat (p / step)) :: l)
                        | None => None
                        end
            end
  end.
(* img_opencv3_mser.cpp:83,100-103 *)
Definition obox (l : list (Z * Z)) : Z * Z * Z * Z :=
  foldl (fun '(x0, y0, x1, y1) '(x, y) => (Z.min x0 x, Z.min y0 y, Z.max x1 x, Z.max y1 y))
        (int_max, int_max, int_min, int_min) l.

(* img_opencv3_mser.cpp:72-77: a child with a much smaller variation exists; m bounds the
   length of the list of children *)
Fixpoint okids_better (P : rparam) (hs : list ohist) (a : ohist) (c : option nat) (m : nat) : option bool :=
  match c with
  | None => Some false
  | Some j => match m, hs !! j with
              | S m', Some b =>
                  if fge (h_var b) fzero && (h_val a =? h_val b + 1) && fgt (SFsub 24 128 (h_var a) (h_var b)) (p_nms P)
                  then Some true else okids_better P hs a (h_next b) m'
              | _, _ => None
              end
  end.
(* img_opencv3_mser.cpp:79: the parent has a much smaller variation *)
Definition oparent_better (P : rparam) (hs : list ohist) (a : ohist) : option bool :=
  match h_parent a with
  | None => Some false
  | Some t => match hs !! t with
              | Some b => Some (fge (h_var a) fzero && fge (h_var b) fzero && (h_val a + 1 =? h_val b) &&
                                fgt (SFsub 24 128 (h_var a) (h_var b)) (p_nms P))
              | None => None
              end
  end.

(* img_opencv3_mser.cpp:60-109 *)
Definition ocapture (P : rparam) (pix : list N) (step : nat) (i : nat) (s : otree) : option otree :=
  match ot_h s !! i with
  | None => None
  | Some a =>
      if h_checked a then Some s else
      let hs := <[i := h_set_checked a]> (ot_h s) in
      let skip := Some (OTree hs (ot_out s) (ot_total s)) in
      if (Z.of_nat (h_size a) <? p_min P)%Z || (p_max P <? Z.of_nat (h_size a))%Z || fgt fzero (h_var a) ||
         fgt (f64_of_f32 (h_var a)) (f64_of_f32 (p_stable P)) then skip else
      let stop := if fge (p_nms P) fzero then
                    match (if fge (h_var a) fzero then okids_better P hs a (h_child a) (length hs) else Some false) with
                    | Some true => Some true
                    | Some false => oparent_better P hs a
                    | None => None
                    end
                  else Some false in
      match stop with
      | None => None
      | Some true => skip
      | Some false =>
          match opixels pix step (h_head a) (h_size a) with
          | None => None
          | Some l =>
              if h_size a =? 0 then None else
              let '(x0, y0, x1, y1) := obox l in
              Some (OTree hs (ot_out s ++ [OMser (h_size a) l (Rect x0 y0 (x1 - x0 + 1) (y1 - y0 + 1))])
                          ((ot_total s + N.of_nat (h_size a)) mod 2 ^ 32)%N)
          end
      end
  end.

(* img_opencv3_mser.cpp:53-55: all children; m bounds the length of their list *)
Fixpoint ocapture_kids (P : rparam) (pix : list N) (step : nat) (c : option nat) (m : nat) (s : otree) : option otree :=
  match c with
  | None => Some s
  | Some j => match m with
              | O => None
              | S m' => match ocapture P pix step j s with
                        | None => None
                        | Some s' => match ot_h s' !! j with
                                     | None => None
                                     | Some b => ocapture_kids P pix step (h_next b) m' s'
                                     end
                        end
              end
  end.

(* img_opencv3_mser.cpp:31-32 *)
Fixpoint oclimb_to (hs : list ohist) (this : nat) (lo : Z) (i n : nat) : option nat :=
  if i =? this then Some i else
  match hs !! i with
  | None => None
  | Some a => if (Z.of_nat (h_val a) <? lo)%Z then
                match n, h_parent a with
                | S n', Some p => oclimb_to hs this lo p n'
                | _, _ => None
                end
              else Some i
  end.
(* img_opencv3_mser.cpp:36-37 *)
Fixpoint odescend (hs : list ohist) (lo : Z) (i n : nat) : option nat :=
  match hs !! i with
  | None => None
  | Some a => match h_child a with
              | None => Some i
              | Some c => match hs !! c with
                          | None => None
                          | Some b => if (lo <=? Z.of_nat (h_val b))%Z then
                                        match n with S n' => odescend hs lo c n' | O => None end
                                      else Some i
                          end
              end
  end.
(* img_opencv3_mser.cpp:40-41 *)
Fixpoint oclimb (hs : list ohist) (hi : Z) (i n : nat) : option nat :=
  match hs !! i with
  | None => None
  | Some a => match h_parent a with
              | None => Some i
              | Some p => match hs !! p with
                          | None => None
                          | Some b => if (Z.of_nat (h_val b) <=? hi)%Z then
                                        match n with S n' => oclimb hs hi p n' | O => None end
                                      else Some i
                          end
              end
  end.

(* img_opencv3_mser.cpp:31-42: a bound of the loops along parent_ and child_, which follow levels below 257 *)
Definition depth : nat := 258.

(* img_opencv3_mser.cpp:28-57, after the children; hh: the values of h0_ and h1_ *)
Definition oupdate_this (P : rparam) (pix : list N) (step : nat) (final : bool) (i : nat) (hh : option (nat * nat)) (s : otree)
  : option (otree * option (nat * nat)) :=
  let hs := ot_h s in
  match hs !! i with
  | None => None
  | Some a =>
      let lo := (Z.of_nat (h_val a) - p_delta P)%Z in
      let hi := (Z.of_nat (h_val a) + p_delta P)%Z in
      let h0 := match hh with Some (x, _) => oclimb_to hs i lo x depth | None => odescend hs lo i depth end in
      let start := match hh with
                   | Some (_, y) => match hs !! y with
                                    | Some b => Some (if h_size a <? h_size b then y else i)
                                    | None => None
                                    end
                   | None => Some i
                   end in
      let h1 := match start with Some y => oclimb hs hi y depth | None => None end in
      match h0, h1 with
      | Some x, Some y =>
          match hs !! x, hs !! y with
          | Some b0, Some b1 =>
              if negb final && match h_parent b1 with None => true | _ => false end && (Z.of_nat (h_val b1) <? hi)%Z
              then Some (s, Some (x, y))
              else
                let a' := h_set_var a (ovariation (h_size b1) (h_size b0) (h_size a)) in
                match ocapture_kids P pix step (h_child a) (length hs) (OTree (<[i := a']> hs) (ot_out s) (ot_total s)) with
                | None => None
                | Some s' =>
                    if final && match h_parent a with None => true | _ => false end
                    then match ocapture P pix step i s' with Some s'' => Some (s'', Some (x, y)) | None => None end
                    else Some (s', Some (x, y))
                end
          | _, _ => None
          end
      | _, _ => None
      end
  end.

(* img_opencv3_mser.cpp:5-58; n bounds the depth of the recursion; the result carries the
   values assigned to *_h0 and *_h1, if they are assigned *)
Fixpoint oupdate (P : rparam) (pix : list N) (step : nat) (n : nat) (final : bool) (i : nat) (s : otree)
  : option (otree * option (nat * nat)) :=
  match n with
  | O => None
  | S n' =>
      match ot_h s !! i with
      | None => None
      | Some a =>
          if fge (h_var a) fzero then Some (s, None) else
          (* 15-21; the last component tells whether the loop ran to its end *)
          let fix loop (m : nat) (c : option nat) (first : bool) (hh : option (nat * nat)) (s : otree)
            : option (otree * option (nat * nat) * bool) :=
            match c with
            | None => Some (s, hh, true)
            | Some j =>
                match m, ot_h s !! j with
                | S m', Some b =>
                    match (if fgt fzero (h_var b) then
                             match oupdate P pix step n' final j s with
                             | Some (s', o) => Some (s', if first then o else hh)
                             | None => None
                             end
                           else Some (s, hh)) with
                    | None => None
                    | Some (s', hh') =>
                        match ot_h s' !! j with
                        | None => None
                        | Some b' => if fgt fzero (h_var b') then Some (s', hh', false)
                                     else loop m' (h_next b') false hh' s'
                        end
                    end
                | _, _ => None
                end
            end in
          match (if (p_min P <=? Z.of_nat (h_size a))%Z then loop (length (ot_h s)) (h_child a) true None s
                 else Some (s, None, true)) with
          | None => None
          | Some (s', _, false) => Some (s', None)
          | Some (s', hh, true) => oupdate_this P pix step final i hh s'
          end
      end
  end.

(* img_opencv3_mser.cpp:111-151; area bounds m_histbuf *)
Definition ogrow (P : rparam) (pix : list N) (step area : nat) (new : nat) (final : bool) (c : ocomp) (s : otree)
  : option (ocomp * otree) :=
  let new' := if new <? o_gray c then o_gray c else new in
  let own := match o_hist c with
             | Some i => match ot_h s !! i with
                         | Some a => if h_val a =? o_gray c then Some (i, ot_h s) else None
                         | None => None
                         end
             | None => None
             end in
  let place := match own with
               | Some r => Some r
               | None =>
                   if length (ot_h s) <? area then
                     let i := length (ot_h s) in
                     let h := OHist (o_hist c) None None 0 0 fzero 0 false in
                     match o_hist c with
                     | None => Some (i, ot_h s ++ [h])
                     | Some j => match hput (ot_h s) j (fun a => h_set_parent a (Some i)) with
                                 | Some hs => Some (i, hs ++ [h])
                                 | None => None
                                 end
                     end
                   else None
               end in
  match place with
  | None => None
  | Some (i, hs) =>
      let big := (p_min P <=? Z.of_nat (o_size c))%Z in
      match hput hs i (fun a => h_record a (o_gray c) (o_size c) (o_head c) (if big then fminus1 else flt_max) (negb big)) with
      | None => None
      | Some hs' =>
          let s' := OTree hs' (ot_out s) (ot_total s) in
          let c' := OComp new' (o_size c) (o_head c) (o_tail c) (Some i) in
          if o_gray c =? new' then Some (c', s')
          else match oupdate P pix step depth final i s' with
               | Some (s'', _) => Some (c', s'')
               | None => None
               end
      end
  end.

(* img_opencv3_mser.cpp:179-201 *)
Definition oattach (P : rparam) (hs : list ohist) (t h2 : nat) : option (list ohist) :=
  match hs !! t, hs !! h2 with
  | Some a, Some b =>
      match h_child a with
      | None =>
          match hput hs t (fun a => h_set_child a (Some h2)) with
          | Some hs1 => hput hs1 h2 (fun b => h_set_parent b (Some t))
          | None => None
          end
      | Some h1 =>
          match hs !! h1 with
          | None => None
          | Some e =>
              if h_size b <? h_size e then
                if (p_min P <=? Z.of_nat (h_size b))%Z then
                  match hput hs h2 (fun b => h_set_next b (h_next e)) with
                  | None => None
                  | Some hs1 => match hput hs1 h1 (fun e => h_set_next e (Some h2)) with
                                | None => None
                                | Some hs2 => hput hs2 h2 (fun b => h_set_parent b (Some t))
                                end
                  end
                else Some hs
              else
                match hput hs t (fun a => h_set_child a (Some h2)) with
                | None => None
                | Some hs1 =>
                    match hput hs1 h2 (fun b => h_set_parent b (Some t)) with
                    | None => None
                    | Some hs2 => if (p_min P <=? Z.of_nat (h_size e))%Z
                                  then hput hs2 h2 (fun b => h_set_next b (Some h1)) else Some hs2
                    end
                end
          end
      end
  | _, _ => None
  end.

(* img_opencv3_mser.cpp:154-202, called (350) with this = comp1 *)
Definition omerge (P : rparam) (pix : list N) (step area : nat) (c1 c2 : ocomp) (s : otree)
  : option (ocomp * list N * otree) :=
  if o_gray c1 <? o_gray c2 then None else
  let g := o_gray c1 in
  match ogrow P pix step area g false c1 s with
  | None => None
  | Some (c1', s1) =>
      match ogrow P pix step area g false c2 s1 with
      | None => None
      | Some (c2', s2) =>
          let lists := if o_size c1' =? 0 then Some (o_head c2', pix)
                       else match pix !! o_tail c1' with
                            | Some v => Some (o_head c1', <[o_tail c1' := set_onext v (N.of_nat (o_head c2'))]> pix)
                            | None => None
                            end in
          match lists, o_hist c1', o_hist c2' with
          | Some (hd, pix'), Some t, Some h2 =>
              match oattach P (ot_h s2) t h2 with
              | Some hs => Some (OComp g (o_size c1' + o_size c2') hd (o_tail c2') (Some t), pix',
                                 OTree hs (ot_out s2) (ot_total s2))
              | None => None
              end
          | _, _, _ => None
          end
      end
  end.

(* ---------- the flooding loop, img_opencv3_mser.cpp:245-362 ---------- *)
(* img_opencv3_mser.cpp:250-278: the local state of extract_pixel: ptr, nbr_idx, curr_gray, the components from
   comptr down to comp[0], and the member buffers *)
Record ost := OSt {
  t_pix : list N; t_cur : nat; t_d : nat; t_gray : nat;
  t_heap : list (option nat); t_hs : list nat; t_comps : list ocomp; t_tree : otree
}.
(* img_opencv3_mser.cpp:273-354: outcome of an iteration; OStuck: undefined behaviour *)
Inductive ores := ONext (s : ost) | OHalt (s : ost) | OStuck.

Section pass.
(* the image, its size, gray_mask and the parameters *)
Context (src : list N) (rows cols : nat) (gm : N) (P : rparam).

(* img_opencv3_mser.cpp:272,283: ptr + dir[nbr_idx] *)
Definition onbr (p d : nat) : option nat :=
  match d with
  | 1 => Some (p + 1)
  | 2 => Some (p + cols)
  | 3 => if 1 <=? p then Some (p - 1) else None
  | 4 => if cols <=? p then Some (p - cols) else None
  | _ => None
  end.

(* img_opencv3_mser.cpp:283-305: one direction of the tour *)
Definition otour (s : ost) : ores :=
  match onbr (t_cur s) (t_d s) with
  | None => OStuck
  | Some q =>
      match t_pix s !! q with
      | None => OStuck
      | Some v =>
          if visited v then ONext (OSt (t_pix s) (t_cur s) (S (t_d s)) (t_gray s) (t_heap s) (t_hs s) (t_comps s) (t_tree s))
          else
          let pix1 := <[q := dir_word 1]> (t_pix s) in
          match get_gray src gm q with
          | None => OStuck
          | Some g =>
              if g <? t_gray s then
                match heap_push (t_heap s) (t_hs s) (t_gray s) (t_cur s) with
                | None => OStuck
                | Some (heap', hs') =>
                    if length (t_comps s) <? 257 then
                      ONext (OSt (<[t_cur s := dir_word (S (t_d s))]> pix1) q 1 g heap' hs'
                                 (OComp g 0 0 0 None :: t_comps s) (t_tree s))
                    else OStuck
                end
              else
                match heap_push (t_heap s) (t_hs s) g q with
                | None => OStuck
                | Some (heap', hs') => ONext (OSt pix1 (t_cur s) (S (t_d s)) (t_gray s) heap' hs' (t_comps s) (t_tree s))
                end
          end
      end
  end.

(* img_opencv3_mser.cpp:314-319: add the current pixel to the list of the top component *)
Definition oadd (pix : list N) (p : nat) (c : ocomp) : option (list N * ocomp) :=
  if o_tail c =? 0 then Some (pix, OComp (o_gray c) (S (o_size c)) p p (o_hist c))
  else match pix !! o_tail c with
       | Some v => Some (<[o_tail c := set_onext v (N.of_nat p)]> pix, OComp (o_gray c) (S (o_size c)) (o_head c) p (o_hist c))
       | None => None
       end.

(* img_opencv3_mser.cpp:323-324,336-337 and 277-278 of the next round *)
Definition otake (pix : list N) (heap : list (option nat)) (hs : list nat) (g : nat) (comps : list ocomp) (t : otree) : ores :=
  match heap_top heap hs g, heap_pop hs g with
  | Some (Some p), Some hs' =>
      match pix !! p, get_gray src gm p with
      | Some v, Some g' => ONext (OSt pix p (N.to_nat (get_dir v)) g' heap hs' comps t)
      | _, _ => OStuck
      end
  | _, _ => OStuck
  end.

(* img_opencv3_mser.cpp:328-332: i from g, n levels left; None = undefined behaviour *)
Fixpoint ofind (heap : list (option nat)) (hs : list nat) (g n : nat) : option (option nat) :=
  match n with
  | O => Some None
  | S n' => match heap_top heap hs g with
            | None => None
            | Some (Some _) => Some (Some g)
            | Some None => ofind heap hs (S g) n'
            end
  end.

(* img_opencv3_mser.cpp:309-353: the current pixel is finished *)
Definition ofinish (s : ost) : ores :=
  let pix0 := <[t_cur s := dir_word (t_d s)]> (t_pix s) in
  match t_comps s with
  | c :: rest =>
      match oadd pix0 (t_cur s) c with
      | None => OStuck
      | Some (pix1, c1) =>
          match heap_top (t_heap s) (t_hs s) (t_gray s) with
          | None => OStuck
          | Some (Some _) => otake pix1 (t_heap s) (t_hs s) (t_gray s) (c1 :: rest) (t_tree s)
          | Some None =>
              match ofind (t_heap s) (t_hs s) (S (t_gray s)) (255 - t_gray s) with
              | None => OStuck
              | Some None => OHalt (OSt pix1 (t_cur s) (t_d s) (t_gray s) (t_heap s) (t_hs s) (c1 :: rest) (t_tree s))
              | Some (Some g) =>
                  match rest with
                  | [] => OStuck
                  | c2 :: rest' =>
                      if g <? o_gray c2 then
                        match ogrow P pix1 cols (rows * cols) g false c1 (t_tree s) with
                        | Some (c1', t') => otake pix1 (t_heap s) (t_hs s) g (c1' :: rest) t'
                        | None => OStuck
                        end
                      else
                        match omerge P pix1 cols (rows * cols) c2 c1 (t_tree s) with
                        | Some (c2', pix2, t') => otake pix2 (t_heap s) (t_hs s) g (c2' :: rest') t'
                        | None => OStuck
                        end
                  end
              end
          end
      end
  | [] => OStuck
  end.

(* img_opencv3_mser.cpp:273-354 *)
Definition ostep (s : ost) : ores := if t_d s <=? 4 then otour s else ofinish s.
(* img_opencv3_mser.cpp:273-354: n iterations of the loop *)
Fixpoint orun (n : nat) (s : ost) : ores :=
  match n with
  | O => ONext s
  | S n' => match ostep s with ONext s' => orun n' s' | r => r end
  end.

(* img_opencv3_mser.cpp:356-359: the components are closed; the loop ends at comp[0] *)
Fixpoint oclose (pix : list N) (comps : list ocomp) (t : otree) : option otree :=
  match comps with
  | [] => None
  | c :: rest =>
      if o_gray c =? 256 then Some t else
      match ogrow P pix cols (rows * cols) 256 true c t with
      | Some (_, t') => oclose pix rest t'
      | None => None
      end
  end.

(* ---------- preparation ---------- *)
(* img_opencv3_mser.h:118-124: the member buffers *)
Record obuf := OBuf { ob_pix : list N; ob_heap : list (option nat); ob_hs : list nat; ob_lvl : list nat }.

(* a for loop over i = a, ..., a + n - 1, e.g. img_opencv3_mser.cpp:378,383 *)
Fixpoint for_from {A} (a n : nat) (body : nat -> A -> option A) (s : A) : option A :=
  match n with
  | O => Some s
  | S n' => match body a s with Some s' => for_from (S a) n' body s' | None => None end
  end.

(* img_opencv3_mser.cpp:372-373: Pixel borderpix; borderpix.setDir(5) *)
Definition border_word : N := set_dir 0 5.
(* img_opencv3_mser.cpp:378-381 *)
Definition oborder_rows (j : nat) (pix : list N) : option (list N) :=
  match store pix (j + (rows - 1) * cols) border_word with
  | Some pix1 => store pix1 j border_word
  | None => None
  end.
(* img_opencv3_mser.cpp:388-393 *)
Definition oinner (i j : nat) (s : list N * list nat) : option (list N * list nat) :=
  match src !! (i * cols + j) with
  | None => None
  | Some v =>
      match snd s !! N.to_nat v, store (fst s) (i * cols + j) 0%N with
      | Some k, Some pix => Some (pix, <[N.to_nat v := S k]> (snd s))
      | _, _ => None
      end
  end.
(* img_opencv3_mser.cpp:383-394 *)
Definition oinner_row (i : nat) (s : list N * list nat) : option (list N * list nat) :=
  match store (fst s) (i * cols + (cols - 1)) border_word with
  | None => None
  | Some pix1 => match store pix1 (i * cols) border_word with
                 | None => None
                 | Some pix2 => for_from 1 (cols - 2) (oinner i) (pix2, snd s)
                 end
  end.
(* img_opencv3_mser.cpp:366-398: the first pass of a call *)
Definition oprepare_first (pix : list N) : option (list N * list nat) :=
  match for_from 0 cols oborder_rows pix with
  | None => None
  | Some pix1 => for_from 1 (rows - 2) oinner_row (pix1, replicate 256 0)
  end.
(* img_opencv3_mser.cpp:400-401 *)
Definition oswap_levels (i : nat) (lvl : list nat) : option (list nat) :=
  match lvl !! i, lvl !! (255 - i) with
  | Some a, Some b => Some (<[255 - i := a]> (<[i := b]> lvl))
  | _, _ => None
  end.
(* img_opencv3_mser.cpp:405-412 *)
Definition oclear_row (i : nat) (pix : list N) : option (list N) :=
  for_from 1 (cols - 2) (fun j pix => store pix (i * cols + j) 0%N) pix.
(* img_opencv3_mser.cpp:399-413: the second pass of a call *)
Definition oprepare_second (pix : list N) (lvl : list nat) : option (list N * list nat) :=
  match for_from 0 128 oswap_levels lvl with
  | None => None
  | Some lvl' => match for_from 1 (rows - 2) oclear_row pix with
                 | Some pix' => Some (pix', lvl')
                 | None => None
                 end
  end.
(* img_opencv3_mser.cpp:418-422 *)
Definition oheap_start (lvl : list nat) (i : nat) (s : list (option nat) * list nat) : option (list (option nat) * list nat) :=
  match snd s !! (i - 1), lvl !! (i - 1) with
  | Some a, Some k =>
      match store (snd s) i (a + k + 1), store (fst s) (a + k + 1) None with
      | Some hs, Some heap => Some (heap, hs)
      | _, _ => None
      end
  | _, _ => None
  end.
(* img_opencv3_mser.cpp:415-422 *)
Definition oheaps (lvl : list nat) (heap : list (option nat)) (hs : list nat) : option (list (option nat) * list nat) :=
  match store hs 0 0, store heap 0 None with
  | Some hs', Some heap' => for_from 1 255 (oheap_start lvl) (heap', hs')
  | _, _ => None
  end.
(* img_opencv3_mser.cpp:364-422 *)
Definition opreprocess (first : bool) (b : obuf) : option obuf :=
  match (if first then oprepare_first (ob_pix b) else oprepare_second (ob_pix b) (ob_lvl b)) with
  | None => None
  | Some (pix, lvl) => match oheaps lvl (ob_heap b) (ob_hs b) with
                       | Some (heap, hs) => Some (OBuf pix heap hs lvl)
                       | None => None
                       end
  end.

(* img_opencv3_mser.cpp:250-272: the state in which the loop is entered *)
Definition oinit (b : obuf) : ores :=
  let p := cols + 1 in
  match ob_pix b !! p, get_gray src gm p with
  | Some v, Some g =>
      ONext (OSt (<[p := set_dir v 1]> (ob_pix b)) p 1 g (ob_heap b) (ob_hs b)
                 [OComp g 0 0 0 None; OComp 256 0 0 0 None] (OTree [] [] 0))
  | _, _ => OStuck
  end.

(* img_opencv3_mser.cpp:245-362: one pass; n bounds the number of rounds. The state at the
   end of the loop is returned beside the regions: its top component is the largest
   component computed. *)
Definition ocv_pass (n : nat) (first : bool) (b : obuf) : option (otree * ost * obuf) :=
  match opreprocess first b with
  | None => None
  | Some b1 =>
      match oinit b1 with
      | ONext s =>
          match orun n s with
          | OHalt s' =>
              match oclose (t_pix s') (t_comps s') (t_tree s') with
              | Some t => Some (t, s', OBuf (t_pix s') (t_heap s') (t_hs s') (ob_lvl b1))
              | None => None
              end
          | _ => None
          end
      | _ => None
      end
  end.
End pass.

(* img_mser_base.cpp:89-107, img_opencv3_mser.cpp:366: a call; dark and bright are the entries of
   m_from_min_max. The first pass that runs prepares the buffers; the bright pass after a
   dark one reuses them. *)
Definition ocv_call (n : nat) (src : list N) (rows cols : nat) (P : rparam) (dark bright : bool) (b : obuf)
  : option (list omser * list omser) :=
  match (if dark then match ocv_pass src rows cols 0 P n true b with
                      | Some (t, _, b') => Some (ot_out t, b')
                      | None => None
                      end
         else Some ([], b)) with
  | None => None
  | Some (r0, b1) =>
      if bright then match ocv_pass src rows cols 255 P n (negb dark) b1 with
                     | Some (t, _, _) => Some (r0, ot_out t)
                     | None => None
                     end
      else Some (r0, [])
  end.

(* img_opencv3_mser.cpp:217-232: the buffers as resized; fresh elements are zero, older
   ones keep their values *)
Definition oalloc (rows cols : nat) (junk_pix : N) (junk : option nat) (k : nat) : obuf :=
  OBuf (replicate (rows * cols) junk_pix) (replicate (rows * cols + 256) junk) (replicate 256 k) (replicate 256 k).
