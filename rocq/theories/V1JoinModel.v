(* Model of the joining phase of Fast MSER V1 with linked pixel lists
   (basicimg/src/img_fast_mser_v1.cpp:4-31, 1586-2410 and
   basicimg/include/img_fast_mser_v1.h:22-71).

   Simplifications, valid for every definition below:
   - a region pointer and an index into m_linked_points are both a pair
     (partition, position): every partition owns a slice of m_linked_points, so
     (k, i) is the index (slice start of partition k) + i; NULL and -1 are None;
   - m_size (i32) and m_unmerged_size (u32) are integers without wrap-around;
     they are sums and differences of region sizes, which stay inside 31 bits for
     images of less than 2^29 pixels;
   - m_merged_points is a list: the array is doubled whenever it is full
     (2395-2403), so it always has room for one more entry;
   - while and for loops over links take a step budget; running out of budget is
     the result None, like undefined behaviour, and the theorems exclude both;
   - m_merged_number (counts joins for a log line) is dropped. *)
From stdpp Require Import sorting relations functions list.
From Coq Require Import ZArith.
From Verif Require Import FloodModel.
Local Open Scope nat_scope.

(* img_fast_mser_v1.h:109,125: a pointer to a region or an index into m_linked_points *)
Notation rref := (nat * nat)%type.

(* img_fast_mser_v1.h:22-30 *)
Record wpt := WPt {
  t_x : nat; t_y : nat; t_next : option rref; t_prev : option rref; t_ref : option rref
}.

(* img_fast_mser_v1.h:32-71; head and tail are uninitialised (None) until the region is closed *)
Record wreg := WReg {
  w_gray : nat; w_flag : nat; w_bnd : nat; w_patch : nat;
  w_size : Z; w_un : Z; w_par : option rref;
  w_head : option rref; w_tail : option rref;
  w_left : nat; w_right : nat; w_top : nat; w_bot : nat
}.

(* img_fast_mser_v1.cpp:4-31 and throughout: reading and writing through a pointer;
   None = dangling pointer *)
Definition get2 {A} (L : list (list A)) (r : rref) : option A :=
  match L !! fst r with Some l => l !! snd r | None => None end.
(* img_fast_mser_v1.cpp:4-31 and throughout: writing through a pointer *)
Definition set2 {A} (L : list (list A)) (r : rref) (a : A) : list (list A) :=
  alter (fun l => <[snd r := a]> l) (fst r) L.

(* img_fast_mser_v1.h:32-71: assignments to fields of a region *)
Definition wset_par (a : wreg) (t : option rref) : wreg :=
  WReg (w_gray a) (w_flag a) (w_bnd a) (w_patch a) (w_size a) (w_un a) t (w_head a) (w_tail a)
       (w_left a) (w_right a) (w_top a) (w_bot a).
(* img_fast_mser_v1.h:36-41: m_region_flag *)
Definition wset_flag (a : wreg) (f : nat) : wreg :=
  WReg (w_gray a) f (w_bnd a) (w_patch a) (w_size a) (w_un a) (w_par a) (w_head a) (w_tail a)
       (w_left a) (w_right a) (w_top a) (w_bot a).
(* img_fast_mser_v1.h:49-62: m_size and m_unmerged_size *)
Definition wset_size (a : wreg) (n u : Z) : wreg :=
  WReg (w_gray a) (w_flag a) (w_bnd a) (w_patch a) n u (w_par a) (w_head a) (w_tail a)
       (w_left a) (w_right a) (w_top a) (w_bot a).
(* img_fast_mser_v1.h:67: m_tail *)
Definition wset_tail (a : wreg) (t : option rref) : wreg :=
  WReg (w_gray a) (w_flag a) (w_bnd a) (w_patch a) (w_size a) (w_un a) (w_par a) (w_head a) t
       (w_left a) (w_right a) (w_top a) (w_bot a).
(* img_fast_mser_v1.cpp:26-30 bound_pointer_adjust(dst, src) *)
Definition wadjust (a c : wreg) : wreg :=
  WReg (w_gray a) (w_flag a) (w_bnd a) (w_patch a) (w_size a) (w_un a) (w_par a) (w_head a) (w_tail a)
       (if w_left c <? w_left a then w_left c else w_left a)
       (if w_right a <? w_right c then w_right c else w_right a)
       (if w_top c <? w_top a then w_top c else w_top a)
       (if w_bot a <? w_bot c then w_bot c else w_bot a).

(* img_fast_mser_v1.h:27: m_linked_points[q].m_next = v *)
Definition wset_next (P : list (list wpt)) (q : rref) (v : option rref) : option (list (list wpt)) :=
  match get2 P q with
  | Some x => Some (set2 P q (WPt (t_x x) (t_y x) v (t_prev x) (t_ref x)))
  | None => None
  end.
(* img_fast_mser_v1.h:28: m_linked_points[q].m_prev = v *)
Definition wset_prev (P : list (list wpt)) (q : rref) (v : option rref) : option (list (list wpt)) :=
  match get2 P q with
  | Some x => Some (set2 P q (WPt (t_x x) (t_y x) (t_next x) v (t_ref x)))
  | None => None
  end.
(* img_fast_mser_v1.h:29: m_linked_points[q].m_ref = v *)
Definition wset_ref (P : list (list wpt)) (q : rref) (v : option rref) : option (list (list wpt)) :=
  match get2 P q with
  | Some x => Some (set2 P q (WPt (t_x x) (t_y x) (t_next x) (t_prev x) v))
  | None => None
  end.

(* img_fast_mser_v1.cpp:4-5 get_real_for_merged (flag 3 = Flag_Merged) *)
Fixpoint wreal (fuel : nat) (R : list (list wreg)) (r : option rref) : option (option rref) :=
  match fuel with
  | O => None
  | S n =>
      match r with
      | None => Some None
      | Some x =>
          match get2 R x with
          | None => None
          | Some a => if w_flag a =? 3 then wreal n R (w_par a) else Some (Some x)
          end
      end
  end.

(* img_fast_mser_v1.cpp:10-12 get_set_real_parent_for_merged *)
Definition wreal_parent (fuel : nat) (R : list (list wreg)) (r : rref)
  : option (list (list wreg) * option rref) :=
  match get2 R r with
  | None => None
  | Some a =>
      match wreal fuel R (w_par a) with
      | None => None
      | Some t => Some (set2 R r (wset_par a t), t)
      end
  end.

(* img_fast_mser_v1.cpp:15-18: follow m_ref *)
Fixpoint follow_ref (fuel : nat) (P : list (list wpt)) (t : rref) : option rref :=
  match fuel with
  | O => None
  | S n => match get2 P t with
           | None => None
           | Some x => match t_ref x with None => Some t | Some u => follow_ref n P u end
           end
  end.
(* img_fast_mser_v1.cpp:14-21 get_real_tail *)
Definition real_tail (fuel : nat) (P : list (list wpt)) (t : rref) : option (list (list wpt) * rref) :=
  match follow_ref fuel P t with
  | None => None
  | Some z => if decide (z = t) then Some (P, z)
              else match wset_ref P t (Some z) with Some P' => Some (P', z) | None => None end
  end.

(* img_fast_mser_v1.h:109,125,152-154: the region tables, m_linked_points, m_merged_points *)
Record jst := JSt { e_regs : list (list wreg); e_pts : list (list wpt); e_mp : list rref }.

(* img_fast_mser_v1.cpp:2374-2380: unlink the points from head to real tail from their neighbours *)
Definition unlink (P : list (list wpt)) (h z : rref) : option (list (list wpt)) :=
  match get2 P h, get2 P z with
  | Some xh, Some xz =>
      match (match t_prev xh with None => Some P | Some p => wset_next P p (t_next xz) end) with
      | None => None
      | Some P1 =>
          match get2 P1 h, get2 P1 z with
          | Some xh1, Some xz1 =>
              match t_next xz1 with None => Some P1 | Some n => wset_prev P1 n (t_prev xh1) end
          | _, _ => None
          end
      end
  | _, _ => None
  end.

(* img_fast_mser_v1.cpp:2370-2410 disconnect *)
Definition disconnect (fuel : nat) (st : jst) (r : rref) : option jst :=
  match get2 (e_regs st) r with
  | None => None
  | Some a =>
      match w_head a, w_tail a with
      | Some h, Some t =>
          match real_tail fuel (e_pts st) t with
          | None => None
          | Some (P1, z) =>
              match unlink P1 h z with
              | None => None
              | Some P2 =>
                  match wreal_parent fuel (e_regs st) r with
                  | None => None
                  | Some (R1, par) =>
                      match
                        (match par with
                         | None => Some (R1, P2, e_mp st)
                         | Some p =>
                             match get2 R1 p with
                             | None => None
                             | Some b =>
                                 match w_tail b with
                                 | None => None
                                 | Some tb =>
                                     match real_tail fuel P2 tb with
                                     | None => None
                                     | Some (P3, zb) =>
                                         let R2 := set2 R1 p (wset_size b (w_size b - w_un a)%Z (w_un b)) in
                                         if decide (t = tb \/ zb = z) then
                                           match get2 P3 h with
                                           | None => None
                                           | Some xh =>
                                               match wset_ref P3 z (t_prev xh) with
                                               | None => None
                                               | Some P4 => Some (R2, P4, e_mp st ++ [z])
                                               end
                                           end
                                         else Some (R2, P3, e_mp st)
                                     end
                                 end
                             end
                         end) with
                      | None => None
                      | Some (R2, P4, M') =>
                          match get2 R2 r, wset_prev P4 h None with
                          | Some a2, Some P5 =>
                              match wset_next P5 z None with
                              | None => None
                              | Some P6 => Some (JSt (set2 R2 r (wset_tail a2 (Some z))) P6 M')
                              end
                          | _, _ => None
                          end
                      end
                  end
              end
          end
      | _, _ => None
      end
  end.

(* img_fast_mser_v1.cpp:2266-2275, 2296-2305, 2321-2330, 2340-2349: the size, pixel list
   and bounds of src are added to dst (the assignment to m_parent between them is apart) *)
Definition append (st : jst) (dst src : rref) : option jst :=
  match get2 (e_regs st) dst, get2 (e_regs st) src with
  | Some d, Some c =>
      match w_tail d, w_head c with
      | Some td, Some hc =>
          match wset_next (e_pts st) td (Some hc) with
          | None => None
          | Some P1 =>
              match wset_prev P1 hc (Some td) with
              | None => None
              | Some P2 =>
                  let n := (w_size d + w_size c)%Z in
                  Some (JSt (set2 (e_regs st) dst (wadjust (wset_size (wset_tail d (w_tail c)) n n) c))
                            P2 (e_mp st))
              end
          end
      | _, _ => None
      end
  | _, _ => None
  end.

(* img_fast_mser_v1.cpp:2236 region_index *)
Definition region_index (split : nat) (R : list (list wreg)) (r : rref) : option bool :=
  match get2 R r with Some a => Some (split <? w_patch a) | None => None end.
(* img_fast_mser_v1.cpp:2234: the two entries of last_break_regions *)
Definition last_break := (option rref * option rref)%type.
(* img_fast_mser_v1.cpp:2234: last_break_regions[i] *)
Definition lb_get (lb : last_break) (i : bool) : option rref := if i then snd lb else fst lb.
(* img_fast_mser_v1.cpp:2234: last_break_regions[i] = r *)
Definition lb_set (lb : last_break) (i : bool) (r : rref) : last_break :=
  if i then (fst lb, Some r) else (Some r, snd lb).

(* img_fast_mser_v1.cpp:2286-2289, 2291-2294, 2311-2314, 2316-2319 *)
Definition break_off (fuel split : nat) (st : jst) (lb : last_break) (r : rref)
  : option (jst * last_break) :=
  match region_index split (e_regs st) r with
  | None => None
  | Some i =>
      if decide (lb_get lb i = Some r) then Some (st, lb)
      else match disconnect fuel st r with
           | None => None
           | Some st' => Some (st', lb_set lb i r)
           end
  end.

(* img_fast_mser_v1.cpp:2262-2276 and 2336-2350: if s was broken off, break off its real
   parent and hang the list of s behind it; result with the new value of changed *)
Definition climb (fuel split : nat) (st : jst) (lb : last_break) (changed : bool) (s : rref)
  (sp : option rref) : option (jst * last_break * bool) :=
  match sp with
  | None => Some (st, lb, changed)
  | Some p =>
      match region_index split (e_regs st) s with
      | None => None
      | Some i =>
          if decide (lb_get lb i = Some s) then
            match disconnect fuel st p with
            | None => None
            | Some st1 =>
                match region_index split (e_regs st1) p, append st1 p s with
                | Some j, Some st2 => Some (st2, lb_set lb j p, true)
                | _, _ => None
                end
            end
          else Some (st, lb, changed)
      end
  end.

(* img_fast_mser_v1.cpp:2286-2305 and 2311-2330: s is hung below b *)
Definition hang (fuel split : nat) (st : jst) (lb : last_break) (s b : rref)
  : option (jst * last_break) :=
  match break_off fuel split st lb s with
  | None => None
  | Some (st1, lb1) =>
      match break_off fuel split st1 lb1 b with
      | None => None
      | Some (st2, lb2) =>
          match append st2 b s with
          | None => None
          | Some st3 =>
              match get2 (e_regs st3) s with
              | None => None
              | Some a => Some (JSt (set2 (e_regs st3) s (wset_par a (Some b))) (e_pts st3) (e_mp st3), lb2)
              end
          end
      end
  end.

(* img_fast_mser_v1.cpp:2310: p == NULL || p->m_gray_level > g *)
Definition above (R : list (list wreg)) (p : option rref) (g : nat) : option bool :=
  match p with
  | None => Some true
  | Some y => match get2 R y with Some d => Some (g <? w_gray d) | None => None end
  end.

(* img_fast_mser_v1.cpp:2243-2359: the loop; the assertion 2245 is checked *)
Fixpoint wconnect_loop (n fuel split : nat) (st : jst) (lb : last_break) (changed : bool)
  (bigger smaller : option rref) : option jst :=
  match n with
  | O => None
  | S n' =>
      match smaller with
      | None => match bigger with None => Some st | Some _ => None end
      | Some s0 =>
          match
            (match bigger with
             | None => Some (None, s0)
             | Some b0 =>
                 match get2 (e_regs st) s0, get2 (e_regs st) b0 with
                 | Some x, Some y =>
                     if w_gray y <? w_gray x then Some (Some s0, b0) else Some (Some b0, s0)
                 | _, _ => None
                 end
             end) with
          | None => None
          | Some (ob, s) =>
              match wreal_parent fuel (e_regs st) s with
              | None => None
              | Some (R1, sp) =>
                  let st1 := JSt R1 (e_pts st) (e_mp st) in
                  if bool_decide (sp = ob) && negb changed then Some st1 else
                  match ob with
                  | None =>
                      match climb fuel split st1 lb changed s sp with
                      | None => None
                      | Some (st2, lb2, ch2) => wconnect_loop n' fuel split st2 lb2 ch2 None sp
                      end
                  | Some b =>
                      match wreal_parent fuel R1 b with
                      | None => None
                      | Some (R2, _) =>
                          let st2 := JSt R2 (e_pts st) (e_mp st) in
                          match get2 R2 s, get2 R2 b with
                          | Some xs, Some xb =>
                              if w_gray xs =? w_gray xb then
                                match hang fuel split (JSt (set2 R2 s (wset_flag xs 3)) (e_pts st) (e_mp st)) lb s b with
                                | None => None
                                | Some (st3, lb3) =>
                                    wconnect_loop n' fuel split st3 lb3 true
                                      (if decide (sp = Some b) then None else sp) (Some b)
                                end
                              else
                                match above R2 sp (w_gray xb) with
                                | None => None
                                | Some true =>
                                    match hang fuel split st2 lb s b with
                                    | None => None
                                    | Some (st3, lb3) =>
                                        wconnect_loop n' fuel split st3 lb3 true
                                          (if decide (sp = Some b) then None else sp) (Some b)
                                    end
                                | Some false =>
                                    match climb fuel split st2 lb changed s sp with
                                    | None => None
                                    | Some (st3, lb3, ch3) =>
                                        wconnect_loop n' fuel split st3 lb3 ch3
                                          (if decide (sp = Some b) then None else Some b) sp
                                    end
                                end
                          | _, _ => None
                          end
                      end
                  end
              end
          end
      end
  end.

(* img_fast_mser_v1.cpp:2361-2363: m_ref of the recorded points is cleared *)
Fixpoint clear_refs (P : list (list wpt)) (M : list rref) : option (list (list wpt)) :=
  match M with
  | [] => Some P
  | q :: M' => match wset_ref P q None with Some P' => clear_refs P' M' | None => None end
  end.

(* img_fast_mser_v1.cpp:2229-2366 connect *)
Definition wconnect (fuel split : nat) (st : jst) (bigger smaller : option rref) : option jst :=
  if decide (bigger = smaller) then Some st else
  match wconnect_loop fuel fuel split st (None, None) false bigger smaller with
  | None => None
  | Some st' =>
      match clear_refs (e_pts st') (e_mp st') with
      | None => None
      | Some P' => Some (JSt (e_regs st') P' [])
      end
  end.
