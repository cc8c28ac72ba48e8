(* Model of the recognition phase of Fast MSER V2
   (basicimg/src/img_fast_mser_v2.cpp:657-1333, 2053-2114).

   Simplifications, valid for every definition below:
   - a block memory is the list of its elements; the macro
     basicmath_block_memory_visit (mt_block_memory.h:25-45) visits them in order;
   - m_var and m_calculated_var of the regions are kept in two functions next to
     the region tables; m_var holds arbitrary values before it is computed (its
     memory is shared with m_unmerged_size and not initialised);
   - counters are naturals; decrementing a zero counter (which would wrap around)
     is the result None, like undefined behaviour, and the theorems exclude both;
   - counters of log lines (bad_variance_number, nmsCount, cnt, ...), asserts and
     the pixel statistics m_channel_total_pixel_number are dropped;
   - loops over links take a step budget as in ConnectModel. *)
From stdpp Require Import sorting relations functions list.
From Coq Require Import NArith ZArith SpecFloat.
From Verif Require Import FloodModel ConnectModel FloatModel.

(* the parameters of recognition, img_mser_base.h:173-181 *)
Record rparam := RParam {
  p_delta : Z; p_stable : flt; p_nms : flt; p_dup : flt; p_min : Z; p_max : Z
}.

(* the regions with the fields recognition adds, img_fast_mser_v2.h:34-56 *)
Record rst := RSt { s_F : forest; s_var : rref -> flt; s_calc : rref -> bool }.

(* img_fast_mser_v2.cpp:657-1333: reading through an mser_region pointer *)
Definition sget (s : rst) (r : rref) : option greg := fget (s_F s) r.
(* img_fast_mser_v2.cpp:11-12: assignment to m_parent *)
Definition put_par (s : rst) (r : rref) (a : greg) (t : option rref) : rst :=
  RSt (fset (s_F s) r (set_par a t)) (s_var s) (s_calc s).
(* img_fast_mser_v2.cpp:657-1333: assignment to m_region_flag *)
Definition put_flag (s : rst) (r : rref) (a : greg) (f : nat) : rst :=
  RSt (fset (s_F s) r (set_flag a f)) (s_var s) (s_calc s).
(* img_fast_mser_v2.cpp:1048,1110,2072: assignment to m_var *)
Definition put_var (s : rst) (r : rref) (v : flt) : rst :=
  RSt (s_F s) (<[r := v]> (s_var s)) (s_calc s).
(* img_fast_mser_v2.cpp:889,1138: assignment to m_calculated_var *)
Definition put_calc (s : rst) (r : rref) : rst :=
  RSt (s_F s) (s_var s) (<[r := true]> (s_calc s)).

(* img_fast_mser_v2.cpp:679-685: the regions of partition k in storage order *)
Definition refs_of (F : forest) (k : nat) : list rref :=
  match F !! k with Some l => pair k <$> seq 0 (length l) | None => [] end.
(* img_fast_mser_v2.cpp:679-685: all regions, partition by partition *)
Definition all_refs (F : forest) : list rref := flat_map (refs_of F) (seq 0 (length F)).

(* m_region_level_size: 257 counters (img_fast_mser_v2.h:99) *)
Definition lvl0 : list nat := replicate 257 0.
(* img_fast_mser_v2.cpp:712,887,1137: ++m_region_level_size[level] *)
Definition lvl_inc (l : list nat) (g : nat) : list nat := alter S g l.
(* img_fast_mser_v2.cpp:741,747,901,910,1164,1172,1221,1229: --m_region_level_size[level] *)
Definition lvl_dec (l : list nat) (g : nat) : option (list nat) :=
  match l !! g with Some (S n) => Some (<[g := n]> l) | _ => None end.

(* img_fast_mser_v2.cpp:657-1310: for-each over a list of regions *)
Fixpoint each {S : Type} (f : S -> rref -> option S) (l : list rref) (s : S) : option S :=
  match l with
  | [] => Some s
  | x :: l' => match f s x with Some s' => each f l' s' | None => None end
  end.

(* img_fast_mser_v2.cpp:1030,1092,2054: an i32 sum; None = signed overflow *)
Definition add_z (a b : Z) : option Z :=
  let c := (a + b)%Z in
  if ((- 2 ^ 31 <=? c) && (c <? 2 ^ 31))%Z then Some c else None.

(* img_fast_mser_v2.cpp:702,1055,1117: size limits and root test; [par] is m_parent *)
Definition bad_limits (P : rparam) (size : nat) (par : option rref) : bool :=
  (Z.of_nat size <? p_min P)%Z || (p_max P <? Z.of_nat size)%Z ||
  match par with None => true | Some _ => false end.

(* img_fast_mser_v2.cpp:1047-1051,1109-1113,2071-2075 *)
Definition var_of (s : rst) (thr : Z) (start : rref) (p : option rref) (x : rref) : option flt :=
  match sget s start, sget s x with
  | Some b, Some a =>
      Some (if (match p with Some _ => true | None => false end) || (Z.of_nat (g_gray b) =? thr)%Z
            then f32_growth (g_size b) (g_size a) else fminus1)
  | _, _ => None
  end.

(* ---------- serial recognition ---------- *)

(* img_fast_mser_v2.cpp:2063-2069: the loop of calculate_variation *)
Fixpoint climb (n fuel : nat) (s : rst) (thr : Z) (temp : rref) (parent : option rref)
  : option (rst * rref * option rref) :=
  match n with
  | O => None
  | S n' =>
      match parent with
      | None => Some (s, temp, None)
      | Some y =>
          match sget s y with
          | None => None
          | Some b =>
              if (Z.of_nat (g_gray b) <=? thr)%Z then
                match get_set_real_parent fuel (s_F s) y with
                | None => None
                | Some (F', t) => climb n' fuel (RSt F' (s_var s) (s_calc s)) thr y t
                end
              else Some (s, temp, Some y)
          end
      end
  end.

(* img_fast_mser_v2.cpp:2053-2077 calculate_variation; called with m_delta > 0, so the
   u32 threshold is the sum of the non-negative level and delta *)
Definition calculate_variation (fuel : nat) (P : rparam) (s : rst) (x : rref) : option rst :=
  match sget s x with
  | None => None
  | Some a =>
      match add_z (Z.of_nat (g_gray a)) (p_delta P), get_set_real_parent fuel (s_F s) x with
      | Some thr, Some (F', t) =>
          match climb fuel fuel (RSt F' (s_var s) (s_calc s)) thr x t with
          | None => None
          | Some (s', temp, parent) =>
              match var_of s' thr temp parent x with
              | None => None
              | Some v => Some (put_var s' x v)
              end
          end
      | _, _ => None
      end
  end.

(* img_fast_mser_v2.cpp:685-715: one region of the first loop; state with the number
   of candidates and the level counters *)
Definition serial_base (fuel : nat) (P : rparam) (t : rst * nat * list nat) (x : rref)
  : option (rst * nat * list nat) :=
  let '(s, total, lvl) := t in
  match sget s x with
  | None => None
  | Some a0 =>
      if negb (g_flag a0 =? 0) then Some t else
      match (if (0 <? p_delta P)%Z then calculate_variation fuel P s x else Some s) with
      | None => None
      | Some s1 =>
          match sget s1 x with
          | None => None
          | Some a =>
              if (0 <? p_delta P)%Z && fgt (s_var s1 x) (p_stable P)
              then Some (put_flag s1 x a 1, total, lvl) else
              if bad_limits P (g_size a) (g_par a) then Some (put_flag s1 x a 1, total, lvl) else
              if (0 <? p_delta P)%Z then Some (s1, S total, lvl_inc lvl (g_gray a)) else
              match get_set_real_parent fuel (s_F s1) x with
              | None => None
              | Some (F', _) => Some (RSt F' (s_var s1) (s_calc s1), S total, lvl_inc lvl (g_gray a))
              end
          end
      end
  end.

(* img_fast_mser_v2.cpp:739-743,745-749: flag a region and uncount it, if it is not
   flagged invalid yet *)
Definition serial_kill (s : rst) (total : nat) (lvl : list nat) (z : rref) : option (rst * nat * list nat) :=
  match sget s z with
  | None => None
  | Some c =>
      if g_flag c =? 1 then Some (s, total, lvl) else
      match lvl_dec lvl (g_gray c), total with
      | Some lvl', S total' => Some (put_flag s z c 1, total', lvl')
      | _, _ => None
      end
  end.

(* img_fast_mser_v2.cpp:728-751: one region of the suppression loop *)
Definition serial_nms (P : rparam) (t : rst * nat * list nat) (x : rref) : option (rst * nat * list nat) :=
  let '(s, total, lvl) := t in
  match sget s x with
  | None => None
  | Some a =>
      if g_flag a =? 3 then Some t else
      if negb (fge (s_var s x) fzero) then Some t else
      match g_par a with
      | None => Some t
      | Some y =>
          match sget s y with
          | None => None
          | Some b =>
              if fge (s_var s y) fzero && (g_gray b =? g_gray a + 1) then
                let d := var_diff (s_var s y) (s_var s x) in
                if fgt d (f64_of_f32 (p_nms P)) then serial_kill s total lvl y else
                if fgt (SFopp d) (f64_of_f32 (p_nms P)) then serial_kill s total lvl x else Some t
              else Some t
          end
      end
  end.

(* ---------- the candidate buffer and the counting sort ---------- *)

(* m_gray_order_regions_memory_size and m_exceed_times, img_fast_mser_v2.h:114-117 *)
Record cbuf := CBuf { cb_cap : nat; cb_exceed : nat }.

(* img_fast_mser_v2.cpp:765-783, 928-946, 1248-1265; total * 5 is an u32 product *)
Definition size_buffer (b : cbuf) (total : nat) : cbuf :=
  if (N.of_nat total * 5 mod 2 ^ 32 <? N.of_nat (cb_cap b))%N then
    if 10 <? S (cb_exceed b) then CBuf total (S (cb_exceed b)) else CBuf (cb_cap b) (S (cb_exceed b))
  else CBuf total 0.

(* mt_helper.h:336-343 integral_array *)
Fixpoint integral (acc : nat) (l : list nat) : list nat :=
  match l with [] => [acc] | x :: l' => acc :: integral (acc + x) l' end.

(* img_fast_mser_v2.cpp:785-794, 948-957, 1267-1276: scatter the candidates; state is
   the buffer (None = not written) and m_start_indexes; a write outside is None *)
Definition scatter (s : rst) (t : list (option rref) * list nat) (x : rref)
  : option (list (option rref) * list nat) :=
  let '(out, starts) := t in
  match sget s x with
  | None => None
  | Some a =>
      if g_flag a =? 0 then
        match starts !! g_gray a with
        | None => None
        | Some i => if i <? length out
                    then Some (<[i := Some x]> out, <[g_gray a := S i]> starts) else None
        end
      else Some t
  end.

(* img_fast_mser_v2.cpp:785-794: the first m_gray_order_region_size entries; None = an entry is not written *)
Fixpoint written (l : list (option rref)) : option (list rref) :=
  match l with
  | [] => Some []
  | o :: l' =>
      match o, written l' with
      | Some x, Some xs => Some (x :: xs)
      | _, _ => None
      end
  end.

(* img_fast_mser_v2.cpp:759-794, 922-957, 1244-1276: order the candidates; [total]
   is m_gray_order_region_size *)
Definition order_regions (s : rst) (b : cbuf) (lvl : list nat) (total : nat)
  : option (list rref * cbuf) :=
  let b' := size_buffer b total in
  match each (scatter s) (all_refs (s_F s)) (replicate (cb_cap b') None, integral 0 (take 256 lvl)) with
  | None => None
  | Some (out, _) =>
      match written (take total out) with
      | Some l => if length l =? total then Some (l, b') else None
      | None => None
      end
  end.

(* ---------- duplicate removal ---------- *)

(* img_fast_mser_v2.cpp:2079-2115 get_duplicated_regions: the regions pushed *)
Fixpoint get_duplicated (n : nat) (P : rparam) (s : rst) (stable : nat) (parent : option rref)
  : option (list rref) :=
  match n with
  | O => None
  | S n' =>
      match parent with
      | None => Some []
      | Some y =>
          match sget s y with
          | None => None
          | Some b =>
              if (p_max P <? Z.of_nat (g_size b))%Z then Some [] else
              if fgt (f64_growth (g_size b) stable) (f64_of_f32 (p_dup P)) then Some [] else
              match get_duplicated n' P s stable (g_par b) with
              | None => None
              | Some l => Some (if (g_flag b =? 2) || (g_flag b =? 1) then l else y :: l)
              end
          end
      end
  end.

(* img_fast_mser_v2.cpp:822,824: set the flag of one region *)
Definition mark (f : nat) (s : rst) (x : rref) : option rst :=
  match sget s x with Some a => Some (put_flag s x a f) | None => None end.

(* img_fast_mser_v2.cpp:820-827, 984-991, 1303-1310: the loop over the list of
   duplicates of one candidate, index by index *)
Fixpoint mark_list (s : rst) (j middle : nat) (l : list rref) : option rst :=
  match l with
  | [] => Some s
  | x :: l' =>
      match mark (if j =? middle then 2 else 1) s x with
      | Some s' => mark_list s' (S j) middle l'
      | None => None
      end
  end.

(* img_fast_mser_v2.cpp:802-828, 966-992, 1285-1311: one candidate; state with validCount *)
Definition dedup_one (fuel : nat) (P : rparam) (t : rst * nat) (x : rref) : option (rst * nat) :=
  let '(s, count) := t in
  match sget s x with
  | None => None
  | Some a =>
      if negb (g_flag a =? 0) then Some t else
      match get_duplicated fuel P s (g_size a) (g_par a) with
      | None => None
      | Some l1 =>
          let dup := x :: l1 in
          let middle := length dup / 2 in
          match
            (if 0 <? middle then
               match dup !! middle, last dup with
               | Some m, Some e =>
                   match sget s m, sget s e with
                   | Some cm, Some ce => get_duplicated fuel P s (g_size cm) (g_par ce)
                   | _, _ => None
                   end
               | _, _ => None
               end
             else Some []) with
          | None => None
          | Some l2 =>
              match mark_list s 0 middle (dup ++ l2) with
              | Some s' => Some (s', S count)
              | None => None
              end
          end
      end
  end.

(* img_fast_mser_v2.cpp:832-837, 996-1001, 1315-1320: keep the valid candidates *)
Definition is_valid (s : rst) (x : rref) : bool :=
  match sget s x with Some a => g_flag a =? 2 | None => false end.

(* img_fast_mser_v2.cpp:801-839, 965-1003, 1284-1322: the reported candidates and m_gray_order_region_size *)
Definition dedup (fuel : nat) (P : rparam) (s : rst) (l : list rref) : option (rst * list rref * nat) :=
  match each (dedup_one fuel P) l (s, 0) with
  | None => None
  | Some (s', count) => Some (s', List.filter (is_valid s') l, count)
  end.

(* img_fast_mser_v2.cpp:1006-1010,1325-1329: without duplicate removal *)
Definition no_dedup (s : rst) (l : list rref) : option (rst * list rref * nat) :=
  match each (mark 2) l s with
  | None => None
  | Some s' => Some (s', l, length l)
  end.

(* img_fast_mser_v2.cpp:665-794: recognize_mser_serial up to the sorted candidates;
   result state, the candidates and their buffer *)
Definition candidates_serial (fuel : nat) (P : rparam) (b : cbuf) (s0 : rst) : option (rst * list rref * cbuf) :=
  match each (serial_base fuel P) (all_refs (s_F s0)) (s0, 0, lvl0) with
  | None => None
  | Some t1 =>
      match (if (0 <? p_delta P)%Z && fge (p_nms P) fzero
             then each (serial_nms P) (all_refs (s_F (fst (fst t1)))) t1 else Some t1) with
      | None => None
      | Some (s2, total, lvl) =>
          match order_regions s2 b lvl total with
          | None => None
          | Some (l, b') => Some (s2, l, b')
          end
      end
  end.

(* img_fast_mser_v2.cpp:665-843 recognize_mser_serial: result state, reported regions,
   their number and the candidate buffer *)
Definition recognize_serial (fuel : nat) (P : rparam) (b : cbuf) (s0 : rst)
  : option (rst * list rref * nat * cbuf) :=
  match candidates_serial fuel P b s0 with
  | None => None
  | Some (s2, l, b') =>
      match dedup fuel P s2 l with
      | Some (s3, l', n) => Some (s3, l', n, b')
      | None => None
      end
  end.

(* ---------- parallel recognition: the workers ---------- *)

(* img_fast_mser_v2.cpp:1016-1188: what a worker is about to do.  Every constructor stands for one group of accesses
   to shared memory that reads or writes at most one field other workers change. *)
Inductive wpc :=
| PNext (k : nat)                                             (* 1025,1087: visit region k *)
| PChase (k : nat) (thr : Z) (s : rref) (p : option rref) (set : bool) (* 10-11: macro loop *)
| PSet (k : nat) (thr : Z) (s : rref) (p : option rref) (set : bool)   (* 12: the write *)
| PTest (k : nat) (thr : Z) (s : rref) (p : option rref)      (* 1034,1096: loop test and body *)
| PVar (k : nat) (thr : Z) (s : rref) (p : option rref)       (* 1047-1051, 1109-1113 *)
| PFlag (k : nat)                                             (* 1053-1057, 1115-1119 *)
| PNms (k : nat)                                              (* 1129-1178 *)
| PDone.

(* img_fast_mser_v2.cpp:1016-1188: a worker: program position, region_level_size, the regions put into its heap *)
Record wst := WSt { w_pc : wpc; w_lvl : list nat; w_heap : list rref }.

(* img_fast_mser_v2.cpp:1162-1168,1170-1176 and 899-906,908-915, 1219-1225,1227-1233:
   flag a candidate and uncount it if it has been counted *)
Definition par_kill (s : rst) (lvl : list nat) (z : rref) : option (rst * list nat) :=
  match sget s z with
  | None => None
  | Some c =>
      if g_flag c =? 0 then
        if s_calc s z then
          match lvl_dec lvl (g_gray c) with
          | Some lvl' => Some (put_flag s z c 1, lvl')
          | None => None
          end
        else Some (put_flag s z c 1, lvl)
      else Some (s, lvl)
  end.

(* img_fast_mser_v2.cpp:897-916,1160-1177,1217-1234: suppress x or its parent y *)
Definition par_pair (P : rparam) (s : rst) (lvl : list nat) (x y : rref) : option (rst * list nat) :=
  let d := var_diff (s_var s y) (s_var s x) in
  if fgt d (f64_of_f32 (p_nms P)) then par_kill s lvl y else
  if fgt (SFopp d) (f64_of_f32 (p_nms P)) then par_kill s lvl x else Some (s, lvl).

(* img_fast_mser_v2.cpp:1125-1179: one region of the second loop of worker i; [cap] is
   the room of the partition's heap *)
Definition nms_step (P : rparam) (cap i : nat) (s : rst) (lvl : list nat) (heap : list rref) (x : rref)
  : option (rst * list nat * list rref) :=
  match sget s x with
  | None => None
  | Some a =>
      if g_flag a =? 3 then Some (s, lvl, heap) else
      let s1 := if g_flag a =? 0 then put_calc s x else s in
      let lvl1 := if g_flag a =? 0 then lvl_inc lvl (g_gray a) else lvl in
      match g_par a with
      | None => if g_flag a =? 0 then None else Some (s, lvl, heap)
      | Some y =>
          match sget s y with
          | None => None
          | Some b =>
              if negb (g_flag a =? 0) && bad_limits P (g_size b) (g_par b) then Some (s, lvl, heap) else
              if negb (g_patch b =? i) then
                if g_gray b =? g_gray a + 1 then
                  if length heap <? cap then Some (s1, lvl1, heap ++ [x]) else None
                else Some (s1, lvl1, heap)
              else if fgt fzero (p_nms P) || fgt fzero (s_var s x) then Some (s1, lvl1, heap)
              else if fge (s_var s y) fzero && (g_gray b =? g_gray a + 1) then
                match par_pair P s1 lvl1 x y with
                | Some (s2, lvl2) => Some (s2, lvl2, heap)
                | None => None
                end
              else Some (s1, lvl1, heap)
          end
      end
  end.

(* img_fast_mser_v2.cpp:1016-1061,1071-1188: one step of worker i; [four] = the
   four-partition version with a second loop *)
Definition wstep (P : rparam) (four : bool) (cap i : nat) (s : rst) (w : wst) : option (rst * wst) :=
  let go pc := Some (s, WSt pc (w_lvl w) (w_heap w)) in
  match w_pc w with
  | PNext k =>
      match s_F s !! i with
      | None => None
      | Some l =>
          match l !! k with
          | None => go (if four then PNms 0 else PDone)
          | Some a =>
              if g_flag a =? 3 then go (PNext (S k)) else
              match add_z (Z.of_nat (g_gray a)) (p_delta P) with
              | None => None
              | Some thr => go (PChase k thr (i, k) (g_par a) true)
              end
          end
      end
  | PChase k thr r p set =>
      match p with
      | None => go (PSet k thr r None set)
      | Some y =>
          match sget s y with
          | None => None
          | Some b => go (if g_flag b =? 3 then PChase k thr r (g_par b) set else PSet k thr r (Some y) set)
          end
      end
  | PSet k thr r p set =>
      match sget s r with
      | None => None
      | Some a => Some (if set then put_par s r a p else s, WSt (PTest k thr r p) (w_lvl w) (w_heap w))
      end
  | PTest k thr r p =>
      match p with
      | None => go (PVar k thr r None)
      | Some y =>
          match sget s y with
          | None => None
          | Some b =>
              go (if (Z.of_nat (g_gray b) <=? thr)%Z then PChase k thr y (g_par b) (g_patch b =? i)
                  else PVar k thr r (Some y))
          end
      end
  | PVar k thr r p =>
      match var_of s thr r p (i, k) with
      | None => None
      | Some v => Some (put_var s (i, k) v, WSt (PFlag k) (w_lvl w) (w_heap w))
      end
  | PFlag k =>
      match sget s (i, k) with
      | None => None
      | Some a =>
          Some (if fgt (s_var s (i, k)) (p_stable P) || bad_limits P (g_size a) (g_par a)
                then put_flag s (i, k) a 1 else s,
                WSt (PNext (S k)) (w_lvl w) (w_heap w))
      end
  | PNms k =>
      match s_F s !! i with
      | None => None
      | Some l =>
          if length l <=? k then go PDone else
          match nms_step P cap i s (w_lvl w) (w_heap w) (i, k) with
          | None => None
          | Some (s', lvl, heap) => Some (s', WSt (PNms (S k)) lvl heap)
          end
      end
  | PDone => go PDone
  end.

(* img_fast_mser_v2.cpp:1016-1188: the workers running under a schedule: the list of the workers that move, in order;
   None = some worker runs into undefined behaviour *)
Fixpoint wrun (P : rparam) (four : bool) (caps : list nat) (sched : list nat) (s : rst) (ws : list wst)
  : option (rst * list wst) :=
  match sched with
  | [] => Some (s, ws)
  | i :: rest =>
      match ws !! i, caps !! i with
      | Some w, Some cap =>
          match wstep P four cap i s w with
          | None => None
          | Some (s', w') => wrun P four caps rest s' (<[i := w']> ws)
          end
      | _, _ => None
      end
  end.

(* img_fast_mser_v2.cpp:1080-1082: a worker at its start *)
Definition wst0 : wst := WSt (PNext 0) lvl0 [].
(* img_fast_mser_v2.cpp:1188: the end of the parallel section: all workers are done *)
Definition all_done (ws : list wst) : bool :=
  forallb (fun w => match w_pc w with PDone => true | _ => false end) ws.

(* ---------- parallel recognition: the sequential part ---------- *)

(* img_fast_mser_v2.cpp:878-918 (32 partitions): one region of the counting and
   suppression loop; state with the counters *)
Definition master_nms (P : rparam) (t : rst * nat * list nat) (x : rref) : option (rst * nat * list nat) :=
  let '(s, total, lvl) := t in
  match sget s x with
  | None => None
  | Some a =>
      if g_flag a =? 3 then Some t else
      let unk := g_flag a =? 0 in
      let s1 := if unk then put_calc s x else s in
      let lvl1 := if unk then lvl_inc lvl (g_gray a) else lvl in
      let total1 := if unk then S total else total in
      match g_par a with
      | None => if unk then None else Some t
      | Some y =>
          match sget s y with
          | None => None
          | Some b =>
              if negb unk && (g_flag b =? 1) then Some t else
              if fge (p_nms P) fzero && fge (s_var s x) fzero && fge (s_var s y) fzero &&
                 (g_gray b =? g_gray a + 1) then
                let d := var_diff (s_var s y) (s_var s x) in
                let kill z :=
                  match sget s1 z with
                  | None => None
                  | Some c =>
                      if g_flag c =? 0 then
                        if s_calc s1 z then
                          match lvl_dec lvl1 (g_gray c), total1 with
                          | Some lvl', S total' => Some (put_flag s1 z c 1, total', lvl')
                          | _, _ => None
                          end
                        else Some (put_flag s1 z c 1, total1, lvl1)
                      else Some (s1, total1, lvl1)
                  end in
                if fgt d (f64_of_f32 (p_nms P)) then kill y else
                if fgt (SFopp d) (f64_of_f32 (p_nms P)) then kill x else Some (s1, total1, lvl1)
              else Some (s1, total1, lvl1)
          end
      end
  end.

(* img_fast_mser_v2.cpp:959-1011,1278-1330: duplicate removal in the parallel versions *)
Definition par_dedup (fuel : nat) (P : rparam) (s : rst) (l : list rref) : option (rst * list rref * nat) :=
  if fgt (p_dup P) fzero then dedup fuel P s l else no_dedup s l.

(* img_fast_mser_v2.cpp:845-957: recognize_mser_parallel with 32 threads up to the
   sorted candidates; [sched] is the interleaving of the 32 workers *)
Definition candidates_32 (P : rparam) (sched : list nat) (b : cbuf) (s0 : rst) : option (rst * list rref * cbuf) :=
  match wrun P false (replicate 32 0) sched s0 (replicate 32 wst0) with
  | None => None
  | Some (s1, ws) =>
      if negb (all_done ws) then None else
      match each (master_nms P) (all_refs (s_F s1)) (s1, 0, lvl0) with
      | None => None
      | Some (s2, total, lvl) =>
          match order_regions s2 b lvl total with
          | None => None
          | Some (l, b') => Some (s2, l, b')
          end
      end
  end.

(* img_fast_mser_v2.cpp:845-1014 recognize_mser_parallel with 32 threads *)
Definition recognize_32 (fuel : nat) (P : rparam) (sched : list nat) (b : cbuf) (s0 : rst)
  : option (rst * list rref * nat * cbuf) :=
  match candidates_32 P sched b s0 with
  | None => None
  | Some (s2, l, b') =>
      match par_dedup fuel P s2 l with
      | Some (s3, l', n) => Some (s3, l', n, b')
      | None => None
      end
  end.

(* img_fast_mser_v2.cpp:1190-1192: the sum of the counters of the four workers *)
Definition lvl_sum (ws : list wst) : list nat :=
  foldr (zip_with Nat.add) lvl0 (w_lvl <$> ws).

(* img_fast_mser_v2.cpp:1206-1237: one region of a heap *)
Definition cross_nms (P : rparam) (t : rst * list nat) (x : rref) : option (rst * list nat) :=
  let '(s, lvl) := t in
  match sget s x with
  | None => None
  | Some a =>
      match g_par a with
      | None => None
      | Some y =>
          match sget s y with
          | None => None
          | Some b =>
              if (g_flag a =? 1) && (g_flag b =? 1) then Some t else
              if fge (s_var s y) fzero then par_pair P s lvl x y else Some t
          end
      end
  end.

(* img_fast_mser_v2.cpp:1063-1276: recognize_mser_parallel_4_acceleration up to the
   sorted candidates; [caps] is the room of the heaps from m_pinfo[i].m_heap on; the
   result ends with the room the next call finds (1181 moves m_heap, 1239 moves it
   back if suppression ran) *)
Definition candidates_4 (P : rparam) (sched : list nat) (caps : list nat) (b : cbuf) (s0 : rst)
  : option (rst * list rref * cbuf * list nat) :=
  match wrun P true caps sched s0 (replicate 4 wst0) with
  | None => None
  | Some (s1, ws) =>
      if negb (all_done ws) then None else
      let nms := fge (p_nms P) fzero in
      match (if nms then each (cross_nms P) (flat_map w_heap ws) (s1, lvl_sum ws) else Some (s1, lvl_sum ws)) with
      | None => None
      | Some (s2, lvl) =>
          match order_regions s2 b lvl (sum_list (take 256 lvl)) with
          | None => None
          | Some (l, b') =>
              Some (s2, l, b', if nms then caps else zip_with (fun c w => c - length (w_heap w)) caps ws)
          end
      end
  end.

(* img_fast_mser_v2.cpp:1063-1333 recognize_mser_parallel_4_acceleration *)
Definition recognize_4 (fuel : nat) (P : rparam) (sched : list nat) (caps : list nat) (b : cbuf) (s0 : rst)
  : option (rst * list rref * nat * cbuf * list nat) :=
  match candidates_4 P sched caps b s0 with
  | None => None
  | Some (s2, l, b', caps') =>
      match par_dedup fuel P s2 l with
      | Some (s3, l', n) => Some (s3, l', n, b', caps')
      | None => None
      end
  end.

(* ---------- the entry point ---------- *)

(* img_fast_mser_v2.cpp:657-663: m_parallel_thread_number with the interleaving of the workers and the room of the heaps *)
Inductive mode := One | Four (sched : list nat) (caps : list nat) | ThirtyTwo (sched : list nat).

(* img_fast_mser_v2.cpp:657-663,845-849: recognize_mser up to the sorted candidates *)
Definition candidates (fuel : nat) (m : mode) (P : rparam) (b : cbuf) (s0 : rst) : option (rst * list rref * cbuf) :=
  match m with
  | One => candidates_serial fuel P b s0
  | Four sched caps =>
      match candidates_4 P sched caps b s0 with Some (s, l, b', _) => Some (s, l, b') | None => None end
  | ThirtyTwo sched => candidates_32 P sched b s0
  end.

(* img_fast_mser_v2.cpp:657-663,845-849: recognize_mser *)
Definition recognize (fuel : nat) (m : mode) (P : rparam) (b : cbuf) (s0 : rst) : option (rst * list rref * nat * cbuf) :=
  match m with
  | One => recognize_serial fuel P b s0
  | Four sched caps =>
      match recognize_4 fuel P sched caps b s0 with Some (s, l, n, b', _) => Some (s, l, n, b') | None => None end
  | ThirtyTwo sched => recognize_32 fuel P sched b s0
  end.
