(* Model of the joining phase of Fast MSER V2: connect, the joins along one seam
   and the joining schedules (basicimg/src/img_fast_mser_v2.cpp:4-12, 502-655).

   Simplifications, valid for every definition below:
   - a region pointer is (partition, er index); NULL is None;
   - m_size and pixel_size are i32 that only ever hold sums of non-negative
     values, so they are naturals; a sum of 2^31 or more is signed overflow, that
     is undefined behaviour;
   - while and for loops over links take a step budget; running out of budget is
     the result None, like undefined behaviour, and the theorems exclude both;
   - m_merged_number (counts joins for a log line) and the unused local first are
     dropped. *)
From stdpp Require Import sorting relations functions list.
From Coq Require Import NArith.
From Verif Require Import FloodModel.

(* a pointer to a region *)
Notation rref := (nat * nat)%type.

(* img_fast_mser_v2.h:34-56 *)
Record greg := GReg {
  g_gray : nat; g_flag : nat; g_size : nat; g_par : option rref;
  g_idx : nat; g_patch : nat
}.

(* the region tables of all partitions (m_pinfo[i].m_mser_regions) *)
Notation forest := (list (list greg)).

(* img_fast_mser_v2.cpp:4-12 and throughout: reading through an mser_region pointer; None = dangling pointer *)
Definition fget (F : forest) (r : rref) : option greg :=
  match F !! fst r with Some l => l !! snd r | None => None end.
(* img_fast_mser_v2.cpp:4-12 and throughout: writing through an mser_region pointer *)
Definition fset (F : forest) (r : rref) (a : greg) : forest :=
  alter (fun l => <[snd r := a]> l) (fst r) F.

(* img_fast_mser_v2.cpp:238-404: a region as make_tree_patch leaves it; pointers stay in their partition *)
Definition lift_reg (k : nat) (a : creg) : greg :=
  GReg (m_gray a) (m_flag a) (m_size a) (pair k <$> m_parent a) (m_er_index a) (m_patch a).
(* img_fast_mser_v2.cpp:238-404: the tables left by make_tree_patch, m_pinfo[i].m_mser_regions, as one forest *)
Definition lift_forest (tabs : list (list creg)) : forest :=
  imap (fun k l => lift_reg k <$> l) tabs.

(* img_fast_mser_v2.h:34-56: assignment to m_parent *)
Definition set_par (a : greg) (t : option rref) : greg :=
  GReg (g_gray a) (g_flag a) (g_size a) t (g_idx a) (g_patch a).
(* img_fast_mser_v2.h:34-56: assignment to m_size *)
Definition set_size (a : greg) (n : nat) : greg :=
  GReg (g_gray a) (g_flag a) n (g_par a) (g_idx a) (g_patch a).
(* img_fast_mser_v2.h:34-56: assignment to m_region_flag *)
Definition set_flag (a : greg) (f : nat) : greg :=
  GReg (g_gray a) f (g_size a) (g_par a) (g_idx a) (g_patch a).

(* img_fast_mser_v2.cpp:607-655: i32 addition of non-negative sizes; None = signed overflow *)
Definition add_i32 (a b : nat) : option nat :=
  if (N.of_nat (a + b) <? 2 ^ 31)%N then Some (a + b) else None.

(* img_fast_mser_v2.cpp:4-5 get_real_for_merged (flag 3 = Flag_Merged) *)
Fixpoint real (fuel : nat) (F : forest) (r : option rref) : option (option rref) :=
  match fuel with
  | O => None
  | S n =>
      match r with
      | None => Some None
      | Some x =>
          match fget F x with
          | None => None
          | Some a => if g_flag a =? 3 then real n F (g_par a) else Some (Some x)
          end
      end
  end.

(* img_fast_mser_v2.cpp:10-12 get_set_real_parent_for_merged *)
Definition get_set_real_parent (fuel : nat) (F : forest) (r : rref)
  : option (forest * option rref) :=
  match fget F r with
  | None => None
  | Some a =>
      match real fuel F (g_par a) with
      | None => None
      | Some t => Some (fset F r (set_par a t), t)
      end
  end.

(* img_fast_mser_v2.cpp:629: p != NULL && p->m_gray_level < g *)
Definition below (F : forest) (p : option rref) (g : nat) : option bool :=
  match p with
  | None => Some false
  | Some y => match fget F y with Some d => Some (g_gray d <? g) | None => None end
  end.

(* img_fast_mser_v2.cpp:616-646: the loop; result (forest, bigger, smaller, pixel_size) *)
Fixpoint connect_loop (n fuel : nat) (F : forest) (bigger smaller : option rref) (c : nat)
  : option (forest * option rref * option rref * nat) :=
  match n with
  | O => None
  | S n' =>
      match smaller, bigger with
      | Some s0, Some b0 =>
          if decide (s0 = b0) then Some (F, bigger, smaller, c) else
          match fget F s0, fget F b0 with
          | Some x, Some y =>
              let s := if g_gray y <? g_gray x then b0 else s0 in
              let b := if g_gray y <? g_gray x then s0 else b0 in
              match get_set_real_parent fuel F s with
              | None => None
              | Some (F1, sp) =>
                  match fget F1 s, fget F1 b with
                  | Some xs, Some xb =>
                      match below F1 sp (g_gray xb), add_i32 (g_size xs) c with
                      | Some true, Some m =>
                          connect_loop n' fuel (fset F1 s (set_size xs m)) (Some b) sp c
                      | Some false, Some m =>
                          let f := if g_gray xb =? g_gray xs then 3 else g_flag xs in
                          connect_loop n' fuel
                            (fset F1 s (set_par (set_size (set_flag xs f) m) (Some b)))
                            sp (Some b) (g_size xs)
                      | _, _ => None
                      end
                  | _, _ => None
                  end
              end
          | _, _ => None
          end
      | _, _ => Some (F, bigger, smaller, c)
      end
  end.

(* img_fast_mser_v2.cpp:648-654 *)
Fixpoint connect_rest (n fuel : nat) (F : forest) (smaller : option rref) (c : nat) : option forest :=
  match n with
  | O => None
  | S n' =>
      match smaller with
      | None => Some F
      | Some s =>
          match fget F s with
          | None => None
          | Some a =>
              match add_i32 (g_size a) c with
              | None => None
              | Some m =>
                  match get_set_real_parent fuel (fset F s (set_size a m)) s with
                  | None => None
                  | Some (F', sp) => connect_rest n' fuel F' sp c
                  end
              end
          end
      end
  end.

(* img_fast_mser_v2.cpp:607-655 *)
Definition connect (fuel : nat) (F : forest) (bigger smaller : option rref) : option forest :=
  match connect_loop fuel fuel F bigger smaller 0 with
  | None => None
  | Some (F', None, smaller', c) => connect_rest fuel fuel F' smaller' c
  | Some (F', Some _, _, _) => Some F'
  end.

(* ---------- joining along one seam ---------- *)

(* img_fast_mser_v2.h:66-80: position and pixel words of one partition *)
Record pinfo := PInfo { pi_top : nat; pi_left : nat; pi_w : nat; pi_h : nat; pi_pts : list N }.

(* img_fast_mser_v2.cpp:567-568,591-592: &m_mser_regions.at( *link - m_boundary_pixel);
   only regions created in this pass count as valid *)
Definition region_at (bnd : N) (F : forest) (P : list pinfo) (k off : nat) : option rref :=
  match P !! k, F !! k with
  | Some pi, Some l =>
      match pi_pts pi !! off with
      | None => None
      | Some w => let i := u32 (w + 2 ^ 32 - bnd) in
                  if (i <? N.of_nat (length l))%N then Some (k, N.to_nat i) else None
      end
  | _, _ => None
  end.

(* img_fast_mser_v2.cpp:567-573,591-597: one pixel pair *)
Definition join_pair (fuel : nat) (bnd : N) (P : list pinfo) (F : forest)
  (ka offa kb offb : nat) : option forest :=
  match region_at bnd F P ka offa, region_at bnd F P kb offb with
  | Some a0, Some b0 =>
      match real fuel F (Some a0), real fuel F (Some b0) with
      | Some a, Some b => connect fuel F a b
      | _, _ => None
      end
  | _, _ => None
  end.

(* img_fast_mser_v2.cpp:566-578,590-602: one iteration of the loop over a seam *)
Definition seam_iter (fuel : nat) (bnd : N) (P : list pinfo) (ka stepa kb stepb : nat)
  (s : forest * nat * nat) : option (forest * nat * nat) :=
  let '(F, offa, offb) := s in
  match join_pair fuel bnd P F ka offa kb offb with
  | Some F' => Some (F', offa + stepa, offb + stepb)
  | None => None
  end.

(* img_fast_mser_v2.cpp:555-579 (left_right) and 580-604 *)
Definition join_seam (fuel : nat) (bnd : N) (P : list pinfo) (left_right : bool) (ka kb : nat)
  (F : forest) : option forest :=
  match P !! ka, P !! kb with
  | Some pa, Some pb =>
      let wa := pi_w pa + 2 in
      let wb := pi_w pb + 2 in
      let r := if left_right
               then for_n (pi_h pa) (seam_iter fuel bnd P ka wa kb wb) (F, pi_w pa + wa, 1 + wb)
               else for_n (pi_w pa) (seam_iter fuel bnd P ka 1 kb 1)
                          (F, pi_h pa * wa + 1, wb + 1) in
      match r with Some (F', _, _) => Some F' | None => None end
  | _, _ => None
  end.

(* img_fast_mser_v2.cpp:553-605 merge_tree_parallel_step *)
Fixpoint merge_step (fuel : nat) (bnd : N) (P : list pinfo) (indexes : list nat) (step : nat)
  (left_right : bool) (F : forest) : option forest :=
  match indexes with
  | [] => Some F
  | k :: rest =>
      match join_seam fuel bnd P left_right k (k + step) F with
      | Some F' => merge_step fuel bnd P rest step left_right F'
      | None => None
      end
  end.

(* img_fast_mser_v2.cpp:502-551: a fixed sequence of merge_tree_parallel_step calls *)
Fixpoint merge_seq (fuel : nat) (bnd : N) (P : list pinfo) (steps : list (list nat * nat * bool))
  (F : forest) : option forest :=
  match steps with
  | [] => Some F
  | (ks, step, lr) :: rest =>
      match merge_step fuel bnd P ks step lr F with
      | Some F' => merge_seq fuel bnd P rest F'
      | None => None
      end
  end.

(* img_fast_mser_v2.cpp:502-507 merge_tree_parallel_4 *)
Definition sched4 : list (list nat * nat * bool) := [([0; 2], 1, true); ([0; 1], 2, false)].

(* img_fast_mser_v2.cpp:511-535: the joins of the quadrant whose first partition is s *)
Definition quadrant (s : nat) : list (list nat * nat * bool) :=
  [([s; s + 8], 1, true); ([s + 2; s + 2 + 8], 1, true); ([s + 1; s + 1 + 8], 1, true);
   ([s; s + 1; s + 2; s + 3], 8, false)].

(* img_fast_mser_v2.cpp:509-551 merge_tree_parallel_32, the four quadrants (an omp
   parallel for) one after the other; that the order does not matter is a theorem
   of its own *)
Definition sched32 : list (list nat * nat * bool) :=
  quadrant 0 ++ quadrant 4 ++ quadrant 16 ++ quadrant 20 ++
  [([3; 3 + 8; 3 + 16; 3 + 24], 1, true); ([8; 9; 10; 11; 12; 13; 14; 15], 8, false)].
