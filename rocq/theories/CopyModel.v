(* Model of copying and destroying results (basicimg/src/img_mser_base.cpp:15-72,
   basicimg/include/img_mser_base.h:20-62).  Memory is a list of allocated blocks (None after
   release) with the way they were allocated (new: true, malloc: false); a pointer is a block
   and an offset; undefined behaviour is None.  strict says whether releasing a block the
   other way is undefined (the language) or works (common libraries).  Simplifications: a
   point is one number; levels and rectangles are left out; allocation succeeds; m_msers of
   the target of a copy is empty. *)
From stdpp Require Import sorting relations functions list_numbers list.
From Coq Require Import ZArith.
Local Open Scope nat_scope.

(* SPEC: the memory *)
Notation cmemory := (list (option (bool * list Z))).

(* img_mser_base.h:33-38: whether m_memory_type is Memory_Type_Self, m_size, m_points *)
Record mrec := MRec { r_self : bool; r_size : nat; r_points : option (nat * nat) }.
(* img_mser_base.h:59-61: m_msers, m_memory and m_memory_size of one channel *)
Record chan := Chan { c_msers : list mrec; c_mem : option (nat * nat); c_size : nat }.
(* img_mser_base.h:43-48 *)
Definition chan0 : chan := Chan [] None 0.

(* SPEC: the values a pointer refers to, None if one of them is not readable *)
Definition read_at (m : cmemory) (p : option (nat * nat)) (n : nat) : option (list Z) :=
  match n, p with
  | 0, _ => Some []
  | _, None => None
  | _, Some (b, o) =>
      match m !! b with
      | Some (Some (_, vs)) => if o + n <=? length vs then Some (take n (drop o vs)) else None
      | _ => None
      end
  end.

(* sys_basic_define.h:6-20 basicsys_delete_array (new) and basicsys_free: nothing for NULL *)
Definition release (strict new : bool) (p : option (nat * nat)) (m : cmemory) : option cmemory :=
  match p with
  | None => Some m
  | Some (b, o) =>
      match m !! b with
      | Some (Some (k, _)) => if (o =? 0) && (negb strict || Bool.eqb k new) then Some (<[b := None]> m) else None
      | _ => None
      end
  end.

(* img_mser_base.cpp:15-19 *)
Definition destroy_rec (strict : bool) (r : mrec) (m : cmemory) : option cmemory :=
  if r_self r then release strict true (r_points r) m else Some m.
(* img_mser_base.cpp:35-40, 63-66: new and memcpy *)
Definition new_copy (n : nat) (p : option (nat * nat)) (m : cmemory) : option (option (nat * nat) * cmemory) :=
  if n =? 0 then Some (None, m) else
  match read_at m p n with Some vs => Some (Some (length m, 0), m ++ [Some (true, vs)]) | None => None end.
(* img_mser_base.cpp:21-44: the copy constructor; m_points is NULL before *)
Definition copy_rec (r : mrec) (m : cmemory) : option (mrec * cmemory) :=
  if r_self r then match new_copy (r_size r) (r_points r) m with Some (p, m') => Some (MRec true (r_size r) p, m') | None => None end
  else Some (r, m).
(* img_mser_base.cpp:54-55: the elements of a vector are copied in order *)
Fixpoint copy_recs (rs : list mrec) (m : cmemory) : option (list mrec * cmemory) :=
  match rs with
  | [] => Some ([], m)
  | r :: rs =>
      match copy_rec r m with
      | None => None
      | Some (r', m1) => match copy_recs rs m1 with Some (rs', m2) => Some (r' :: rs', m2) | None => None end
      end
  end.
(* img_mser_base.cpp:46-72: the copy constructor; both vectors first, then both memories *)
Definition copy_result (a b : chan) (m : cmemory) : option (chan * chan * cmemory) :=
  match copy_recs (c_msers a) m with
  | None => None
  | Some (ra, m) =>
      match copy_recs (c_msers b) m with
      | None => None
      | Some (rb, m) =>
          match new_copy (c_size a) (c_mem a) m with
          | None => None
          | Some (pa, m) =>
              match new_copy (c_size b) (c_mem b) m with
              | None => None
              | Some (pb, m) => Some (Chan ra pa (c_size a), Chan rb pb (c_size b), m)
              end
          end
      end
  end.

(* the destructor of a vector (std::vector), used for img_mser_base.h:59 *)
Fixpoint destroy_recs (strict : bool) (rs : list mrec) (m : cmemory) : option cmemory :=
  match rs with [] => Some m | r :: rs => match destroy_rec strict r m with Some m' => destroy_recs strict rs m' | None => None end end.
(* img_mser_base.h:52-55: the destructor: both memories with free, then the members (m_msers[1]
   before m_msers[0]) *)
Definition destroy_result (strict : bool) (a b : chan) (m : cmemory) : option cmemory :=
  match release strict false (c_mem a) m with
  | None => None
  | Some m =>
      match release strict false (c_mem b) m with
      | None => None
      | Some m => match destroy_recs strict (c_msers b) m with Some m => destroy_recs strict (c_msers a) m | None => None end
      end
  end.
(* img_mser_base.cpp:82, 53-72: assigning an empty result, as extract does first: the old
   records are destroyed, both memories are released with delete[] *)
Definition clear_result (strict : bool) (a b : chan) (m : cmemory) : option (chan * chan * cmemory) :=
  match destroy_recs strict (c_msers a) m with
  | None => None
  | Some m =>
      match destroy_recs strict (c_msers b) m with
      | None => None
      | Some m =>
          match release strict true (c_mem a) m with
          | None => None
          | Some m => match release strict true (c_mem b) m with Some m => Some (chan0, chan0, m) | None => None end
          end
      end
  end.

(* SPEC: the points of a record that are stored one behind the other (m_memory_type Self and
   Share, img_mser_helper.cpp:56-66) *)
Definition rec_points (m : cmemory) (r : mrec) : option (list Z) := read_at m (r_points r) (r_size r).

(* SPEC: the block a record owns *)
Definition rec_block (r : mrec) : list nat := match r_self r, r_points r with true, Some (b, _) => [b] | _, _ => [] end.
(* SPEC: the block of the memory of a channel *)
Definition mem_block (c : chan) : list nat := match c_mem c with Some (b, _) => [b] | None => [] end.
(* SPEC: the blocks a result owns *)
Definition owned (a b : chan) : list nat := mem_block a ++ mem_block b ++ concat (map rec_block (c_msers a)) ++ concat (map rec_block (c_msers b)).

(* SPEC: a record in the memory block mb *)
Definition rec_ok (m : cmemory) (mb : option (nat * nat)) (r : mrec) : Prop :=
  (exists vs, rec_points m r = Some vs) /\
  if r_self r then match r_points r with None => r_size r = 0 | Some (b, o) => o = 0 /\ exists vs, m !! b = Some (Some (true, vs)) end
  else r_size r = 0 \/ exists b o o', mb = Some (b, o) /\ r_points r = Some (b, o').
(* SPEC: the memory of a channel, allocated with malloc *)
Definition mem_ok (m : cmemory) (c : chan) : Prop :=
  match c_mem c with
  | None => c_size c = 0
  | Some (b, o) => o = 0 /\ exists vs, m !! b = Some (Some (false, vs)) /\ c_size c <= length vs
  end.
(* SPEC: a result as extract leaves it *)
Definition result_ok (m : cmemory) (a b : chan) : Prop :=
  NoDup (owned a b) /\ mem_ok m a /\ mem_ok m b /\ Forall (rec_ok m (c_mem a)) (c_msers a) /\ Forall (rec_ok m (c_mem b)) (c_msers b).
