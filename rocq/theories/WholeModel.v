(* Model of build_tree of Fast MSER V2: flood every partition, then join the trees
   (basicimg/src/img_fast_mser_v2.cpp:203-237).

   Simplifications, valid for every definition below:
   - the image rows are contiguous (img.step()[0] = number of columns) and the
     connectivity is four-neighbour;
   - the partitions are flooded one after the other: make_tree_patch works on the
     buffers of its own partition only and reads the image, and the buffers are
     disjoint (C07), so the omp parallel for of 222 and 231 has one outcome;
   - the memory statistics of 212-216 are dropped. *)
From stdpp Require Import sorting relations functions list.
From Coq Require Import NArith.
From Verif Require Import FloodModel ConnectModel PartModel.

(* img_fast_mser_v2.cpp:205,222-225,231-234: make_tree_patch for the partitions k, k+1, ...;
   None = some partition runs into undefined behaviour or out of budget *)
Fixpoint flood_all (fuel : nat) (gm : N) (fresh : bool) (img : list N) (cols k : nat)
  (rs : list prect) (bs : list fbuf) : option (list (list creg) * list fbuf) :=
  match rs, bs with
  | r :: rs', b :: bs' =>
      match make_tree_patch fuel (cfg4 (r_w r) (r_h r) gm k) fresh img cols (r_top r * cols + r_left r) b with
      | FTree regs b' =>
          match flood_all fuel gm fresh img cols (S k) rs' bs' with
          | Some (ts, os) => Some (regs :: ts, b' :: os)
          | None => None
          end
      | _ => None
      end
  | _, _ => Some ([], [])
  end.

(* img_fast_mser_v2.cpp:204-210: the joins made for a thread count *)
Definition sched_of (threads : nat) : list (list nat * nat * bool) :=
  if threads =? 4 then sched4 else if threads =? 32 then sched32 else [].

(* img_fast_mser_v2.cpp:553-605: the partition records the joins read *)
Definition pinfos (rs : list prect) (os : list fbuf) : list pinfo :=
  zip_with (fun r b => PInfo (r_top r) (r_left r) (r_w r) (r_h r) (b_pts b)) rs os.

(* m_boundary_pixel, img_fast_mser_v2.cpp:198 *)
Definition bnd4 : N := u32 (N.shiftl 5 29).

(* img_fast_mser_v2.cpp:203-237; [n] budget of the floodings, [fuel] of the joins *)
Definition build_tree (n fuel threads : nat) (gm : N) (fresh : bool) (img : list N) (cols rows : nat)
  (bs : list fbuf) : option (forest * list fbuf) :=
  match grid_of threads with
  | None => None
  | Some (hpn, vpn) =>
      let rs := rects hpn vpn cols rows in
      match flood_all n gm fresh img cols 0 rs bs with
      | None => None
      | Some (ts, os) =>
          match merge_seq fuel bnd4 (pinfos rs os) (sched_of threads) (lift_forest ts) with
          | Some F => Some (F, os)
          | None => None
          end
      end
  end.
