(* Model of finding the regions of one channel: build_tree and recognize_mser
   (basicimg/src/img_mser_base.cpp:89-107, img_fast_mser_v2.cpp:203-237, 657-849). *)
From stdpp Require Import sorting relations functions list.
From Coq Require Import NArith ZArith SpecFloat.
From Verif Require Import FloodModel ConnectModel PartModel WholeModel FloatModel RecogModel.
Local Open Scope nat_scope.

(* img_fast_mser_v2.cpp:657-663,845-849: the version of recognition for a thread count,
   under a schedule of its workers; the room for entries is the part of m_heap given to
   the partition, img_fast_mser_v2.cpp:154-158 *)
Definition mode_of (threads : nat) (rs : list prect) (sched : list nat) : mode :=
  if threads =? 1 then One
  else if threads =? 4 then Four sched (map (fun r => r_w r * r_h r + 257) rs)
  else ThirtyTwo sched.

(* img_mser_base.cpp:92-107: the tree of one channel and the regions recognised in it;
   [sched] may depend on the tree; [var0] holds the uninitialised variations *)
Definition detect (n fuel threads : nat) (gm : N) (fresh : bool) (img : list N) (cols rows : nat)
  (P : rparam) (bs : list fbuf) (sched : forest -> list nat) (var0 : rref -> flt) (b : cbuf)
  : option (forest * list fbuf * rst * list rref * nat * cbuf) :=
  match grid_of threads, build_tree n fuel threads gm fresh img cols rows bs with
  | Some (hpn, vpn), Some (F, os) =>
      match recognize fuel (mode_of threads (rects hpn vpn cols rows) (sched F)) P b (RSt F var0 (fun _ => false)) with
      | Some (s, l, k, b') => Some (F, os, s, l, k, b')
      | None => None
      end
  | _, _ => None
  end.
