(* Model of img_mser_base::extract with Fast MSER V2
   (basicimg/src/img_mser_base.cpp:74-116): both channels, one after the other.

   Left out: the result is emptied first (82), so nothing of it is read; the counters and
   the log (77, 84, 94, 97-107, 110-115); the computation of m_max_point from the ratio
   (75): [P] holds the limits.  allocate_memory (87) is in PartModel; here the buffers
   come with the call. *)
From stdpp Require Import sorting relations functions list.
From Coq Require Import NArith ZArith SpecFloat.
From Verif Require Import FloodModel ConnectModel PartModel WholeModel FloatModel RecogModel DetectModel RectModel ExtractModel.
Local Open Scope nat_scope.

(* img_fast_mser_v2.cpp:1780-1786: the words of the first partitions after extraction *)
Definition put_words (ps : list (list N)) (os : list fbuf) : list fbuf :=
  imap (fun k b => match ps !! k with Some p => FBuf p (b_ext b) (b_lvl b) (b_heap b) (b_hs b) | None => b end) os.

(* m_heap is used as scratch memory by recognition and extraction
   (img_fast_mser_v2.cpp:1651-1667): [d] is what becomes of its contents *)
Definition put_heaps (d : nat -> list (option nat) -> list (option nat)) (os : list fbuf) : list fbuf :=
  imap (fun k b => FBuf (b_pts b) (b_ext b) (b_lvl b) (d k (b_heap b)) (b_hs b)) os.

(* img_mser_base.cpp:92-109: what a call takes apart from the image: interleavings and contents of
   uninitialised memory; [c_dirt] what becomes of m_heap *)
Record chan := Chan {
  c_sched : forest -> list nat; c_var0 : rref -> flt; c_heap0 : rref -> option Z; c_fill : list nat;
  c_dirt : nat -> list (option nat) -> list (option nat)
}.

(* img_mser_base.cpp:92-109: one channel; the result, the buffers, m_gray_order_regions *)
Definition channel (n fuel threads : nat) (gm : N) (fresh : bool) (img : list N) (cols rows : nat)
  (P : rparam) (thr : Z) (bs : list fbuf) (b : cbuf) (c : chan) : option (mres * list fbuf * cbuf) :=
  match grid_of threads, detect n fuel threads gm fresh img cols rows P bs (c_sched c) (c_var0 c) b with
  | Some (hpn, vpn), Some (_, os, s, l, _, b') =>
      match extract_pixel fuel gm thr (rects hpn vpn cols rows) os (s_F s) (c_heap0 c) l (c_fill c) with
      | Some (R, ps) => Some (R, put_heaps (c_dirt c) (put_words ps os), b')
      | None => None
      end
  | _, _ => None
  end.

(* img_mser_base.cpp:90-108, img_fast_mser_v2.cpp:413: the channels that are asked for *)
Definition no_result : mres := MRes 0 (fun _ => None) [].
(* img_mser_base.cpp:90-108 *)
Definition extract (n fuel threads : nat) (dark bright : bool) (img : list N) (cols rows : nat)
  (P : rparam) (thr : Z) (bs : list fbuf) (b : cbuf) (c0 c1 : chan) : option (mres * mres) :=
  match (if dark then channel n fuel threads 0 true img cols rows P thr bs b c0 else Some (no_result, bs, b)) with
  | None => None
  | Some (R0, bs1, b1) =>
      match (if bright then channel n fuel threads 255 (negb dark) img cols rows P thr bs1 b1 c1 else Some (no_result, bs1, b1)) with
      | None => None
      | Some (R1, _, _) => Some (R0, R1)
      end
  end.
