(* Model of the rectangle functions used for the reported rectangles
   (basicmath/include/mt_rect_t.h).  Simplification: coordinates are integers, an
   overflow of their sums is not modelled. *)
From Coq Require Import ZArith Bool.
Local Open Scope Z_scope.

(* mt_rect_t.h:14-20: m_left, m_top, m_width, m_height; the default is empty at (0,0) *)
Record rect := Rect { x_left : Z; x_top : Z; x_w : Z; x_h : Z }.
(* mt_rect_t.h:14-20: the default *)
Definition rect0 : rect := Rect 0 0 0 0.

(* mt_rect_t.h:124-130 *)
Definition right_of (r : rect) : Z := x_left r + x_w r - 1.
(* mt_rect_t.h:124-130 *)
Definition bottom_of (r : rect) : Z := x_top r + x_h r - 1.

(* mt_rect_t.h:320-322 *)
Definition is_empty (r : rect) : bool := (0 =? x_w r) && (0 =? x_h r).

(* mt_rect_t.h:324-348 *)
Definition append_point (r : rect) (x y : Z) : rect :=
  if is_empty r then Rect x y 1 1 else
  let '(rr, l) := if right_of r <? x then (x, x_left r) else if x <? x_left r then (right_of r, x) else (right_of r, x_left r) in
  let '(b, t) := if bottom_of r <? y then (y, x_top r) else if y <? x_top r then (bottom_of r, y) else (bottom_of r, x_top r) in
  Rect l t (rr - l + 1) (b - t + 1).

(* mt_rect_t.h:350-365 *)
Definition append_rect (r a : rect) : rect :=
  if is_empty r then a else
  let l := Z.min (x_left r) (x_left a) in
  let t := Z.min (x_top r) (x_top a) in
  Rect l t (Z.max (right_of r) (right_of a) - l + 1) (Z.max (bottom_of r) (bottom_of a) - t + 1).
