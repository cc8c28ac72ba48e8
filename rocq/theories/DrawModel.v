(* Model of drawing a reported region (basicimg/src/img_mser_helper.cpp:35-157 without the
   resizing at 159-161, i.e. for a dst_size that is not positive).

   Simplifications, valid for every definition below:
   - a pixel of the drawn image is one value (its channels are set together:
     basicmath/src/mt_mat.cpp:23-41); [fg] and [bg] are the two colours;
   - sums of coordinates are integers (no i32 overflow);
   - mt_mat::create with a negative size is the result None;
   - the points of a record are collected before they are drawn: k_read (Memory_Type_Range),
     cv_read (Memory_Type_Share) and visit (Memory_Type_Share_Parallel_4 and
     Memory_Type_Recursive_Parallel_4) render the loops 56-66 and 67-119. *)
From stdpp Require Import list.
From Coq Require Import NArith ZArith.
From Verif Require Import FloodModel RectModel ExtractModel CvModel V1ExtractModel.
Local Open Scope nat_scope.

(* basicmath/include/mt_mat.h:288-300, 454-467: the drawn image: columns, rows, and its
   pixels row by row *)
Record pic (A : Type) := Pic { pc_w : nat; pc_h : nat; pc_px : list A }.
Arguments Pic {A} _ _ _.
Arguments pc_w {A} _.
Arguments pc_h {A} _.
Arguments pc_px {A} _.

(* img_mser_helper.cpp:44-50: expend_width and expend_height *)
Definition margins (r : rect) : Z * Z :=
  if (x_h r <? x_w r)%Z then (0, Z.quot (x_w r - x_h r) 2)%Z
  else if (x_w r <? x_h r)%Z then (Z.quot (x_h r - x_w r) 2, 0)%Z
  else (0, 0)%Z.

(* img_mser_helper.cpp:58-65, 85-89, 103-107 with img_img.h:64-66 point_in_image and
   mt_mat.cpp:1962-1985: the point q of the region is set if it is inside the image *)
Definition draw_point {A} (fg : A) (r : rect) (d : pic A) (q : Z * Z) : pic A :=
  let x := (fst q - x_left r + fst (margins r))%Z in
  let y := (snd q - x_top r + snd (margins r))%Z in
  if (0 <=? x)%Z && (0 <=? y)%Z && (x <? Z.of_nat (pc_w d))%Z && (y <? Z.of_nat (pc_h d))%Z
  then Pic (pc_w d) (pc_h d) (<[Z.to_nat y * pc_w d + Z.to_nat x := fg]> (pc_px d))
  else d.

(* img_mser_helper.cpp:52-119: the image of the points L with the rectangle r *)
Definition draw {A} (fg bg : A) (r : rect) (L : list (Z * Z)) : option (pic A) :=
  let w := (x_w r + fst (margins r) * 2)%Z in
  let h := (x_h r + snd (margins r) * 2)%Z in
  if (w <? 0)%Z || (h <? 0)%Z then None else
  Some (foldl (draw_point fg r) (Pic (Z.to_nat w) (Z.to_nat h) (replicate (Z.to_nat h * Z.to_nat w) bg)) L).

(* img_mser_helper.cpp:35-66: a record of Fast MSER V1 with more than one thread *)
Definition draw_v1 {A} (fg bg : A) (R : kres) (r : krec) : option (pic A) :=
  match k_read (k_mem R) r with
  | None => None
  | Some L => draw fg bg (kr_rect r) (map (fun q => (Z.of_nat (fst q), Z.of_nat (snd q))) L)
  end.
(* img_mser_helper.cpp:35-66: a record of CV-MSER+ *)
Definition draw_cv {A} (fg bg : A) (R : cvres) (m : cvrec) : option (pic A) :=
  match cv_read R m with
  | None => None
  | Some L => draw fg bg (cr_rect m) L
  end.
(* img_mser_helper.cpp:35-54, 67-119: record j of Fast MSER V2 *)
Definition draw_v2 {A} (fg bg : A) (R : mres) (j : nat) : option (pic A) :=
  match r_ms R !! j, visit (length (r_ms R)) R [j] with
  | Some c, Some (L, _) => draw fg bg (ms_rect c) L
  | _, _ => None
  end.
