(* Model of the channel images of img_mser_result
   (basicimg/src/img_mser_result.cpp:60-95). A component is its level and its points; an
   image is the list of its pixels row by row. None is undefined behaviour: a vector
   indexed past its end or a pixel outside of the image. *)
From stdpp Require Import list_numbers list.
From Coq Require Import ZArith.
Local Open Scope nat_scope.

(* img_mser_result.h:56-66, img_connected_component.h:103-121: the level (u8) and the points of a component *)
Record mcomp := MComp { mc_level : nat; mc_pts : list (Z * Z) }.

(* mt_mat.h:454-467 (T* ptr) with two indexes: the pixel, if it is inside the image *)
Definition px_at (w h : nat) (q : Z * Z) : option nat :=
  if (0 <=? fst q)%Z && (0 <=? snd q)%Z && (fst q <? Z.of_nat w)%Z && (snd q <? Z.of_nat h)%Z
  then Some (Z.to_nat (snd q) * w + Z.to_nat (fst q)) else None.

(* img_mser_result.cpp:63-64: m_level_image and m_mser_id_image *)
Definition chanimg := (list nat * list Z)%type.

(* img_mser_result.cpp:71-77 (from_min), 84-90: one point of component j; wr is the level written *)
Definition chan_point (w h : nat) (before : nat -> nat -> bool) (j : nat) (lv : nat) (wr : option nat) (s : option chanimg) (q : Z * Z) : option chanimg :=
  match s, px_at w h q with
  | Some (L, D), Some k =>
    match L !! k with
    | None => None
    | Some old =>
      if before lv old then
        match wr with
        | None => None
        | Some v => Some (<[k := v]> L, <[k := Z.of_nat j]> D)
        end
      else Some (L, D)
    end
  | _, _ => None
  end.

(* img_mser_result.cpp:67-79: m_msers[0], levels from above; written is the level of the
   component itself *)
Definition chan_min (w h : nat) (ms : list mcomp) : option chanimg :=
  foldl (fun s jc => foldl (chan_point w h Nat.ltb (fst jc) (mc_level (snd jc)) (Some (mc_level (snd jc)))) s (mc_pts (snd jc)))
    (Some (replicate (h * w) 255, replicate (h * w) (-1)%Z)) (zip (seq 0 (length ms)) ms).

(* img_mser_result.cpp:80-93: m_msers[1], levels from below; line 87 writes the level of
   m_msers[0][j] *)
Definition chan_max (w h : nat) (ms0 ms1 : list mcomp) : option chanimg :=
  foldl (fun s jc => foldl (chan_point w h (fun a b => Nat.ltb b a) (fst jc) (mc_level (snd jc)) (option_map mc_level (ms0 !! fst jc))) s (mc_pts (snd jc)))
    (Some (replicate (h * w) 0, replicate (h * w) (-1)%Z)) (zip (seq 0 (length ms1)) ms1).

(* img_mser_result.cpp:60-95: generate_mser_channel_image *)
Definition channel_image (w h : nat) (ms0 ms1 : list mcomp) (from_min : bool) : option chanimg :=
  if from_min then chan_min w h ms0 else chan_max w h ms0 ms1.
