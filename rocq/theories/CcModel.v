(* Model of img_connected_component_helper::connect_component for 8-bit images of one
   channel (basicimg/src/img_connected_component.cpp:84-91, include/
   img_connected_component.h:5-51, 363-372, 501-598) at the level of bytes. The image of the
   flags has an entry of two bytes for each pixel: the flag and the value. Pointers are
   offsets of bytes from its start. None is undefined behaviour: reading a byte never
   written or outside of the memory, or overfilling the stack. Left out: the asserts (not
   compiled in a release), the smallest rectangles of the components and the allocation of
   the result. *)
From stdpp Require Import list_numbers list.
From Coq Require Import ZArith NArith.
Local Open Scope nat_scope.

(* mt_mat.h:40-60, malloc: bytes; None was never written *)
Definition bytes := list (option N).

(* img_connected_component.h:504-525: rowMax, colMax, rowMin, colMin of the pixels
   different from the background *)
Definition cc_bounds (src : list N) (step rows cols : nat) (bg : N) : option (Z * Z * Z * Z) :=
  foldl (fun acc rc =>
    match acc, src !! (fst rc * step + snd rc) with
    | Some (rM, cM, rm, cm), Some v =>
      if (v =? bg)%N then Some (rM, cM, rm, cm)
      else Some (Z.max rM (Z.of_nat (fst rc)), Z.max cM (Z.of_nat (snd rc)), Z.min rm (Z.of_nat (fst rc)), Z.min cm (Z.of_nat (snd rc)))
    | _, _ => None
    end) (Some (0, 0, Z.of_nat rows, Z.of_nat cols)%Z) (r ← seq 0 rows; c ← seq 0 cols; [(r, c)]).

(* img_connected_component.h:537-587: data walks over all entries in turn, as
   temp_image_append_offset is 0; entry k = row * (w + 2) + col. The flag of the border and
   of the background is 1. *)
Definition cc_fill (src : list N) (step : nat) (bg : N) (top lft h w : nat) : option bytes :=
  foldl (fun acc rc =>
    match acc with
    | None => None
    | Some m =>
      let k := fst rc * (w + 2) + snd rc in
      if (1 <=? fst rc) && (fst rc <=? h) && (1 <=? snd rc) && (snd rc <=? w) then
        match src !! ((top + fst rc - 1) * step + (lft + snd rc - 1)) with
        | None => None
        | Some v => if (v =? bg)%N then Some (<[2 * k := Some 1%N]> m) else Some (<[2 * k + 1 := Some v]> (<[2 * k := Some 0%N]> m))
        end
      else Some (<[2 * k := Some 1%N]> m)
    end) (Some (replicate (2 * (h + 2) * (2 * (w + 2))) None)) (r ← seq 0 (h + 2); c ← seq 0 (w + 2); [(r, c)]).

(* img_connected_component.h:20,32: reading the flag of the entry at the pointer p *)
Definition flag (m : bytes) (p : Z) : option N :=
  if (p <? 0)%Z then None else match m !! Z.to_nat p with Some (Some v) => Some v | _ => None end.

(* img_types.h:7-10, img_connected_component.h:590-592, img_img.h:68-70: the distances of the
   neighbours, in entries *)
Definition cc_offsets (eight : bool) (w : nat) : list Z :=
  map (fun d => (fst d + Z.quot (snd d * (2 * (Z.of_nat w + 2))) 2)%Z)
    (if eight then [(1, 0); (1, -1); (0, -1); (-1, -1); (-1, 0); (-1, 1); (0, 1); (1, 1)]
     else [(1, 0); (0, -1); (-1, 0); (0, 1)])%Z.

(* img_connected_component.h:27-44: the neighbours of one entry; stack, flags and points *)
Definition cc_around (start : Z) (top lft w area : nat) (p : Z) (acc : option (list Z * bytes * list (Z * Z))) (d : Z) : option (list Z * bytes * list (Z * Z)) :=
  match acc with
  | None => None
  | Some (st, m, pts) =>
    let q := (p + 2 * d)%Z in
    match flag m q with
    | None => None
    | Some f =>
      if (f =? 1)%N then acc
      else if area <=? length st then None
      else
        let o := Z.quot (q - start) 2 in
        let oy := Z.quot o (Z.of_nat w + 2) in
        let ox := (o - oy * (Z.of_nat w + 2))%Z in
        Some (q :: st, <[Z.to_nat q := Some 1%N]> m, pts ++ [(ox + Z.of_nat lft, oy + Z.of_nat top)%Z])
    end
  end.
(* img_connected_component.h:25-46: the loop over the stack *)
Fixpoint cc_flood (fuel : nat) (start : Z) (top lft w area : nat) (ds : list Z) (st : list Z) (m : bytes) (pts : list (Z * Z)) : option (bytes * list (Z * Z)) :=
  match st, fuel with
  | [], _ => Some (m, pts)
  | _ :: _, 0 => None
  | p :: st', S fuel' =>
    match foldl (cc_around start top lft w area p) (Some (st', m, pts)) ds with
    | None => None
    | Some (st2, m2, pts2) => cc_flood fuel' start top lft w area ds st2 m2 pts2
    end
  end.
(* img_connected_component.h:16-49: the loops over rows and columns; image_data moves by
   an entry and by m_row_step = 2 entries after each row *)
Definition cc_scan (fuel : nat) (start : Z) (top lft h w area : nat) (ds : list Z) (m : bytes) : option (bytes * list (list (Z * Z))) :=
  foldl (fun acc rc =>
    match acc with
    | None => None
    | Some (m, ccs) =>
      let p := (start + 2 * Z.of_nat (fst rc * (w + 2) + snd rc))%Z in
      match flag m p with
      | None => None
      | Some f =>
        if (f =? 0)%N then
          match cc_flood fuel start top lft w area ds [p] (<[Z.to_nat p := Some 1%N]> m)
                  [(Z.of_nat (snd rc) + Z.of_nat lft, Z.of_nat (fst rc) + Z.of_nat top)%Z] with
          | None => None
          | Some (m', pts) => Some (m', ccs ++ [pts])
          end
        else acc
      end
    end) (Some (m, [])) (r ← seq 0 h; c ← seq 0 w; [(r, c)]).

(* img_connected_component.h:565: ++area *)
Definition cc_area (src : list N) (step : nat) (bg : N) (top lft h w : nat) : nat :=
  length (List.filter (fun rc => match src !! ((top + fst rc) * step + (lft + snd rc)) with Some v => negb (v =? bg)%N | None => false end)
    (r ← seq 0 h; c ← seq 0 w; [(r, c)])).

(* mt_mat.h:405-409, 453-468: ptr<image_pixel_type>(1, 1) is row 1 and channel 1: one byte
   (element_channel_size of mt_U8C1) after the start of row 1 *)
Definition cc_start (w : nat) : Z := (1 * (2 * (Z.of_nat w + 2)) + 1 * 1)%Z.

(* img_connected_component.cpp:84-91, 11-14: connect_component; a negative size of the
   image of the flags is undefined *)
Definition connect_component (fuel : nat) (src : list N) (step rows cols : nat) (bg : N) (eight : bool) : option (list (list (Z * Z))) :=
  match cc_bounds src step rows cols bg with
  | None => None
  | Some (rM, cM, rm, cm) =>
    let hz := (rM - rm + 1)%Z in
    let wz := (cM - cm + 1)%Z in
    if (hz + 2 <? 0)%Z || (wz + 2 <? 0)%Z then None
    else
      let h := Z.to_nat hz in let w := Z.to_nat wz in let top := Z.to_nat rm in let lft := Z.to_nat cm in
      match cc_fill src step bg top lft h w with
      | None => None
      | Some m => option_map snd (cc_scan fuel (cc_start w) top lft h w (cc_area src step bg top lft h w) (cc_offsets eight w) m)
      end
  end.
