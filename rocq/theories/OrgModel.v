(* Model of the original implementation (basicimg/src/img_origin_mser.cpp, class
   img_original_mser) for a null mask, with four or eight neighbours, and of a call of
   img_mser_base::extract with it (basicimg/src/img_mser_base.cpp:74-116).

   Simplifications, valid for every definition below:
   - pointers to mser_region are offsets in m_regions, pointers to linked_point and into
     mTempImage are offsets in arrays of (w + 2) * (h + 2) entries (the rows of mTempImage
     follow each other without a gap);
   - m_point of linked point i is computed from i where it is read (613-627 set it so);
   - accesses outside of an array, NULL pointers followed and push_back beyond the reserved
     capacity (which would move m_regions away from under the pointers into it) are the
     result None, which the theorems exclude;
   - loops over links and the stack take a step budget; running out of it is None as well;
   - numbers that are only logged and timers are dropped. *)
From stdpp Require Import sorting relations functions list.
From Coq Require Import NArith ZArith SpecFloat.
From Verif Require Import FloodModel FloatModel RectModel RecogModel V1BuildModel.
Local Open Scope nat_scope.

(* img_origin_mser.h:50-83: the fields of a region; flag: 0 Flag_Unknow, 1 Flag_Invalid,
   2 Flag_Valid *)
Record oreg := OReg { o_head : nat; o_tail : nat; o_merged : bool; o_flag : nat; o_gray : nat; o_size : nat;
  o_par : option nat; o_short : nat; o_var : flt }.
(* img_origin_mser.cpp:41, 351, 393, 397, 410, 327: r->mShortCut = x *)
Definition oset_short (a : oreg) (x : nat) : oreg :=
  OReg (o_head a) (o_tail a) (o_merged a) (o_flag a) (o_gray a) (o_size a) (o_par a) x (o_var a).
(* img_origin_mser.cpp:44, 89, 99, 114, 120, 157, 161: r->mFlags = f *)
Definition oset_flag (a : oreg) (f : nat) : oreg :=
  OReg (o_head a) (o_tail a) (o_merged a) f (o_gray a) (o_size a) (o_par a) (o_short a) (o_var a).
(* img_origin_mser.cpp:56, 65: r->mParent = p *)
Definition oset_par (a : oreg) (p : option nat) : oreg :=
  OReg (o_head a) (o_tail a) (o_merged a) (o_flag a) (o_gray a) (o_size a) p (o_short a) (o_var a).
(* img_origin_mser.cpp:328: r->mStableVariantion = v *)
Definition oset_var (a : oreg) (v : flt) : oreg :=
  OReg (o_head a) (o_tail a) (o_merged a) (o_flag a) (o_gray a) (o_size a) (o_par a) (o_short a) v.

(* ---------- allocate_memory ---------- *)

(* img_origin_mser.cpp:463-480: mTempImage: the image with a frame of 0x8000, [step] the
   bytes per row of the image *)
Definition o_pad (src : list N) (step w h : nat) : option (list Z) :=
  mapM (fun i =>
    let y := i / (w + 2) in let x := i mod (w + 2) in
    if (1 <=? y) && (y <=? h) && (1 <=? x) && (x <=? w)
    then Z.of_N <$> src !! ((y - 1) * step + (x - 1)) else Some (-32768)%Z) (seq 0 ((w + 2) * (h + 2))).

(* img_types.h:7-10, img_origin_mser.cpp:445-447, 602-604 and img_img.h:68-70: mImageStep *)
Definition o_offs (e : bool) (w : nat) : list Z :=
  let W := Z.of_nat (w + 2) in
  map (fun d => (fst d + snd d * W)%Z)
    (if e then [(1, 0); (1, -1); (0, -1); (-1, -1); (-1, 0); (-1, 1); (0, 1); (1, 1)]%Z
     else [(1, 0); (0, -1); (-1, 0); (0, 1)]%Z).

(* img_origin_mser.cpp:637-640, 660-661: the k-th pixel of the inner loops as an offset *)
Definition o_pos (w k : nat) : nat := (k / w + 1) * (w + 2) + (k mod w + 1).
(* img_origin_mser.cpp:641-642, 662-663: its value; the values are never negative *)
Definition o_key (img : list Z) (w k : nat) : option nat :=
  match img !! o_pos w k with
  | Some v => if (v <? 0)%Z then None else Some (Z.to_nat v)
  | None => None
  end.
(* img_origin_mser.cpp:629-671: m_pts by counting sort, as offsets; None = entry not written *)
Definition o_order (img : list Z) (w h : nat) : option (list nat) :=
  match seam_order (o_key img w) (w * h) with
  | Some l => mapM (fun o => o_pos w <$> o) l
  | None => None
  end.

(* ---------- extractPass ---------- *)

(* img_origin_mser.cpp:332-438: what the pass changes: m_regions, m_next and
   m_according_region of the linked points, the stack (top first) *)
Record ost := OSt { os_regs : list oreg; os_next : list (option nat); os_own : list (option nat); os_stk : list nat }.

(* img_origin_mser.cpp:390-394: follow the short cuts from [o], setting them to c *)
Fixpoint o_chase (n c o : nat) (regs : list oreg) : option (nat * list oreg) :=
  match n with
  | O => None
  | S n' =>
      match regs !! o with
      | None => None
      | Some b => if o_short b =? o then Some (o, regs) else o_chase n' c (o_short b) (<[o := oset_short b c]> regs)
      end
  end.

(* img_origin_mser.cpp:388-411: the neighbour belongs to region x *)
Definition o_absorb (n c : nat) (st : ost) (x : nat) : option ost :=
  match os_regs st !! x with
  | None => None
  | Some a =>
      match o_chase n c (o_short a) (os_regs st) with
      | None => None
      | Some (o, regs1) =>
          match regs1 !! x with
          | None => None
          | Some a1 =>
              let regs2 := <[x := oset_short a1 c]> regs1 in
              if o =? c then Some (OSt regs2 (os_next st) (os_own st) (os_stk st)) else
              match regs2 !! o, regs2 !! c with
              | Some bo, Some bc =>
                  match store (os_next st) (o_tail bc) (Some (o_head bo)) with
                  | None => None
                  | Some next' =>
                      let bo' := OReg (o_head bo) (o_tail bo) (o_gray bo =? o_gray bc) (o_flag bo) (o_gray bo) (o_size bo) (Some c) c (o_var bo) in
                      let bc' := OReg (o_head bc) (o_tail bo) (o_merged bc) (o_flag bc) (o_gray bc) (o_size bc + o_size bo) (o_par bc) (o_short bc) (o_var bc) in
                      Some (OSt (<[c := bc']> (<[o := bo']> regs2)) next' (os_own st) (os_stk st))
                  end
              | _, _ => None
              end
          end
      end
  end.

(* img_origin_mser.cpp:379-386: the neighbour q has no region yet; [cap] is the size of the
   stack *)
Definition o_take (cap c : nat) (st : ost) (q : nat) : option ost :=
  match os_regs st !! c with
  | None => None
  | Some bc =>
      match store (os_next st) (o_tail bc) (Some q), store (os_own st) q (Some c) with
      | Some next', Some own' =>
          if cap <=? length (os_stk st) then None else
          Some (OSt (<[c := OReg (o_head bc) q (o_merged bc) (o_flag bc) (o_gray bc) (S (o_size bc)) (o_par bc) (o_short bc) (o_var bc)]> (os_regs st))
                  next' own' (q :: os_stk st))
      | _, _ => None
      end
  end.

(* img_origin_mser.cpp:368-412: one neighbour of [top] *)
Definition o_visit (n cap : nat) (img : list Z) (c top : nat) (st : ost) (d : Z) : option ost :=
  let z := (Z.of_nat top + d)%Z in
  if (z <? 0)%Z then None else
  let q := Z.to_nat z in
  match img !! q, img !! top with
  | Some v, Some u =>
      if (v <? 0)%Z then Some st else
      if (v <=? u)%Z then
        match os_own st !! q with
        | None => None
        | Some None => o_take cap c st q
        | Some (Some x) => o_absorb n c st x
        end
      else Some st
  | _, _ => None
  end.

(* img_origin_mser.cpp:365-415: while the stack is not empty *)
Fixpoint o_flood (m n cap : nat) (img : list Z) (offs : list Z) (c : nat) (st : ost) : option ost :=
  match m with
  | O => None
  | S m' =>
      match os_stk st with
      | [] => Some st
      | top :: k =>
          match sweep (o_visit n cap img c top) offs (OSt (os_regs st) (os_next st) (os_own st) k) with
          | None => None
          | Some st' => o_flood m' n cap img offs c st'
          end
      end
  end.

(* img_origin_mser.cpp:348-416: one entry of m_pts; [rcap] is the capacity of m_regions *)
Definition o_seed (n cap rcap : nat) (img : list Z) (offs : list Z) (st : ost) (p : nat) : option ost :=
  match os_own st !! p, img !! p with
  | Some (Some _), Some _ => Some st
  | Some None, Some v =>
      let c := length (os_regs st) in
      if (rcap <=? c) || (cap <=? length (os_stk st)) then None else
      o_flood n n cap img offs c
        (OSt (os_regs st ++ [OReg p p false 0 (Z.to_nat v) 1 None c fminus1]) (os_next st) (<[p := Some c]> (os_own st)) (p :: os_stk st))
  | _, _ => None
  end.

(* img_origin_mser.cpp:332-418 extractPass over m_pts ([pts] in the order of the pass) with
   m_regions holding [stale] *)
Definition o_pass (n cap rcap : nat) (img : list Z) (offs : list Z) (pts : list nat) (stale : list oreg) : option ost :=
  sweep (o_seed n cap rcap img offs) pts
    (OSt stale (replicate (length img) None) (replicate (length img) None) []).

(* img_origin_mser.cpp:686-704 reversePixelValue *)
Definition o_reverse (img : list Z) : list Z := map (fun v => if (v <? 0)%Z then v else (255 - v)%Z) img.

(* ---------- recognize_mser ---------- *)

(* img_origin_mser.cpp:50-54, 59-63: the first ancestor that is not merged *)
Fixpoint o_real (n : nat) (regs : list oreg) (p : option nat) : option (option nat) :=
  match n with
  | O => None
  | S n' =>
      match p with
      | None => Some None
      | Some y =>
          match regs !! y with
          | None => None
          | Some b => if o_merged b then o_real n' regs (o_par b) else Some (Some y)
          end
      end
  end.

(* img_origin_mser.cpp:40-72: one region of the first loop; the state is m_regions and
   invalidCount *)
Definition o_link (n : nat) (t : list oreg * nat) (i : nat) : option (list oreg * nat) :=
  let '(regs, inv) := t in
  match regs !! i with
  | None => None
  | Some a =>
      let a := oset_short a i in
      if o_merged a then Some (<[i := oset_flag a 1]> regs, S inv) else
      match o_real n regs (o_par a) with
      | None => None
      | Some p =>
          let regs1 := <[i := oset_par a p]> regs in
          match p with
          | None => Some (regs1, inv)
          | Some y =>
              match regs1 !! y with
              | None => None
              | Some b =>
                  match o_real n regs1 (o_par b) with
                  | None => None
                  | Some p2 => Some (<[y := oset_par b p2]> regs1, inv)
                  end
              end
          end
      end
  end.

(* img_origin_mser.cpp:320-323 *)
Fixpoint o_climb (n : nat) (regs : list oreg) (thr : Z) (temp : nat) (parent : option nat)
  : option (nat * option nat) :=
  match n with
  | O => None
  | S n' =>
      match parent with
      | None => Some (temp, None)
      | Some y =>
          match regs !! y with
          | None => None
          | Some b => if (Z.of_nat (o_gray b) <=? thr)%Z then o_climb n' regs thr y (o_par b) else Some (temp, Some y)
          end
      end
  end.

(* img_origin_mser.cpp:300-330 calculateStableVariantion *)
Definition o_variation (n : nat) (P : rparam) (regs : list oreg) (i : nat) : option (list oreg) :=
  match regs !! i with
  | None => None
  | Some a =>
      match add_z (Z.of_nat (o_gray a)) (p_delta P), regs !! o_short a with
      | Some thr, Some s =>
          match o_climb n regs thr (o_short a) (o_par s) with
          | None => None
          | Some (t, p) =>
              match regs !! t with
              | None => None
              | Some b =>
                  if (match p with Some _ => true | None => false end) || (Z.of_nat (o_gray b) =? thr)%Z
                  then match o_par a with
                       | None => None
                       | Some y =>
                           match regs !! y with
                           | None => None
                           | Some c =>
                               let regs1 := <[y := oset_short c t]> regs in
                               match regs1 !! i with
                               | None => None
                               | Some a1 => Some (<[i := oset_var a1 (f32_growth (o_size b) (o_size a))]> regs1)
                               end
                           end
                       end
                  else Some regs
              end
          end
      | _, _ => None
      end
  end.

(* img_origin_mser.cpp:80-103: one region of the second loop *)
Definition o_base (n : nat) (P : rparam) (t : list oreg * nat) (i : nat) : option (list oreg * nat) :=
  let '(regs, inv) := t in
  match regs !! i with
  | None => None
  | Some a =>
      if o_flag a =? 1 then Some t else
      match (if (0 <? p_delta P)%Z then o_variation n P regs i else Some regs) with
      | None => None
      | Some regs1 =>
          match regs1 !! i with
          | None => None
          | Some a1 =>
              if (0 <? p_delta P)%Z && fgt (o_var a1) (p_stable P)
              then Some (<[i := oset_flag a1 1]> regs1, S inv) else
              if (Z.of_nat (o_size a1) <? p_min P)%Z || (p_max P <? Z.of_nat (o_size a1))%Z
              then Some (<[i := oset_flag a1 1]> regs1, S inv) else Some (regs1, inv)
          end
      end
  end.

(* img_origin_mser.cpp:113-116, 119-122 *)
Definition o_kill (t : list oreg * nat) (z : nat) : option (list oreg * nat) :=
  let '(regs, inv) := t in
  match regs !! z with
  | None => None
  | Some c => if o_flag c =? 1 then Some t else Some (<[z := oset_flag c 1]> regs, S inv)
  end.

(* img_origin_mser.cpp:106-126: one region of the suppression loop *)
Definition o_nms (P : rparam) (t : list oreg * nat) (i : nat) : option (list oreg * nat) :=
  let '(regs, inv) := t in
  match regs !! i with
  | None => None
  | Some a =>
      match o_par a with
      | None => Some t
      | Some y =>
          if fge (o_var a) fzero then
            match regs !! y with
            | None => None
            | Some b =>
                if fge (o_var b) fzero && (o_gray b =? o_gray a + 1) then
                  let d := var_diff (o_var b) (o_var a) in
                  if fgt d (f64_of_f32 (p_nms P)) then o_kill t y else
                  if fgt (SFopp d) (f64_of_f32 (p_nms P)) then o_kill t i else Some t
                else Some t
            end
          else Some t
      end
  end.

(* img_origin_mser.cpp:252-279 getDuplicatedRegions: the regions pushed *)
Fixpoint o_duplicated (n : nat) (P : rparam) (regs : list oreg) (stable : nat) (parent : option nat)
  : option (list nat) :=
  match n with
  | O => None
  | S n' =>
      match parent with
      | None => Some []
      | Some y =>
          match regs !! y with
          | None => None
          | Some b =>
              if (p_max P <? Z.of_nat (o_size b))%Z then Some [] else
              if fgt (f64_growth (o_size b) stable) (f64_of_f32 (p_dup P)) then Some [] else
              match o_duplicated n' P regs stable (o_par b) with
              | None => None
              | Some l => Some (if o_flag b =? 1 then l else y :: l)
              end
          end
      end
  end.

(* img_origin_mser.cpp:155-164: mark the list, [j] the position of its first entry *)
Fixpoint o_mark (t : list oreg * nat) (j middle : nat) (l : list nat) : option (list oreg * nat) :=
  match l with
  | [] => Some t
  | z :: l' =>
      let '(regs, inv) := t in
      match regs !! z with
      | None => None
      | Some c => o_mark (if j =? middle then (<[z := oset_flag c 2]> regs, inv) else (<[z := oset_flag c 1]> regs, S inv)) (S j) middle l'
      end
  end.

(* img_origin_mser.cpp:138-165: one region of the removal of duplicates *)
Definition o_dedup (n : nat) (P : rparam) (t : list oreg * nat) (i : nat) : option (list oreg * nat) :=
  let '(regs, inv) := t in
  match regs !! i with
  | None => None
  | Some a =>
      if negb (o_flag a =? 0) then Some t else
      match o_duplicated n P regs (o_size a) (o_par a) with
      | None => None
      | Some l1 =>
          let dup := i :: l1 in
          let middle := length dup / 2 in
          match
            (if 0 <? middle then
               match dup !! middle, last dup with
               | Some m, Some e =>
                   match regs !! m, regs !! e with
                   | Some cm, Some ce => o_duplicated n P regs (o_size cm) (o_par ce)
                   | _, _ => None
                   end
               | _, _ => None
               end
             else Some []) with
          | None => None
          | Some l2 => o_mark t 0 middle (dup ++ l2)
          end
      end
  end.

(* img_origin_mser.cpp:32-187 recognize_mser: m_regions and m_invalid_er_number *)
Definition o_recognize (n : nat) (P : rparam) (regs : list oreg) : option (list oreg * nat) :=
  let ids := seq 0 (length regs) in
  match sweep (o_link n) ids (regs, 0) with
  | None => None
  | Some t1 =>
      match sweep (o_base n P) ids t1 with
      | None => None
      | Some t2 =>
          match (if (0 <? p_delta P)%Z && fge (p_nms P) fzero then sweep (o_nms P) ids t2 else Some t2) with
          | None => None
          | Some t3 => sweep (o_dedup n P) ids t3
          end
      end
  end.

(* ---------- extract_pixel ---------- *)

(* img_mser_base.h:8-40: a record with its points (Memory_Type_Self) *)
Record orec := ORec { q_gray : N; q_size : nat; q_pts : list (Z * Z); q_rect : rect }.

(* img_origin_mser.cpp:616-619: m_point of the linked point i *)
Definition o_point (w i : nat) : Z * Z := (Z.of_nat (i mod (w + 2)) - 1, Z.of_nat (i / (w + 2)) - 1)%Z.

(* img_origin_mser.cpp:204-209: k points from the linked point [p] *)
Fixpoint o_read (next : list (option nat)) (k : nat) (p : option nat) : option (list nat) :=
  match k with
  | O => Some []
  | S k' =>
      match p with
      | None => None
      | Some i =>
          match next !! i with
          | None => None
          | Some p' => match o_read next k' p' with Some l => Some (i :: l) | None => None end
          end
      end
  end.

(* img_origin_mser.cpp:196-209: the record of a region *)
Definition o_record (w : nat) (gm : N) (next : list (option nat)) (a : oreg) : option orec :=
  match o_read next (o_size a) (Some (o_head a)) with
  | None => None
  | Some l =>
      let pts := map (o_point w) l in
      Some (ORec (N.modulo (if (gm =? 0)%N then N.of_nat (o_gray a) else Z.to_N ((255 - Z.of_nat (o_gray a)) mod 256)%Z) 256) (o_size a) pts
              (fold_left (fun r q => append_point r (fst q) (snd q)) pts rect0))
  end.

(* img_origin_mser.cpp:189-214 extract_pixel: the records; those not written keep the
   defaults of img_mser_base.h:20-25 *)
Definition o_extract_pixel (w : nat) (gm : N) (next : list (option nat)) (regs : list oreg) (inv : nat) : option (list orec) :=
  match mapM (o_record w gm next) (List.filter (fun a => o_flag a =? 2) regs) with
  | None => None
  | Some l => if length l + inv <=? length regs then Some (l ++ replicate (length regs - inv - length l) (ORec 0 0 [] rect0)) else None
  end.

(* ---------- a call ---------- *)

(* img_mser_base.cpp:92-107 with build_tree (img_origin_mser.cpp:673-684): one channel;
   m_regions holds [stale]; the result is the records and m_regions *)
Definition o_channel (n cap rcap w : nat) (gm : N) (img : list Z) (offs : list Z) (pts : list nat) (stale : list oreg) (P : rparam)
  : option (list orec * list oreg) :=
  match o_pass n cap rcap img offs pts stale with
  | None => None
  | Some st =>
      match o_recognize n P (os_regs st) with
      | None => None
      | Some (regs, inv) =>
          match o_extract_pixel w gm (os_next st) regs inv with
          | None => None
          | Some l => Some (l, regs)
          end
      end
  end.

(* img_origin_mser.h:85-91: what an object keeps between calls: m_stack_helper_size,
   m_regions and its capacity *)
Record oobj := OObj { ob_area : nat; ob_regs : list oreg; ob_cap : nat }.
(* img_origin_mser.h:22-27: a new object *)
Definition o_new : oobj := OObj 0 [] 0.

(* img_mser_base.cpp:74-116 with img_origin_mser.cpp:444-671: a call for dark (dk) and
   bright (br) regions.  m_regions is only cleared when the area is that of the last call
   (594-600); None also when old regions are moved by the reserve of 606, which leaves
   their pointers dangling *)
Definition o_extract (n : nat) (e dk br : bool) (src : list N) (step w h : nat) (P : rparam) (ob : oobj)
  : option (list orec * list orec * oobj) :=
  match o_pad src step w h with
  | None => None
  | Some img =>
      let area := w * h in
      let stale := if ob_area ob =? area then [] else ob_regs ob in
      let rcap := Nat.max area (ob_cap ob) in
      if (ob_cap ob <? area) && negb (length stale =? 0) then None else
      match o_order img w h with
      | None => None
      | Some pts =>
          match (if dk then o_channel n area rcap w 0 img (o_offs e w) pts stale P else Some ([], stale)) with
          | None => None
          | Some (r0, regs0) =>
              match (if br then o_channel n area rcap w 255 (o_reverse img) (o_offs e w) (rev pts) (if dk then [] else regs0) P
                     else Some ([], regs0)) with
              | None => None
              | Some (r1, regs1) => Some (r0, r1, OObj area regs1 rcap)
              end
          end
      end
  end.
