(* Property theorems about the OpenCV-style extraction (img_opencv_mser.cpp). *)
From stdpp Require Import sorting relations functions list_numbers list.
From Coq Require Import NArith ZArith SpecFloat.
From Verif Require Import FloodModel FloatModel RectModel RecogModel RecogExamples LinkedCorrect Oc2Model Oc2Spec Oc2Examples Oc2Results Oc2Same.
Local Open Scope nat_scope.

(* C94 does not hold: m_step_gap is never assigned (img_opencv_mser.h:85), and not for all
   of its values the points of a record are different pixels of the image. *)
Theorem C94_points_are_different_pixels_for_any_step_gap_refuted :
  ~ forall src step w h P gap n dark bright b r0 r1, limg_fits src step w h -> wbuf_ok w h b -> (0 <= gap < 32)%Z ->
  w_call n src step w h P gap dark bright b = Some (r0, r1) ->
  forall rc, rc ∈ r0 ++ r1 -> NoDup (wm_pts rc) /\ Forall (in_image w h) (wm_pts rc).
Proof. exact gap_refuted. Qed.
Print Assumptions C94_points_are_different_pixels_for_any_step_gap_refuted.

(* the same call with the shift 3, which fits the width 8, and with 4 *)
Example C94_example : limg_fits wx_img 5 5 3 /\ wbuf_ok 5 3 (walloc 5 3 7 3) /\ wide 5 = 2 ^ 3 /\
  w_show (w_call 300 wx_img 5 5 3 wxP 3 true true (walloc 5 3 7 3)) = Some
    ([], [(7%nat, [(0, 0); (1, 0); (2, 0); (3, 0); (4, 0); (0, 1); (1, 1)], Rect 0 0 5 2, 251%nat)])%Z /\
  w_show (w_call 300 wx_img 5 5 3 wxP 4 true true (walloc 5 3 7 3)) = Some
    ([], [(7%nat, [(0, 0); (1, 0); (2, 0); (3, 0); (4, 0); (0, 0); (1, 0)], Rect 0 0 5 1, 251%nat)])%Z.
Proof. exact (conj (proj1 wx_fits) (conj (proj1 wx_bufs) (conj eq_refl (conj wx_call wx_call_gap)))). Qed.

(* C95 does not hold, even if m_step_gap fits the width: the pixels of a record need not be
   connected. *)
Theorem C95_records_are_connected_refuted :
  ~ forall src step w h P n dark bright b r0 r1, limg_fits src step w h -> wbuf_ok w h b ->
  w_call n src step w h P (Z.of_nat (stepgap w)) dark bright b = Some (r0, r1) ->
  forall rc, rc ∈ r0 ++ r1 -> one_piece (wm_pts rc).
Proof. exact piece_refuted. Qed.
Print Assumptions C95_records_are_connected_refuted.

(* the record has pixels 0 to 6 and 8 of a row, of which pixel 7 is brighter than all *)
Example C95_example : limg_fits wx_two 19 19 1 /\ wbuf_ok 19 1 (walloc 19 1 7 3) /\ stepgap 19 = 5 /\
  w_show (w_call 300 wx_two 19 19 1 wxP 5 true true (walloc 19 1 7 3)) = Some
    ([], [(8%nat, [(0, 0); (1, 0); (2, 0); (3, 0); (4, 0); (5, 0); (6, 0); (8, 0)], Rect 0 0 9 1, 250%nat)])%Z.
Proof. exact (conj (proj2 (proj2 wx_fits)) (conj (proj2 (proj2 wx_bufs)) (conj (proj2 wx_gap) wx_call_two))). Qed.

(* C96 does not hold: the first list, in which the other implementations return regions
   darker than the pixels around them, has others. *)
Theorem C96_first_list_has_dark_regions_refuted :
  ~ forall src step w h P n dark bright b r0 r1, limg_fits src step w h -> wbuf_ok w h b ->
  w_call n src step w h P (Z.of_nat (stepgap w)) dark bright b = Some (r0, r1) ->
  forall rc p q, rc ∈ r0 -> p ∈ wm_pts rc -> q ∉ wm_pts rc -> in_image w h q -> touching p q -> (value_at src step p < value_at src step q)%N.
Proof. exact dark_refuted. Qed.
Print Assumptions C96_first_list_has_dark_regions_refuted.

(* a bright region in the first list *)
Example C96_example : limg_fits wx_neg 5 5 3 /\ wbuf_ok 5 3 (walloc 5 3 7 3) /\ stepgap 5 = 3 /\
  w_show (w_call 300 wx_neg 5 5 3 wxP 3 true true (walloc 5 3 7 3)) = Some
    ([(7%nat, [(0, 0); (1, 0); (2, 0); (3, 0); (4, 0); (0, 1); (1, 1)], Rect 0 0 5 2, 4%nat)], [])%Z.
Proof. exact (conj (proj1 (proj2 wx_fits)) (conj (proj1 wx_bufs) (conj (proj1 wx_gap) wx_call_neg))). Qed.

(* C97 does not hold: the level of a record need not be the value of any of its pixels. *)
Theorem C97_levels_are_values_of_pixels_refuted :
  ~ forall src step w h P n dark bright b r0 r1, limg_fits src step w h -> wbuf_ok w h b ->
  w_call n src step w h P (Z.of_nat (stepgap w)) dark bright b = Some (r0, r1) ->
  forall rc, rc ∈ r0 ++ r1 -> exists p, p ∈ wm_pts rc /\ value_at src step p = N.of_nat (wm_level rc).
Proof. exact level_refuted. Qed.
Print Assumptions C97_levels_are_values_of_pixels_refuted.

(* the pixels have the values 0 to 3, the level is 251 *)
Example C97_example : limg_fits wx_img 5 5 3 /\ wbuf_ok 5 3 (walloc 5 3 7 3) /\ stepgap 5 = 3 /\
  w_show (w_call 300 wx_img 5 5 3 wxP 3 true true (walloc 5 3 7 3)) = Some
    ([], [(7%nat, [(0, 0); (1, 0); (2, 0); (3, 0); (4, 0); (0, 1); (1, 1)], Rect 0 0 5 2, 251%nat)])%Z.
Proof. exact (conj (proj1 wx_fits) (conj (proj1 wx_bufs) (conj (proj1 wx_gap) wx_call))). Qed.

(* C98: with any value of m_step_gap by which shifts of int are defined, every call returns:
   no access outside a buffer, no empty stack taken from, no chain of histories or points
   without end. *)
Theorem C98_every_call_returns : forall src step w h P gap n dark bright b,
  limg_fits src step w h -> wbuf_ok w h b -> (0 <= gap < 32)%Z -> 6 * (w * h) < n ->
  exists r, w_call n src step w h P gap dark bright b = Some r.
Proof. intros src step w h P gap n dark bright b HF. exact (w_call_returns src step w h P HF n gap dark bright b). Qed.
Print Assumptions C98_every_call_returns.

(* a call with two passes and its records *)
Example C98_example : limg_fits wx_img 5 5 3 /\ wbuf_ok 5 3 (walloc 5 3 7 3) /\ 6 * (5 * 3) < 300 /\
  w_show (w_call 300 wx_img 5 5 3 wxP 4 true true (walloc 5 3 7 3)) = Some
    ([], [(7%nat, [(0, 0); (1, 0); (2, 0); (3, 0); (4, 0); (0, 0); (1, 0)], Rect 0 0 5 1, 251%nat)])%Z.
Proof. split; [exact (proj1 wx_fits)|]. split; [exact (proj1 wx_bufs)|]. split; [lia|]. exact wx_call_gap. Qed.

(* C99: with the m_step_gap that fits the width, the points of a record are different pixels
   of the image, within the limits on the size, in the smallest rectangle with them, and any
   two are joined by a path over values from 255 - level on (first list) or up to 255 - level
   (second list). *)
Theorem C99_records_are_parts_of_components : forall src step w h P n dark bright b r0 r1,
  limg_fits src step w h -> (Z.of_nat (wide w * (h + 2)) < 2 ^ 31)%Z -> wbuf_ok w h b -> 6 * (w * h) < n ->
  w_call n src step w h P (Z.of_nat (stepgap w)) dark bright b = Some (r0, r1) ->
  (forall rc, rc ∈ r0 -> wm_level rc <= 255 /\ wrec_ok src step w h P (fun v => (255 - N.of_nat (wm_level rc) <= v)%N) rc) /\
  (forall rc, rc ∈ r1 -> wm_level rc <= 255 /\ wrec_ok src step w h P (fun v => (v <= 255 - N.of_nat (wm_level rc))%N) rc).
Proof. intros src step w h P n dark bright b r0 r1 HF Hsz. exact (w_call_records src step w h P HF Hsz n dark bright b r0 r1). Qed.
Print Assumptions C99_records_are_parts_of_components.

(* one record in the first list and one in the second *)
Example C99_example : limg_fits wx_neg 5 5 3 /\ limg_fits wx_img 5 5 3 /\ (Z.of_nat (wide 5 * (3 + 2)) < 2 ^ 31)%Z /\
  wbuf_ok 5 3 (walloc 5 3 7 3) /\ 6 * (5 * 3) < 300 /\ stepgap 5 = 3 /\
  w_show (w_call 300 wx_neg 5 5 3 wxP 3 true true (walloc 5 3 7 3)) = Some
    ([(7%nat, [(0, 0); (1, 0); (2, 0); (3, 0); (4, 0); (0, 1); (1, 1)], Rect 0 0 5 2, 4%nat)], [])%Z /\
  w_show (w_call 300 wx_img 5 5 3 wxP 3 true true (walloc 5 3 7 3)) = Some
    ([], [(7%nat, [(0, 0); (1, 0); (2, 0); (3, 0); (4, 0); (0, 1); (1, 1)], Rect 0 0 5 2, 251%nat)])%Z.
Proof.
  split; [exact (proj1 (proj2 wx_fits))|]. split; [exact (proj1 wx_fits)|]. split; [vm_compute; reflexivity|]. split; [exact (proj1 wx_bufs)|].
  split; [lia|]. split; [exact (proj1 wx_gap)|]. split; [exact wx_call_neg|exact wx_call].
Qed.

(* C100: with the m_step_gap that fits the width, of two records in one list the later one
   has all pixels of the earlier one, and so many others that the quotient passes the test of
   m_duplicated_variation, or none of them. *)
Theorem C100_records_are_nested_or_apart : forall src step w h P n dark bright b r0 r1,
  limg_fits src step w h -> (Z.of_nat (wide w * (h + 2)) < 2 ^ 31)%Z -> wbuf_ok w h b -> 6 * (w * h) < n ->
  w_call n src step w h P (Z.of_nat (stepgap w)) dark bright b = Some (r0, r1) -> all_apart P r0 /\ all_apart P r1.
Proof. intros src step w h P n dark bright b r0 r1 HF Hsz. exact (w_call_apart src step w h P HF Hsz n dark bright b r0 r1). Qed.
Print Assumptions C100_records_are_nested_or_apart.

(* two records of which the later one contains the earlier one, and two without a common pixel *)
Example C100_example : limg_fits wx_nest 36 36 1 /\ limg_fits wx_side 47 47 1 /\
  (Z.of_nat (wide 36 * (1 + 2)) < 2 ^ 31)%Z /\ (Z.of_nat (wide 47 * (1 + 2)) < 2 ^ 31)%Z /\
  wbuf_ok 36 1 (walloc 36 1 7 3) /\ wbuf_ok 47 1 (walloc 47 1 7 3) /\ 6 * (47 * 1) < 300 /\ stepgap 36 = 6 /\ stepgap 47 = 6 /\
  w_show (w_call 300 wx_nest 36 36 1 wxP 6 true true (walloc 36 1 7 3)) = Some
  ([], [(7%nat, [(0, 0); (1, 0); (2, 0); (3, 0); (4, 0); (5, 0); (6, 0)], Rect 0 0 7 1, 251%nat);
        (16%nat, [(0, 0); (1, 0); (2, 0); (3, 0); (4, 0); (5, 0); (6, 0); (7, 0); (8, 0); (9, 0); (10, 0); (11, 0); (12, 0); (13, 0); (14, 0); (15, 0)], Rect 0 0 16 1, 248%nat)])%Z /\
  w_show (w_call 300 wx_side 47 47 1 wxP 6 true true (walloc 47 1 7 3)) = Some
  ([], [(7%nat, [(0, 0); (1, 0); (2, 0); (3, 0); (4, 0); (5, 0); (6, 0)], Rect 0 0 7 1, 251%nat);
        (14%nat, [(15, 0); (16, 0); (17, 0); (18, 0); (19, 0); (20, 0); (21, 0); (22, 0); (23, 0); (24, 0); (25, 0); (26, 0); (27, 0); (28, 0)], Rect 15 0 14 1, 246%nat)])%Z.
Proof.
  split; [exact (proj1 wx_fits2)|]. split; [exact (proj2 wx_fits2)|]. split; [vm_compute; reflexivity|]. split; [vm_compute; reflexivity|].
  split; [exact (proj1 wx_bufs2)|]. split; [exact (proj2 wx_bufs2)|]. split; [lia|]. split; [vm_compute; reflexivity|]. split; [vm_compute; reflexivity|].
  split; [exact wx_call_nest|exact wx_call_side].
Qed.

(* C101 does not hold: a record may have grown by more than m_stable_variation.  The variation
   compared is the one of the last test of its component, and merging components adds a
   history without a test. *)
Theorem C101_records_grow_little_refuted :
  ~ forall src step w h P n dark bright b r0 r1, limg_fits src step w h -> wbuf_ok w h b ->
  w_call n src step w h P (Z.of_nat (stepgap w)) dark bright b = Some (r0, r1) ->
  forall rc, rc ∈ r1 -> grows_little src step P rc.
Proof. exact growth_refuted. Qed.
Print Assumptions C101_records_grow_little_refuted.

(* 23 pixels, of which 12 have the greatest value; m_stable_variation is 0.5 *)
Example C101_example : limg_fits wx_grow 33 33 1 /\ wbuf_ok 33 1 (walloc 33 1 7 3) /\ stepgap 33 = 6 /\
  w_show (w_call 300 wx_grow 33 33 1 wxS 6 true true (walloc 33 1 7 3)) = Some ([], [(23%nat, wx_grown, Rect 1 0 23 1, 242%nat)])%Z /\
  map (fun q => value_at wx_grow 33 q) wx_grown = [8;8;8;8;8;8;8;8;9;10;11;12;12;12;12;12;12;12;12;12;12;12;12]%N /\
  fgt (f64_of_f32 f32_half) (f64_growth 23 11) = false.
Proof. exact (conj (proj1 wx_fits3) (conj (proj1 (proj2 wx_fits3)) (conj (proj2 (proj2 wx_fits3)) (conj wx_call_grow (conj wx_below wx_growth))))). Qed.

(* C102: with m_step_gap from 0 to 31 a call does not depend on what is in the buffers. *)
Theorem C102_old_buffer_contents_do_not_matter : forall src step w h P n gap dark bright b b',
  limg_fits src step w h -> wbuf_ok w h b -> wbuf_ok w h b' -> (0 <= gap < 32)%Z -> 6 * (w * h) < n ->
  w_call n src step w h P gap dark bright b = w_call n src step w h P gap dark bright b'.
Proof. intros src step w h P n gap dark bright b b' HF. exact (w_call_same src step w h HF n P gap dark bright b b'). Qed.
Print Assumptions C102_old_buffer_contents_do_not_matter.

(* different buffers, and the record both calls return *)
Example C102_example : limg_fits wx_img 5 5 3 /\ wbuf_ok 5 3 (walloc 5 3 7 3) /\ wbuf_ok 5 3 (walloc 5 3 0 0) /\ 6 * (5 * 3) < 300 /\
  walloc 5 3 7 3 <> walloc 5 3 0 0 /\ w_show (w_call 300 wx_img 5 5 3 wxP 3 true true (walloc 5 3 7 3)) = Some
    ([], [(7%nat, [(0, 0); (1, 0); (2, 0); (3, 0); (4, 0); (0, 1); (1, 1)], Rect 0 0 5 2, 251%nat)])%Z.
Proof.
  split; [exact (proj1 wx_fits)|]. split; [exact (proj1 wx_bufs)|]. split; [exact (proj1 (proj2 wx_bufs))|]. split; [lia|].
  split; [vm_compute; discriminate|exact wx_call].
Qed.
