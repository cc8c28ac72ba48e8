(* Property theorems about the OpenCV3-style extraction (img_opencv3_mser.cpp). *)
From stdpp Require Import sorting relations functions list_numbers list.
From Coq Require Import NArith ZArith SpecFloat.
From Verif Require Import Spec TreeSpec JoinCorrect FloodModel FloodCorrect FloatModel RectModel RecogModel CvExtract ExtractTop
  OcvModel OcvTree OcvInit OcvCorrect OcvExamples.
Local Open Scope nat_scope.

(* C39 does not hold: "every pixel is in the largest component" fails. *)
Theorem C39_largest_component_covers_the_image_refuted :
  ~ forall src rows cols P n b t s b', oimage src rows cols -> obuf_ok rows cols b ->
    ocv_pass src rows cols 0 P n true b = Some (t, s, b') ->
    exists c l, head (t_comps s) = Some c /\ opixels (t_pix s) cols (o_head c) (o_size c) = Some l /\
      lists_set cols (fun p => p < rows * cols) l.
Proof. exact covers_refuted. Qed.
Print Assumptions C39_largest_component_covers_the_image_refuted.

(* C39, what holds instead: in every image the largest component of either pass is the
   image without its first and last row and column. *)
Theorem C39_largest_component_is_the_interior :
  forall src rows cols P n b, oimage src rows cols -> obuf_ok rows cols b -> 6 * ((rows - 2) * (cols - 2)) < n ->
  exists t s b' t1 s1 b1, ocv_pass src rows cols 0 P n true b = Some (t, s, b') /\ ocv_pass src rows cols 255 P n false b' = Some (t1, s1, b1) /\
  forall s2, s2 = s \/ s2 = s1 -> exists c l, head (t_comps s2) = Some c /\ opixels (t_pix s2) cols (o_head c) (o_size c) = Some l /\
    lists_set cols (fun p => p < rows * cols /\ ~ on_border rows cols p) l.
Proof. exact top_is_interior. Qed.
Print Assumptions C39_largest_component_is_the_interior.

(* an image with dark pixels on its border: the component has the nine inner pixels, and
   the result is that of the image with a bright border *)
Example C39_example : (oimage ox_img 5 5 /\ oimage ox_edge 5 5) /\
  otop (ocv_pass ox_edge 5 5 0 oxP 1000 true (oalloc 5 5 1 None 0)) = Some [(1, 1); (1, 2); (1, 3); (3, 2); (3, 1); (3, 3); (2, 3); (2, 2); (2, 1)]%Z /\
  ocv_call 1000 ox_edge 5 5 oxP true false (oalloc 5 5 1 None 0) = ocv_call 1000 ox_img 5 5 oxP true false (oalloc 5 5 7 (Some 3) 77).
Proof. exact (conj ox_fits (conj ox_edge_top ox_edge_call)). Qed.

(* C56: a call for dark regions, or for dark and bright ones, has defined behaviour; its
   records are different extremal regions of the image without its border, each listed
   without repetition, with its bounding box and a size within the limits; and the result
   is the same whatever the buffers held. *)
Theorem C56_records_are_extremal_regions_of_the_interior :
  forall src rows cols, oimage src rows cols -> forall P (bright : bool),
  exists R0 R1, o_good src 0 rows cols P R0 /\ (if bright then o_good src 255 rows cols P R1 else R1 = []) /\
  forall n b, 6 * ((rows - 2) * (cols - 2)) < n -> obuf_ok rows cols b -> ocv_call n src rows cols P true bright b = Some (R0, R1).
Proof. exact (fun src rows cols HI P bright => ocv_call_ok src rows cols HI P bright). Qed.
Print Assumptions C56_records_are_extremal_regions_of_the_interior.

(* C56, continued: no record has a pixel of the border. *)
Theorem C56_no_record_has_a_border_pixel :
  forall src gm rows cols P ms p, oimage src rows cols -> o_good src gm rows cols P ms -> on_border rows cols p ->
  forall i m, ms !! i = Some m -> pixel cols p ∉ om_pts m.
Proof. exact border_in_no_record. Qed.
Print Assumptions C56_no_record_has_a_border_pixel.

Example C56_example : (oimage ox_img 5 5 /\ oimage ox_edge 5 5) /\ (obuf_ok 5 5 (oalloc 5 5 7 (Some 3) 77) /\ obuf_ok 5 5 (oalloc 5 5 1 None 0)) /\
  oshow (ocv_call 1000 ox_img 5 5 oxP true true (oalloc 5 5 7 (Some 3) 77)) = Some
  ([([(3, 2); (3, 1)], Rect 3 1 1 2); ([(1, 1)], Rect 1 1 1 1); ([(3, 2); (3, 1); (3, 3)], Rect 3 1 1 3); ([(1, 1); (1, 2); (1, 3)], Rect 1 1 1 3);
    ([(1, 1); (1, 2); (1, 3); (3, 2); (3, 1); (3, 3); (2, 3)], Rect 1 1 3 3);
    ([(1, 1); (1, 2); (1, 3); (3, 2); (3, 1); (3, 3); (2, 3); (2, 2); (2, 1)], Rect 1 1 3 3)],
   [([(2, 1); (2, 2)], Rect 2 1 1 2); ([(2, 1); (2, 2); (2, 3)], Rect 2 1 1 3); ([(2, 1); (2, 2); (2, 3); (3, 3)], Rect 2 1 2 3);
    ([(2, 1); (2, 2); (2, 3); (3, 3); (1, 3); (1, 2)], Rect 1 1 3 3);
    ([(2, 1); (2, 2); (2, 3); (3, 3); (1, 3); (1, 2); (3, 2); (3, 1)], Rect 1 1 3 3);
    ([(2, 1); (2, 2); (2, 3); (3, 3); (1, 3); (1, 2); (3, 2); (3, 1); (1, 1)], Rect 1 1 3 3)])%Z.
Proof. exact (conj ox_fits (conj ox_bufs ox_call)). Qed.

(* C57 does not hold: with one or two rows every extraction of dark regions accesses a
   pixel outside the buffer, whatever the image and the buffers. *)
Theorem C57_every_image_is_processed_refuted :
  forall src rows cols P n b bright, rows <= 2 -> 1 <= cols -> 3 <= n -> length (ob_pix b) = rows * cols ->
  ocv_call n src rows cols P true bright b = None.
Proof. exact two_rows_call. Qed.
Print Assumptions C57_every_image_is_processed_refuted.

(* a 2 x 4 image; and in a 3 x 2 image the largest component is one border pixel *)
Example C57_example : ocv_call 100 [5;6;7;8;9;10;11;12]%N 2 4 oxP true true (oalloc 2 4 0 None 0) = None /\
  (r ← ocv_pass [5;6;7;8;9;10]%N 3 2 0 oxP 100 true (oalloc 3 2 0 None 0); let '(_, s, _) := r in
   c ← head (t_comps s); opixels (t_pix s) 2 (o_head c) (o_size c)) = Some [(1, 1)]%Z.
Proof. split; [vm_compute; reflexivity|exact two_columns]. Qed.

(* C58 does not hold: a call for bright regions alone does not return what C56 asserts of
   the bright regions of a call for both kinds. *)
Theorem C58_bright_regions_alone_refuted :
  ~ forall src rows cols P n b, oimage src rows cols -> obuf_ok rows cols b -> 6 * ((rows - 2) * (cols - 2)) < n ->
    exists R1, ocv_call n src rows cols P false true b = Some ([], R1) /\ o_good src 255 rows cols P R1.
Proof. exact bright_only_refuted. Qed.
Print Assumptions C58_bright_regions_alone_refuted.

(* the record lists the point (0,0) three times *)
Example C58_example : match ocv_call 1000 ox_img 5 5 oxP false true (oalloc 5 5 0 None 0) with
  | Some (_, ms) => match ms !! 3 with Some m => om_pts m = [(2, 1); (2, 2); (2, 3); (0, 0); (0, 0); (0, 0)]%Z | None => False end
  | None => False
  end.
Proof. exact ox_bright. Qed.
