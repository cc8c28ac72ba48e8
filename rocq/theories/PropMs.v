(* Properties of MS-MSER (basicimg/src/img_ms_mser.cpp) with four neighbours, a null mask
   and a threshold m_recursive_point_threshold other than -1 and INT_MAX. [gm] is 0 for
   the dark and 255 for the bright channel. *)
From stdpp Require Import sorting relations functions list_numbers list.
From Coq Require Import NArith ZArith SpecFloat.
From Verif Require Import Spec TreeSpec JoinCorrect JoinExamples FloodModel FloodInit FloodCorrect FloodExamples WholeCorrect FloatModel RecogModel RecogSpec RecogTree RecogFinal RecogResults
  RecogPixels RecogExamples Detect ExtractModel RunModel RunCorrect RunResults RunExamples RectModel LinkedModel LinkedGrid LinkedCorrect LinkedExamples
  CvModel CvExtract CvCorrect CvResults CvExamples MsModel MsResults MsExamples.
Local Open Scope nat_scope.

(* C82: both passes of a call build the component tree of their channel, and the word of
   each pixel names the region that owns it, whatever the buffers held before and
   whatever extraction did to m_heap in between. *)
Theorem C82_passes_build_the_component_trees :
  forall src w h n b, ms_image src w h -> 6 * (w * h) < n -> buf_alloc w h b ->
  exists regs b' lab, ms_build n w h 0 true src b = FTree regs b' /\ flood_ok src 0 w 0 0 w h 0 regs b' lab /\
    forall q, length q = length (b_heap b') -> exists regs2 b2 lab2,
      ms_build n w h 255 false src (FBuf (b_pts b') (b_ext b') (b_lvl b') q (b_hs b')) = FTree regs2 b2 /\ flood_ok src 255 w 0 0 w h 0 regs2 b2 lab2.
Proof. exact ms_trees. Qed.
Print Assumptions C82_passes_build_the_component_trees.

(* C82: a call returns, for every content of the buffers, of the uninitialised variations
   and of m_heap. *)
Theorem C82_calls_return :
  forall src w h P n thr b c0 c1, ms_image src w h -> delta_ok P -> dup_number P -> 6 * (w * h) < n -> buf_alloc w h b -> ms_fair c0 ->
  exists R0 R1, ms_call n w h true src P thr b c0 c1 = Some (R0, R1) /\ ms_result src 0 w h P R0 /\ ms_result src 255 w h P R1 /\
    ms_call n w h false src P thr b c0 c1 = Some (R0, MRes 0 (fun _ => None) []).
Proof. exact ms_total. Qed.
Print Assumptions C82_calls_return.

(* C82: two calls for the same image and parameters return as many records, and the
   records at the same place agree in level, size, rectangle and set of pixels, whatever
   the memory held and whatever m_recursive_point_threshold is. *)
Theorem C82_results_do_not_depend_on_the_buffers :
  forall src gm w h, ms_image src w h -> gm = 0%N \/ gm = 255%N -> forall P, delta_ok P -> dup_number P ->
  forall R R', ms_result src gm w h P R -> ms_result src gm w h P R' -> length (r_ms R) = length (r_ms R') /\
  forall j rc, r_ms R !! j = Some rc -> exists rc' S, r_ms R' !! j = Some rc' /\ ms_lists w R j S /\ ms_lists w R' j S /\
    ms_gray rc = ms_gray rc' /\ ms_size rc = ms_size rc' /\ ms_rect rc = ms_rect rc'.
Proof. exact ms_unique. Qed.
Print Assumptions C82_results_do_not_depend_on_the_buffers.

Example C82_example : (ms_image ex_img 4 3 /\ delta_ok exP /\ dup_number exP /\ sane exP /\ below1 (p_dup exP)) /\
  (ms_fair mx_chan /\ ms_fair mx_dirty) /\ buf_alloc 4 3 (ms_alloc 4 3 99) /\
  chk_len (ms_call 100 4 3 true ex_img exP 0 (ms_alloc 4 3 99) mx_chan mx_dirty) 4 5.
Proof. exact (conj mx_hyps (conj mx_fair (conj (ms_alloc_ok 4 3 99) mx_len))). Qed.

(* C83: every record can be read and lists the pixels of an extremal region of its
   channel, each once; its size is their number, its rectangle is their bounding box;
   different records list different regions. *)
Theorem C83_records_are_extremal_regions :
  forall src gm w h, ms_image src w h -> gm = 0%N \/ gm = 255%N -> forall P, delta_ok P -> dup_number P ->
  forall R, ms_result src gm w h P R ->
  (forall j rc, r_ms R !! j = Some rc -> exists g S L js, extremal (lview false w w h (level src gm)) g S /\ ms_lists w R j S /\
     ms_gray rc = N.lxor (N.of_nat g) gm /\ ms_visit (length (r_ms R)) R [j] = Some (L, js) /\ bounding L (ms_rect rc)) /\
  forall i j S, ms_lists w R i S -> ms_lists w R j S -> i = j.
Proof.
  exact (fun src gm w h HM Hgm P Hd Hdup R HR =>
    conj (ms_extremal src gm w h HM Hgm P Hd Hdup R HR) (ms_differ src gm w h HM Hgm P Hd Hdup R HR)).
Qed.
Print Assumptions C83_records_are_extremal_regions.

(* C83: the level of a dark record is the greatest value of its pixels, of a bright one
   the least. *)
Theorem C83_levels_are_image_values :
  forall src gm w h, ms_image src w h -> gm = 0%N \/ gm = 255%N -> forall P, delta_ok P -> dup_number P ->
  forall R, ms_result src gm w h P R -> forall j rc S, r_ms R !! j = Some rc -> ms_lists w R j S ->
  if (gm =? 0)%N then max_on src S (ms_gray rc) else min_on src S (ms_gray rc).
Proof. exact ms_level. Qed.
Print Assumptions C83_levels_are_image_values.

Example C83_example : (ms_image ex_img 4 3 /\ delta_ok exP /\ dup_number exP /\ sane exP /\ below1 (p_dup exP)) /\
  (forall gm, gm = 0%N \/ gm = 255%N -> exists R, ms_result ex_img gm 4 3 exP R /\ length (r_ms R) = if (gm =? 0)%N then 4 else 5) /\
  ms_show (ms_call 100 4 3 true ex_img exP 0 (ms_alloc 4 3 99) mx_chan mx_dirty) = Some
  ([(0%N, true, Some [(1, 2)], Rect 1 2 1 1); (1%N, true, Some [(2, 0)], Rect 2 0 1 1); (1%N, true, Some [(3, 1)], Rect 3 1 1 1);
    (7%N, false, Some [(1, 0); (3, 0); (0, 1); (1, 1); (2, 2); (3, 2); (3, 1); (2, 0); (1, 2)], Rect 0 0 4 3)],
   [(9%N, true, Some [(0, 0)], Rect 0 0 1 1); (9%N, true, Some [(2, 1)], Rect 2 1 1 1); (7%N, false, Some [(0, 1); (0, 2); (0, 0)], Rect 0 0 1 3);
    (3%N, true, Some [(3, 0)], Rect 3 0 1 1);
    (1%N, false, Some [(1, 0); (2, 0); (1, 1); (3, 1); (2, 2); (3, 2); (3, 0); (0, 1); (0, 2); (0, 0); (2, 1)], Rect 0 0 4 3)])%Z.
Proof. exact (conj mx_hyps (conj mx_res mx_call)). Qed.

(* C84: without removal of duplicates the records list exactly the maximally stable
   extremal regions of the channel. *)
Theorem C84_records_are_the_stable_regions :
  forall src gm w h, ms_image src w h -> gm = 0%N \/ gm = 255%N -> forall P, delta_ok P -> dup_number P ->
  forall R, ms_result src gm w h P R -> forall d, (p_delta P = Z.of_nat d)%Z -> sane P -> fge fzero (p_dup P) = true ->
  (forall j rc, r_ms R !! j = Some rc -> exists g S, mser (lview false w w h (level src gm)) P d g S /\ ms_lists w R j S /\ ms_gray rc = N.lxor (N.of_nat g) gm) /\
  forall g S, mser (lview false w w h (level src gm)) P d g S -> exists j, ms_lists w R j S.
Proof. exact ms_msers. Qed.
Print Assumptions C84_records_are_the_stable_regions.

(* C84: records are within the size limits and not the whole image; nested ones differ by
   more than the threshold for duplicates. *)
Theorem C84_records_respect_the_parameters :
  forall src gm w h, ms_image src w h -> gm = 0%N \/ gm = 255%N -> forall P, delta_ok P -> dup_number P ->
  forall R, ms_result src gm w h P R ->
  (forall j rc S, r_ms R !! j = Some rc -> ms_lists w R j S ->
     (p_min P <= Z.of_nat (ms_size rc) <= p_max P)%Z /\ exists p, vw_in (lview false w w h (level src gm)) p /\ ~ S p) /\
  forall i j S S', below1 (p_dup P) -> ms_lists w R i S -> ms_lists w R j S' -> i <> j ->
    (forall p, S p -> S' p) -> exceeds (p_dup P) S S'.
Proof.
  exact (fun src gm w h HM Hgm P Hd Hdup R HR =>
    conj (ms_limits src gm w h HM Hgm P Hd Hdup R HR) (ms_apart src gm w h HM Hgm P Hd Hdup R HR)).
Qed.
Print Assumptions C84_records_respect_the_parameters.

Example C84_example : (ms_image ex_img 4 3 /\ delta_ok exP /\ dup_number exP /\ sane exP /\ below1 (p_dup exP)) /\
  let P := RParam 1 (f32_of_int 3) f32_tenth fzero 1 11 in (p_delta P = Z.of_nat 1)%Z /\ fge fzero (p_dup P) = true /\ delta_ok P /\ dup_number P /\ sane P.
Proof. exact (conj mx_hyps mx_zero). Qed.

(* C85: MS-MSER, CV-MSER+ with four neighbours and Fast MSER V2 return as many records,
   and their records list the same regions. *)
Theorem C85_same_regions_as_cv_mser :
  forall src gm w h P Rc R, ms_image src w h -> gm = 0%N \/ gm = 255%N -> delta_ok P ->
  cv_result false src gm w w h P Rc -> ms_result src gm w h P R -> sane P -> below1 (p_dup P) ->
  length (cv_ms Rc) = length (r_ms R) /\ forall S, (exists j, cv_lists w Rc j S) <-> exists j, ms_lists w R j S.
Proof. exact ms_same_as_cv. Qed.
Print Assumptions C85_same_regions_as_cv_mser.

Theorem C85_same_regions_as_fast_mser :
  forall src gm w h fuel P c b Rv R, image_fits 2 2 src w h -> ms_image src w h -> gm = 0%N \/ gm = 255%N -> delta_ok P ->
  channel_result src gm w h fuel P c b Rv -> ms_result src gm w h P R -> sane P -> below1 (p_dup P) ->
  length (r_ms Rv) = length (r_ms R) /\ forall S, (exists j, lists_record w Rv j S) <-> exists j, ms_lists w R j S.
Proof. exact ms_same_as_v2. Qed.
Print Assumptions C85_same_regions_as_fast_mser.

Example C85_example : (ms_image ex_img 4 3 /\ delta_ok exP /\ dup_number exP /\ sane exP /\ below1 (p_dup exP)) /\ image_fits 2 2 ex_img 4 3 /\
  chk_len (ms_call 100 4 3 true ex_img exP 0 (ms_alloc 4 3 99) mx_chan mx_dirty) 4 5 /\
  (exists R0 R1, call 4 2 2 ex_img 4 3 exP 0 = Some (R0, R1) /\ length (r_ms R0) = 4 /\ length (r_ms R1) = 5) /\
  exists R0 R1, cv_call 100 (lcfgn false 4 3) true true ex_img 4 exP (lalloc_buf 4 3 99) cx_chan cx_dirty = Some (R0, R1) /\
    length (cv_ms R0) = 4 /\ length (cv_ms R1) = 5.
Proof. exact (conj mx_hyps (conj ex4_fits (conj mx_len cx_both))). Qed.

(* C86 does not hold: an image whose rows are [step] bytes apart is read as if they were
   adjacent, and a record can have a level that no pixel of the image has. *)
Theorem C86_row_step_refuted :
  ~ forall src step w h P n thr b c0 c1 R0 R1, limg_fits src step w h -> modest_image w h -> delta_ok P -> dup_number P ->
  6 * (w * h) < n -> buf_alloc w h b -> ms_fair c0 -> ms_call n w h true src P thr b c0 c1 = Some (R0, R1) ->
  forall j rc, r_ms R1 !! j = Some rc -> exists p, in_rect step 0 0 w h p /\ src !! p = Some (ms_gray rc).
Proof. exact step_refuted. Qed.
Print Assumptions C86_row_step_refuted.

Example C86_example : limg_fits lx_img 4 3 3 /\ chk_rec (ms_call 100 3 3 true lx_img cxP 0 (ms_alloc 3 3 99) mx_chan mx_chan) 200%N.
Proof. exact (conj lx_fits mx_step). Qed.

(* C87 does not hold: in a call for bright regions alone the levels are counted without
   inverting them; the tree of four pixels then has a region of seven. *)
Theorem C87_bright_regions_alone_refuted :
  exists w h img b regs b' r, ms_image img w h /\ buf_alloc w h b /\ ms_build 100 w h 255 true img b = FTree regs b' /\
  r ∈ regs /\ w * h < m_size r.
Proof. exact alone_refuted. Qed.
Print Assumptions C87_bright_regions_alone_refuted.

(* C88 does not hold: an image with all 256 grey values can make the tree building leave
   the array of components. *)
Theorem C88_all_grey_values_refuted :
  exists w h img b, limg_fits img w w h /\ modest_image w h /\ buf_alloc w h b /\
  forall n, 2000 <= n -> ms_build n w h 0 true img b = FUB.
Proof. exact all_levels. Qed.
Print Assumptions C88_all_grey_values_refuted.
