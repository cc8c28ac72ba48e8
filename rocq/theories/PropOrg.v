(* Properties of the original implementation (basicimg/src/img_origin_mser.cpp) for images
   whose rows are [step] bytes apart, with four ([e] false) or eight neighbours. [gm] is 0
   for the dark and 255 for the bright channel. *)
From stdpp Require Import sorting relations functions list_numbers list.
From Coq Require Import NArith ZArith SpecFloat.
From Verif Require Import Spec TreeSpec JoinCorrect JoinExamples FloodModel FloodInit FloodCorrect FloodExamples WholeCorrect FloatModel RecogModel RecogSpec RecogTree RecogFinal RecogResults
  RecogPixels RecogExamples Detect ExtractModel ExtractTop RunModel RunCorrect RunResults RunExamples RectModel LinkedModel LinkedGrid LinkedCorrect LinkedExamples
  CvModel CvExtract CvCorrect CvResults CvExamples OrgModel OrgTree OrgPad OrgExtract OrgResults OrgExamples.
Local Open Scope nat_scope.

(* C89: both passes over the points sorted by grey level build the component tree of their
   channel, and every linked point names the region that owns its pixel. *)
Theorem C89_passes_build_the_component_trees :
  forall e src step w h, limg_fits src step w h -> forall n rcap, w * h + 1 < n -> w * h <= rcap ->
  exists img pts st st', o_pad src step w h = Some img /\ o_order img w h = Some pts /\
    o_pass n (w * h) rcap img (o_offs e w) pts [] = Some st /\
    ctree (lview e step w h (level src 0)) (fun j => olab (os_own st) (framed step w j)) (otable (os_regs st)) /\
    o_pass n (w * h) rcap (o_reverse img) (o_offs e w) (rev pts) [] = Some st' /\
    ctree (lview e step w h (level src 255)) (fun j => olab (os_own st') (framed step w j)) (otable (os_regs st')).
Proof. exact o_trees. Qed.
Print Assumptions C89_passes_build_the_component_trees.

(* C89: a call on a new object, or on one whose last call was for as many pixels, returns,
   and leaves such an object. *)
Theorem C89_calls_return :
  forall e src step w h, limg_fits src step w h -> cv_modest w h -> forall P, delta_ok P ->
  forall n dk br ob, w * h + 1 < n -> o_clean w h ob ->
  exists r0 r1 ob', o_extract n e dk br src step w h P ob = Some (r0, r1, ob') /\ o_clean w h ob' /\
    (if dk then o_result e src 0 step w h P r0 else r0 = []) /\ (if br then o_result e src 255 step w h P r1 else r1 = []).
Proof. exact o_total. Qed.
Print Assumptions C89_calls_return.

Example C89_example : (limg_fits ex_img 4 4 3 /\ cv_modest 4 3 /\ delta_ok exP /\ (p_max exP < Z.of_nat (4 * 3))%Z /\ sane exP /\ below1 (p_dup exP)) /\
  (limg_fits lx_img 4 3 3 /\ cv_modest 3 3 /\ delta_ok cxP /\ (p_max cxP < Z.of_nat (3 * 3))%Z /\ sane cxP /\ below1 (p_dup cxP)) /\
  o_clean 4 3 o_new /\ o_len (o_extract 14 false true true ex_img 4 4 3 exP o_new) 4 5 /\ o_len (o_extract 14 true true true ex_img 4 4 3 exP o_new) 3 4.
Proof. exact (conj ox_hyps (conj ox_step (conj (or_intror eq_refl) (conj ox_len ox_len8)))). Qed.

(* C90: every record lists the pixels of an extremal region of its channel, each once; its
   size is their number and within the limits, its rectangle is their bounding box;
   different records list different regions. *)
Theorem C90_records_are_extremal_regions :
  forall e src gm step w h, limg_fits src step w h -> gm = 0%N \/ gm = 255%N -> cv_modest w h -> forall P, delta_ok P ->
  forall l, o_result e src gm step w h P l ->
  (forall j rc, l !! j = Some rc -> exists g S, extremal (lview e step w h (level src gm)) g S /\ o_lists step l j S /\
     q_gray rc = N.lxor (N.of_nat g) gm /\ bounding (q_pts rc) (q_rect rc) /\ (p_min P <= Z.of_nat (q_size rc) <= p_max P)%Z) /\
  forall i j S, o_lists step l i S -> o_lists step l j S -> i = j.
Proof.
  exact (fun e src gm step w h HF Hgm Hmod P Hd l HR =>
    conj (o_extremal e src gm step w h HF Hgm Hmod P Hd l HR) (o_differ e src gm step w h HF Hgm Hmod P Hd l HR)).
Qed.
Print Assumptions C90_records_are_extremal_regions.

(* C90: the level of a dark record is the greatest value of its pixels, of a bright one
   the least. *)
Theorem C90_levels_are_image_values :
  forall e src gm step w h, limg_fits src step w h -> gm = 0%N \/ gm = 255%N -> cv_modest w h -> forall P, delta_ok P ->
  forall l, o_result e src gm step w h P l -> forall j rc S, l !! j = Some rc -> o_lists step l j S ->
  if (gm =? 0)%N then max_on src S (q_gray rc) else min_on src S (q_gray rc).
Proof. exact o_level. Qed.
Print Assumptions C90_levels_are_image_values.

Example C90_example : (limg_fits ex_img 4 4 3 /\ cv_modest 4 3 /\ delta_ok exP /\ (p_max exP < Z.of_nat (4 * 3))%Z /\ sane exP /\ below1 (p_dup exP)) /\
  (forall gm, gm = 0%N \/ gm = 255%N -> exists l, o_result false ex_img gm 4 4 3 exP l /\ length l = if (gm =? 0)%N then 4 else 5) /\
  o_show (o_extract 14 true true true ex_img 4 4 3 exP o_new) = Some
  ([(0%N, 1%nat, [(1, 2)], Rect 1 2 1 1); (1%N, 2%nat, [(2, 0); (3, 1)], Rect 2 0 2 2);
    (7%N, 9%nat, [(0, 1); (2, 2); (3, 2); (3, 0); (1, 0); (1, 1); (2, 0); (3, 1); (1, 2)], Rect 0 0 4 3)],
   [(9%N, 1%nat, [(2, 1)], Rect 2 1 1 1); (9%N, 1%nat, [(0, 0)], Rect 0 0 1 1); (7%N, 3%nat, [(0, 1); (0, 0); (0, 2)], Rect 0 0 1 3);
    (1%N, 11%nat, [(3, 1); (1, 1); (1, 0); (0, 1); (0, 0); (0, 2); (3, 0); (3, 2); (2, 1); (2, 2); (2, 0)], Rect 0 0 4 3)])%Z.
Proof. exact (conj ox_hyps (conj ox_res ox_call)). Qed.

(* C91: if regions as large as the image are not asked for and duplicates are not removed,
   the records list exactly the maximally stable extremal regions of the channel. *)
Theorem C91_records_are_the_stable_regions :
  forall e src gm step w h, limg_fits src step w h -> gm = 0%N \/ gm = 255%N -> cv_modest w h -> forall P, delta_ok P ->
  forall l, o_result e src gm step w h P l -> (p_max P < Z.of_nat (w * h))%Z -> below1 (p_dup P) ->
  forall d, (p_delta P = Z.of_nat d)%Z -> sane P -> fge fzero (p_dup P) = true ->
  (forall j rc, l !! j = Some rc -> exists g S, mser (lview e step w h (level src gm)) P d g S /\ o_lists step l j S /\ q_gray rc = N.lxor (N.of_nat g) gm) /\
  forall g S, mser (lview e step w h (level src gm)) P d g S -> exists j, o_lists step l j S.
Proof. exact o_msers. Qed.
Print Assumptions C91_records_are_the_stable_regions.

(* C91: nested records differ by more than the threshold for duplicates. *)
Theorem C91_nested_records_differ :
  forall e src gm step w h, limg_fits src step w h -> gm = 0%N \/ gm = 255%N -> cv_modest w h -> forall P, delta_ok P ->
  forall l, o_result e src gm step w h P l -> (p_max P < Z.of_nat (w * h))%Z -> below1 (p_dup P) ->
  forall i j S S', o_lists step l i S -> o_lists step l j S' -> i <> j -> (forall p, S p -> S' p) -> exceeds (p_dup P) S S'.
Proof. exact o_apart. Qed.
Print Assumptions C91_nested_records_differ.

(* C91: the original implementation, CV-MSER+ and Fast MSER V2 return as many records, and
   their records list the same regions. *)
Theorem C91_same_regions_as_cv_mser :
  forall e src gm step w h P Rc l, limg_fits src step w h -> gm = 0%N \/ gm = 255%N -> cv_modest w h -> delta_ok P ->
  cv_result e src gm step w h P Rc -> o_result e src gm step w h P l -> (p_max P < Z.of_nat (w * h))%Z -> sane P -> below1 (p_dup P) ->
  length (cv_ms Rc) = length l /\ forall S, (exists j, cv_lists step Rc j S) <-> exists j, o_lists step l j S.
Proof. exact o_same_as_cv. Qed.
Print Assumptions C91_same_regions_as_cv_mser.

Theorem C91_same_regions_as_fast_mser :
  forall src gm w h fuel P c b Rv l, image_fits 2 2 src w h -> modest_image w h -> gm = 0%N \/ gm = 255%N -> delta_ok P ->
  channel_result src gm w h fuel P c b Rv -> o_result false src gm w w h P l -> (p_max P < Z.of_nat (w * h))%Z -> sane P -> below1 (p_dup P) ->
  length (r_ms Rv) = length l /\ forall S, (exists j, lists_record w Rv j S) <-> exists j, o_lists w l j S.
Proof. exact o_same_as_v2. Qed.
Print Assumptions C91_same_regions_as_fast_mser.

Example C91_example : (limg_fits ex_img 4 4 3 /\ cv_modest 4 3 /\ delta_ok exP /\ (p_max exP < Z.of_nat (4 * 3))%Z /\ sane exP /\ below1 (p_dup exP)) /\
  (let P := RParam 1 (f32_of_int 3) f32_tenth fzero 1 11 in
   (p_delta P = Z.of_nat 1)%Z /\ fge fzero (p_dup P) = true /\ delta_ok P /\ sane P /\ below1 (p_dup P) /\ (p_max P < Z.of_nat (4 * 3))%Z) /\
  image_fits 2 2 ex_img 4 3 /\ o_len (o_extract 14 false true true ex_img 4 4 3 exP o_new) 4 5 /\
  (exists R0 R1, call 4 2 2 ex_img 4 3 exP 0 = Some (R0, R1) /\ length (r_ms R0) = 4 /\ length (r_ms R1) = 5) /\
  exists R0 R1, cv_call 100 (lcfgn false 4 3) true true ex_img 4 exP (lalloc_buf 4 3 99) cx_chan cx_dirty = Some (R0, R1) /\
    length (cv_ms R0) = 4 /\ length (cv_ms R1) = 5.
Proof. exact (conj ox_hyps (conj ox_zero (conj ex4_fits (conj ox_len cx_both)))). Qed.

(* C92 does not hold: after a call for an image with another number of pixels the regions of
   that image are still there, and a record can list pixels outside the second image. *)
Theorem C92_reuse_for_another_size_refuted :
  ~ forall src step w h src' step' w' h' P n r0 r1 ob s0 s1 ob', limg_fits src step w h -> limg_fits src' step' w' h' ->
  cv_modest w h -> cv_modest w' h' -> delta_ok P -> sane P -> below1 (p_dup P) -> w * h + 1 < n -> w' * h' + 1 < n ->
  o_extract n false true false src step w h P o_new = Some (r0, r1, ob) -> o_extract n false true false src' step' w' h' P ob = Some (s0, s1, ob') ->
  forall j rc q, s0 !! j = Some rc -> q ∈ q_pts rc -> (0 <= q.1 < Z.of_nat w' /\ 0 <= q.2 < Z.of_nat h')%Z.
Proof. exact reuse_refuted. Qed.
Print Assumptions C92_reuse_for_another_size_refuted.

Example C92_example : o_show (twice 14) = Some
  ([(0%N, 1%nat, [(-1, 1)], Rect (-1) 1 1 1); (0%N, 1%nat, [(0, 0)], Rect 0 0 1 1); (5%N, 3%nat, [(0, 1); (1, 0); (0, 0)], Rect 0 0 2 2);
    (0%N, 0%nat, [], Rect 0 0 0 0)], [])%Z /\
  o_show (o_extract 14 false true false twice_img2 2 2 2 twiceP o_new) = Some
  ([(0%N, 1%nat, [(0, 0)], Rect 0 0 1 1); (5%N, 3%nat, [(0, 1); (1, 0); (0, 0)], Rect 0 0 2 2)], [])%Z.
Proof. exact (conj twice_call twice_new). Qed.

(* C93 does not hold: unlike the other implementations this one reports the whole image if
   the limits allow a region of its size. *)
Theorem C93_whole_image_refuted :
  ~ forall src step w h P l, limg_fits src step w h -> cv_modest w h -> delta_ok P -> sane P -> below1 (p_dup P) ->
  o_result false src 0 step w h P l -> forall j rc, l !! j = Some rc -> q_size rc < w * h.
Proof. exact whole_refuted. Qed.
Print Assumptions C93_whole_image_refuted.
