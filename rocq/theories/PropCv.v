(* Property theorems about the results of CV-MSER+ (img_linked_linear_mser.cpp:565-1011,
   img_mser_base.cpp:92-106). *)
From stdpp Require Import sorting relations functions list_numbers list.
From Coq Require Import NArith ZArith SpecFloat.
From Verif Require Import Spec TreeSpec JoinCorrect FloodModel FloodCorrect FloodExamples WholeCorrect JoinExamples FloatModel RecogModel RecogSpec RecogTree RecogFinal RecogResults
  RecogPixels RecogExamples Detect ExtractModel RunModel RunCorrect RunResults RunExamples RectModel LinkedModel LinkedGrid LinkedInit LinkedCorrect LinkedExamples
  CvModel CvExtract CvCorrect CvResults CvExamples.
Local Open Scope nat_scope.

(* C55: a call succeeds and returns the same two results whatever the buffers, the
   uninitialised variations and the leftovers of the first channel hold. *)
Theorem C55_result_does_not_depend_on_the_buffers :
  forall (e dark bright : bool) src step w h P, limg_fits src step w h -> cv_modest w h -> delta_ok P ->
  exists R0 R1, (if dark then cv_result e src 0 step w h P R0 else R0 = cv_none) /\
    (if bright then cv_result e src 255 step w h P R1 else R1 = cv_none) /\
    forall n b c0 c1, (if e then 10 else 6) * (w * h) < n -> lbuf_ok w h b -> fair_dirt c0 -> fair_dirt c1 ->
    cv_call n (lcfgn e w h) dark bright src step P b c0 c1 = Some (R0, R1).
Proof. exact cv_call_ok. Qed.
Print Assumptions C55_result_does_not_depend_on_the_buffers.

(* C55, continued: every channel has exactly one result. *)
Theorem C55_one_result_per_channel :
  forall e src gm step w h P R R', limg_fits src step w h -> gm = 0%N \/ gm = 255%N -> cv_modest w h -> delta_ok P ->
  cv_result e src gm step w h P R -> cv_result e src gm step w h P R' -> R = R'.
Proof. exact cv_unique. Qed.
Print Assumptions C55_one_result_per_channel.

Example C55_example : (limg_fits lx_img 4 3 3 /\ cv_modest 3 3 /\ delta_ok cxP /\ sane cxP /\ below1 (p_dup cxP)) /\
  (fair_dirt cx_chan /\ fair_dirt cx_dirty) /\
  cv_show (cv_call 100 (lcfgn true 3 3) true true lx_img 4 cxP (lalloc_buf 3 3 99) cx_dirty cx_chan) = Some
  ([(5, Some [(1, 1); (0, 0)], Rect 0 0 2 2); (7, Some [(0, 1); (0, 2); (2, 2); (1, 1); (0, 0)], Rect 0 0 3 3)],
   [(9, Some [(2, 0); (2, 1); (1, 0)], Rect 1 0 2 2); (7, Some [(0, 1); (0, 2); (1, 2); (2, 0); (2, 1); (1, 0)], Rect 0 0 3 3)])%Z.
Proof. exact (conj cx_hyps (conj cx_fair cx_call8)). Qed.

(* C52: every record lists an extremal region of the channel: reading it visits its
   pixels, each once, and its size is their number; its rectangle is their bounding box;
   different records list different regions. *)
Theorem C52_records_are_extremal_regions :
  forall e src gm step w h, limg_fits src step w h -> gm = 0%N \/ gm = 255%N -> cv_modest w h ->
  forall P, delta_ok P -> forall R, cv_result e src gm step w h P R ->
  (forall j rc, cv_ms R !! j = Some rc -> exists g S L, extremal (lview e step w h (level src gm)) g S /\ cv_lists step R j S /\
     cr_gray rc = out_gray gm g /\ cv_read R rc = Some L /\ bounding L (cr_rect rc)) /\
  forall i j S, cv_lists step R i S -> cv_lists step R j S -> i = j.
Proof.
  exact (fun e src gm step w h HF Hgm Hm P Hd R HR =>
    conj (cv_extremal e src gm step w h HF Hgm Hm P Hd R HR) (cv_differ e src gm step w h HF Hgm Hm P Hd R HR)).
Qed.
Print Assumptions C52_records_are_extremal_regions.

(* C52, continued: the level of a record is the greatest value of a dark region and the
   least value of a bright one. *)
Theorem C52_levels_are_image_values :
  forall e src gm step w h, limg_fits src step w h -> gm = 0%N \/ gm = 255%N -> cv_modest w h ->
  forall P, delta_ok P -> forall R, cv_result e src gm step w h P R ->
  (forall j rc S, gm = 0%N -> cv_ms R !! j = Some rc -> cv_lists step R j S -> max_on src S (N.of_nat (cr_gray rc))) /\
  forall j rc S, gm = 255%N -> cv_ms R !! j = Some rc -> cv_lists step R j S -> min_on src S (N.of_nat (cr_gray rc)).
Proof.
  exact (fun e src gm step w h HF Hgm Hm P Hd R HR =>
    conj (cv_level_dark e src gm step w h HF Hgm Hm P Hd R HR) (cv_level_bright e src gm step w h HF Hgm Hm P Hd R HR)).
Qed.
Print Assumptions C52_levels_are_image_values.

(* C52, continued: the memory of the result is exactly used up: the records lie one
   after the other, every point is written, and none is left over. *)
Theorem C52_memory_is_used_up :
  forall e src gm step w h, limg_fits src step w h -> gm = 0%N \/ gm = 255%N -> cv_modest w h ->
  forall P, delta_ok P -> forall R, cv_result e src gm step w h P R -> cv_packed R.
Proof. exact cv_packed_ok. Qed.
Print Assumptions C52_memory_is_used_up.

Example C52_example : (limg_fits lx_img 4 3 3 /\ cv_modest 3 3 /\ delta_ok cxP /\ sane cxP /\ below1 (p_dup cxP)) /\
  (forall e gm, gm = 0%N \/ gm = 255%N -> exists R, cv_result e lx_img gm 4 3 3 cxP R) /\
  cv_show (cv_call 100 (lcfgn false 3 3) true true lx_img 4 cxP (lalloc_buf 3 3 99) cx_chan cx_dirty) = Some
  ([(5, Some [(0, 0)], Rect 0 0 1 1); (5, Some [(1, 1)], Rect 1 1 1 1); (6, Some [(2, 2)], Rect 2 2 1 1);
    (8, Some [(1, 2); (0, 2); (0, 1); (0, 0); (1, 1); (2, 2)], Rect 0 0 3 3)],
   [(9, Some [(2, 1); (2, 0); (1, 0)], Rect 1 0 2 2); (6, Some [(2, 2); (2, 1); (2, 0); (1, 0); (0, 1); (0, 2); (1, 2)], Rect 0 0 3 3)])%Z.
Proof. exact (conj cx_hyps (conj cx_res cx_call4)). Qed.

(* C53: with four neighbours and packed rows the records list the same sets of pixels as
   those of Fast MSER V2, under all schedules of the latter. *)
Theorem C53_same_regions_as_fast_mser :
  forall img gm cols rows fuel P c b Rv R, image_fits 2 2 img cols rows -> modest_image cols rows -> gm = 0%N \/ gm = 255%N ->
  channel_result img gm cols rows fuel P c b Rv -> cv_result false img gm cols cols rows P R -> sane P -> below1 (p_dup P) ->
  length (r_ms Rv) = length (cv_ms R) /\ forall S, (exists j, lists_record cols Rv j S) <-> exists j, cv_lists cols R j S.
Proof. exact cv_same_as_v2. Qed.
Print Assumptions C53_same_regions_as_fast_mser.

Example C53_example : (image_fits 2 2 ex_img 4 3 /\ modest_image 4 3 /\ sane exP /\ below1 (p_dup exP)) /\
  (exists R0 R1, call 4 2 2 ex_img 4 3 exP 0 = Some (R0, R1) /\ length (r_ms R0) = 4 /\ length (r_ms R1) = 5) /\
  exists R0 R1, cv_call 100 (lcfgn false 4 3) true true ex_img 4 exP (lalloc_buf 4 3 99) cx_chan cx_dirty = Some (R0, R1) /\
    length (cv_ms R0) = 4 /\ length (cv_ms R1) = 5.
Proof. exact (conj (conj ex4_fits (conj ex_modest (conj exP_sane exP_below))) cx_both). Qed.

(* C54: without removal of duplicates the records are exactly the stable extremal
   regions of the channel. *)
Theorem C54_records_are_the_stable_regions :
  forall e src gm step w h, limg_fits src step w h -> gm = 0%N \/ gm = 255%N -> cv_modest w h ->
  forall P, delta_ok P -> forall R, cv_result e src gm step w h P R ->
  forall d, (p_delta P = Z.of_nat d)%Z -> sane P -> fge fzero (p_dup P) = true ->
  (forall j rc, cv_ms R !! j = Some rc -> exists g S, mser (lview e step w h (level src gm)) P d g S /\ cv_lists step R j S /\ cr_gray rc = out_gray gm g) /\
  forall g S, mser (lview e step w h (level src gm)) P d g S -> exists j, cv_lists step R j S.
Proof. exact cv_msers. Qed.
Print Assumptions C54_records_are_the_stable_regions.

(* C54, continued: in any case they respect the limits, and with a threshold below 1
   nested ones differ by more than the threshold. *)
Theorem C54_records_respect_the_parameters :
  forall e src gm step w h, limg_fits src step w h -> gm = 0%N \/ gm = 255%N -> cv_modest w h ->
  forall P, delta_ok P -> forall R, cv_result e src gm step w h P R ->
  (forall j rc S, cv_ms R !! j = Some rc -> cv_lists step R j S ->
     (p_min P <= Z.of_nat (cr_size rc) <= p_max P)%Z /\ exists p, vw_in (lview e step w h (level src gm)) p /\ ~ S p) /\
  forall i j S S', below1 (p_dup P) -> cv_lists step R i S -> cv_lists step R j S' -> i <> j ->
    (forall p, S p -> S' p) -> exceeds (p_dup P) S S'.
Proof.
  exact (fun e src gm step w h HF Hgm Hm P Hd R HR =>
    conj (cv_limits e src gm step w h HF Hgm Hm P Hd R HR) (cv_apart e src gm step w h HF Hgm Hm P Hd R HR)).
Qed.
Print Assumptions C54_records_respect_the_parameters.

Example C54_example : (limg_fits lx_img 4 3 3 /\ cv_modest 3 3 /\ delta_ok cxP /\ sane cxP /\ below1 (p_dup cxP)) /\
  (p_delta cxP = Z.of_nat 1)%Z /\ fge fzero (p_dup cxP0) = true /\ delta_ok cxP0 /\ sane cxP0.
Proof. exact (conj cx_hyps cx_zero). Qed.
