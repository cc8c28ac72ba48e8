(* Property theorems about images made from results: drawing a record
   (img_mser_helper.cpp:35-166), the channel images of img_mser_result
   (img_mser_result.cpp:60-95) and connected components (img_connected_component.h). *)
From stdpp Require Import sorting relations functions list.
From Coq Require Import NArith ZArith SpecFloat.
From Verif Require Import Spec TreeSpec JoinCorrect FloodModel FloodCorrect FloodExamples ConnectModel ConnectProof PartModel WholeModel WholeCorrect JoinExamples
  FloatModel FloatFacts RecogModel RecogSpec RecogFinal RecogResults DetectModel Detect RecogExamples RectModel ExtractModel RunModel RunCorrect RunResults RunExamples
  V1JoinModel V1Model V1BuildModel V1AllocModel V1Build V1Alloc V1Comp V1Examples V1RecogModel V1Detect V1RecogExamples
  V1ExtractModel V1Copy V1Tops V1Extract V1ExtractExamples LinkedModel LinkedGrid LinkedInit LinkedCorrect LinkedExamples CvModel CvExtract CvCorrect CvResults CvExamples
  DrawModel Draw DrawExamples ResultModel ResultFacts CcModel CcFacts.
Local Open Scope nat_scope.

(* C77: drawing a record of a run of Fast MSER V1 with at least two threads succeeds and
   shows its region: the foreground colour at its pixels, the background colour elsewhere,
   no pixel left out, the rectangle in the middle of a square up to a row or column. *)
Theorem C77_drawing_a_v1_record_shows_its_region :
  forall (A : Type) (fg bg : A) img gm cols rows P d R, 0 < cols -> k_result img gm cols rows P d R ->
  forall i r S, k_recs R !! i = Some r -> k_lists cols R i S ->
  exists D, draw_v1 fg bg R r = Some D /\ shows fg bg D (kr_rect r) (pixel_of cols S).
Proof. exact @draw_v1_ok. Qed.
Print Assumptions C77_drawing_a_v1_record_shows_its_region.

(* C77, continued: the same for a record of CV-MSER+. *)
Theorem C77_drawing_a_cv_record_shows_its_region :
  forall (A : Type) (fg bg : A) e src gm step w h, limg_fits src step w h -> gm = 0%N \/ gm = 255%N -> cv_modest w h ->
  forall P, delta_ok P -> forall R, cv_result e src gm step w h P R ->
  forall j rc, cv_ms R !! j = Some rc -> exists g S D, extremal (lview e step w h (level src gm)) g S /\
    draw_cv fg bg R rc = Some D /\ shows fg bg D (cr_rect rc) (pixel_of step S).
Proof. exact @draw_cv_region. Qed.
Print Assumptions C77_drawing_a_cv_record_shows_its_region.

Example C77_example :
  (v1_call 4 2 2 exk_img 6 4 300 600 (ex_mem 4 2 2 6 4) (ex_pinfo 4) exkP in_turn /\ below1 (p_dup exkP) /\ sizes_ok 4 exkP /\
   k_draw (ex_channel 4 2 2 0 exkP exk_img 6 4) = Some
     [Some (2, 2, [1; 1; 1; 0]); Some (2, 2, [1; 1; 1; 0]); Some (2, 2, [0; 1; 1; 1]); Some (3, 3, [0; 0; 0; 1; 1; 1; 0; 0; 0]); Some (2, 2, [1; 1; 1; 1])]) /\
  (limg_fits lx_img 4 3 3 /\ cv_modest 3 3 /\ delta_ok cxP) /\
  cv_draw (cv_call 100 (lcfgn false 3 3) true true lx_img 4 cxP (lalloc_buf 3 3 99) cx_chan cx_dirty) = Some
    [Some (1, 1, [1]); Some (1, 1, [1]); Some (1, 1, [1]); Some (3, 3, [1; 0; 0; 1; 1; 0; 1; 1; 1])].
Proof.
  exact (conj (conj exk_call4 (conj exkP_below (conj (proj2 (proj2 exk_sizes)) exk_drawn)))
    (conj (conj (proj1 cx_hyps) (conj (proj1 (proj2 cx_hyps)) (proj1 (proj2 (proj2 cx_hyps))))) cx_drawn)).
Qed.

(* C78, refuted: drawing a record of Fast MSER V2 shows its region. The record's
   rectangle can be a column short; a region of five pixels is drawn with four. *)
Theorem C78_drawing_a_v2_record_loses_pixels_refuted :
  ~ (forall threads hpn vpn img cols rows P R0 R1 L K, image_fits hpn vpn img cols rows ->
     call threads hpn vpn img cols rows P 0 = Some (R0, R1) -> visit (length (r_ms R0)) R0 [0] = Some (L, K) ->
     exists D r, draw_v2 true false R0 0 = Some D /\ shows true false D r (fun q => q ∈ L)).
Proof. exact box_not_shown. Qed.
Print Assumptions C78_drawing_a_v2_record_loses_pixels_refuted.

Example C78_example : image_fits 2 2 box_img 10 4 /\ exists R0 R1, call 4 2 2 box_img 10 4 exP 0 = Some (R0, R1) /\
  visit 1 R0 [0] = Some ([(2, 0); (2, 1); (1, 2); (2, 2); (3, 2)]%Z, [0]) /\
  draw_v2 true false R0 0 = Some (Pic 2 3 [false; true; false; true; true; true]).
Proof. exact (conj box_fits box_clipped). Qed.

(* C79: the dark channel image: if all points are pixels of the image, the level and
   number shown at each pixel are those of the first component of the least level below 255
   among the components containing it; 255 and -1 if there is none. *)
Theorem C79_dark_channel_image_shows_the_least_level :
  forall w h ms0 ms1, pts_inside w h ms0 -> exists I, channel_image w h ms0 ms1 true = Some I /\ shows_least w h ms0 I.
Proof. exact (fun w h ms0 _ H => chan_min_ok w h ms0 H). Qed.
Print Assumptions C79_dark_channel_image_shows_the_least_level.

Example C79_example : pts_inside 3 2 rx_ms /\ channel_image 3 2 rx_ms [] true = Some ([9; 4; 255; 255; 9; 4], [0; 1; -1; -1; 0; 2]%Z).
Proof. exact (conj rx_inside rx_run). Qed.

(* C80, refuted: the bright channel image shows levels of the bright components. Line 87
   takes the level of the dark component of the same number: a component of level 200 is
   shown with level 5, and without dark components the vector is indexed past its end. *)
Theorem C80_bright_channel_image_shows_dark_levels_refuted :
  ~ (forall w h ms0 ms1, pts_inside w h ms1 -> exists I, channel_image w h ms0 ms1 false = Some I) /\
  ~ (forall w h ms0 ms1 I, pts_inside w h ms1 -> channel_image w h ms0 ms1 false = Some I ->
     forall x y lv j, x < w -> y < h -> fst I !! (y * w + x) = Some lv -> snd I !! (y * w + x) = Some (Z.of_nat j) -> has_px ms1 j lv x y).
Proof. exact rx_max_wrong. Qed.
Print Assumptions C80_bright_channel_image_shows_dark_levels_refuted.

Example C80_example : pts_inside 1 1 [MComp 200 [(0, 0)]%Z] /\
  channel_image 1 1 [MComp 5 [(0, 0)]%Z] [MComp 200 [(0, 0)]%Z] false = Some ([5], [0%Z]) /\
  channel_image 1 1 [] [MComp 200 [(0, 0)]%Z] false = None.
Proof. exact (conj rx_inside1 rx_max). Qed.

(* C81, refuted: connect_component gives the connected components. ptr(1, 1) is taken as
   row and column, but it is row and channel: for every image with a pixel different from
   the background the first flag is read from a byte that was never written. *)
Theorem C81_connect_component_reads_unwritten_memory_refuted :
  forall fuel src step rows cols bg eight, has_figure src step rows cols bg -> connect_component fuel src step rows cols bg eight = None.
Proof. exact reads_unwritten. Qed.
Print Assumptions C81_connect_component_reads_unwritten_memory_refuted.

Example C81_example : has_figure ccx_img 5 3 5 0 /\
  match cc_fill ccx_img 5 0 1 1 2 3 with
  | Some m => option_map snd (cc_scan 10 (2 * 5 + 2) 1 1 2 3 (cc_area ccx_img 5 0 1 1 2 3) (cc_offsets false 3) m)
  | None => None
  end = Some [[(1, 1); (1, 2)]; [(3, 1)]]%Z.
Proof. exact (conj ccx_figure ccx_repaired). Qed.
