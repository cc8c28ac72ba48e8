(* Property theorems about extracting pixels and reading records
   (img_fast_mser_v2.cpp:1335-1342, 1639-2051, img_mser_base.cpp:74-116,
   img_mser_helper.cpp). *)
From stdpp Require Import sorting relations functions list_numbers list.
From Coq Require Import NArith ZArith SpecFloat.
From Verif Require Import Spec TreeSpec JoinCorrect FloodModel FloodInit FloodExamples ConnectModel ConnectProof PartModel WholeModel WholeCorrect JoinExamples
  FloatModel FloatFacts RecogModel RecogSpec RecogSched RecogTree RecogFinal RecogResults DetectModel Detect RecogExamples RectModel RectFacts
  ExtractModel ExtractDecode ExtractCorrect ExtractTop RunModel RunCorrect RunResults RunExamples.
Local Open Scope nat_scope.

(* C17: a call with four partitions succeeds under all schedules, whatever is in the
   memory; in each channel record j holds the j-th region found by recognition: its
   size, its level, and reading it visits the pixels of the region, each once; the
   memory has no unwritten word except at the end of lists of children. *)
Theorem C17_records_hold_the_pixels_of_the_regions :
  forall img cols rows, image_fits 2 2 img cols rows -> modest_image cols rows -> short_sides cols rows ->
  forall P, delta_ok P -> forall n fuel, 6 * (rows * cols) < n -> rows * cols + 514 < fuel ->
  forall thr bright bs b c0 c1, allocated 2 2 cols rows 4 bs -> fair_chan cols rows c0 -> fair_chan cols rows c1 ->
  exists R0 R1, extract n fuel 4 true bright img cols rows P thr bs b c0 c1 = Some (R0, R1) /\
    channel_result img 0 cols rows fuel P c0 b R0 /\
    if bright then exists b1, channel_result img 255 cols rows fuel P c1 b1 R1 else R1 = no_result.
Proof. exact run_ok. Qed.
Print Assumptions C17_records_hold_the_pixels_of_the_regions.

(* C17, continued: every record lists an extremal region of the channel, and different
   records list different ones. *)
Theorem C17_records_are_extremal_regions :
  forall img gm cols rows fuel P c b R, image_fits 2 2 img cols rows -> channel_result img gm cols rows fuel P c b R ->
  (forall j rc, r_ms R !! j = Some rc -> exists g S, extremal (image_view img gm cols rows) g S /\ lists_record cols R j S /\ ms_gray rc = N.of_nat g) /\
  forall i j S, lists_record cols R i S -> lists_record cols R j S -> i = j.
Proof.
  exact (fun img gm cols rows fuel P c b R HF H => conj (record_extremal img gm cols rows fuel P c b R H) (records_differ img gm cols rows fuel P c b R HF H)).
Qed.
Print Assumptions C17_records_are_extremal_regions.

Example C17_example : (image_fits 2 2 ex_img 4 3 /\ modest_image 4 3 /\ short_sides 4 3 /\ delta_ok exP /\ allocated 2 2 4 3 4 (ex_bufs 2 2 4 3) /\
    fair_chan 4 3 (plain (rects 2 2 4 3))) /\
  exists R0 R1, call 4 2 2 ex_img 4 3 exP 0 = Some (R0, R1) /\ length (r_ms R0) = 4 /\
    visit 4 R0 [3] = Some ([(1, 0); (3, 0); (0, 1); (1, 1); (2, 2); (3, 2); (3, 1); (2, 0); (1, 2)]%Z, [3; 2; 1; 0]) /\ length (r_ms R1) = 5.
Proof.
  exact (conj (conj ex4_fits (conj ex_modest (conj ex_short (conj exP_delta (conj (ex_allocated 2 2 4 3) (plain_fair 4 3)))))) ex_call).
Qed.

(* C40 for a whole call: asked for bright regions alone, a call with four partitions returns
   other records than for both kinds: here a region of 10 pixels where there is one of 8. *)
Theorem C40_bright_only_call_refuted : exists img cols rows P n fuel bs b c,
  image_fits 2 2 img cols rows /\ modest_image cols rows /\ short_sides cols rows /\ delta_ok P /\ 6 * (rows * cols) < n /\ rows * cols + 514 < fuel /\
  allocated 2 2 cols rows 4 bs /\ fair_chan cols rows c /\
  exists R0 R R', extract n fuel 4 true true img cols rows P 0 bs b c c = Some (R0, R) /\
    extract n fuel 4 false true img cols rows P 0 bs b c c = Some (no_result, R') /\
    map ms_size (r_ms R) = [8] /\ map ms_size (r_ms R') = [10; 8].
Proof. exact bright_alone_wrong. Qed.
Print Assumptions C40_bright_only_call_refuted.

(* C46: without removal of duplicates the records are exactly the stable extremal
   regions of the channel. *)
Theorem C46_records_are_the_stable_regions :
  forall img gm cols rows fuel P c b R, image_fits 2 2 img cols rows -> channel_result img gm cols rows fuel P c b R ->
  forall d, (p_delta P = Z.of_nat d)%Z -> fge fzero (p_dup P) = true ->
  (forall j rc, r_ms R !! j = Some rc -> exists g S, mser (image_view img gm cols rows) P d g S /\ lists_record cols R j S /\ ms_gray rc = N.of_nat g) /\
  forall g S, mser (image_view img gm cols rows) P d g S -> exists j, lists_record cols R j S.
Proof. exact records_msers. Qed.
Print Assumptions C46_records_are_the_stable_regions.

(* C46, continued: in any case they respect the limits, and with a threshold below 1
   nested ones differ by more than the threshold. *)
Theorem C46_records_respect_the_parameters :
  forall img gm cols rows fuel P c b R, image_fits 2 2 img cols rows -> channel_result img gm cols rows fuel P c b R ->
  (forall j rc S, r_ms R !! j = Some rc -> lists_record cols R j S ->
     (p_min P <= Z.of_nat (ms_size rc) <= p_max P)%Z /\ exists p, vw_in (image_view img gm cols rows) p /\ ~ S p) /\
  forall i j S S', below1 (p_dup P) -> lists_record cols R i S -> lists_record cols R j S' -> i <> j ->
    (forall p, S p -> S' p) -> exceeds (p_dup P) S S'.
Proof.
  exact (fun img gm cols rows fuel P c b R HF H => conj (record_limits img gm cols rows fuel P c b R HF H) (records_apart img gm cols rows fuel P c b R HF H)).
Qed.
Print Assumptions C46_records_respect_the_parameters.

(* C46, continued: two calls, with whatever schedules and memory contents, list the same
   sets of pixels. *)
Theorem C46_records_do_not_depend_on_the_schedule :
  forall img gm cols rows fuel P c1 c2 b1 b2 R1 R2, image_fits 2 2 img cols rows ->
  channel_result img gm cols rows fuel P c1 b1 R1 -> channel_result img gm cols rows fuel P c2 b2 R2 ->
  sane P -> below1 (p_dup P) ->
  length (r_ms R1) = length (r_ms R2) /\ forall S, (exists j, lists_record cols R1 j S) <-> exists j, lists_record cols R2 j S.
Proof. exact results_agree. Qed.
Print Assumptions C46_records_do_not_depend_on_the_schedule.

Example C46_example : (p_delta exP = Z.of_nat 1)%Z /\ sane exP /\ below1 (p_dup exP) /\ fge fzero fminus1 = true.
Proof. exact (conj eq_refl (conj exP_sane (conj exP_below eq_refl))). Qed.

(* C18 is false: with fewer than four partitions extraction reads partitions that do not
   exist as soon as there is a region to report, *)
Theorem C18_one_thread_refuted :
  (forall fuel gm thr rs os F heap0 l sched, length os < 4 -> l <> [] -> extract_pixel fuel gm thr rs os F heap0 l sched = None) /\
  (exists F os s l k b', detect 1000 1000 1 0 true ex_img 4 3 exP (ex_bufs 1 1 4 3) in_turn (fun _ => fzero) (CBuf 0 0) = Some (F, os, s, l, k, b') /\ k = 4) /\
  call 1 1 1 ex_img 4 3 exP 0 = None.
Proof. exact (conj few_partitions (conj one_thread_found one_thread_none)). Qed.
Print Assumptions C18_one_thread_refuted.

(* and with 32 the pixels of the other partitions are missing: the region has four
   pixels, only one is listed. *)
Theorem C18_thirty_two_threads_refuted :
  image_fits 8 4 col_img 8 4 /\
  exists R0 R1, call 32 8 4 col_img 8 4 exP 0 = Some (R0, R1) /\
    r_ms R0 = [MRec 1 true 4 0 (Rect 0 0 1 1)] /\ visit 1 R0 [0] = Some ([(0, 0)]%Z, [0]).
Proof. exact (conj col_fits col_run). Qed.
Print Assumptions C18_thirty_two_threads_refuted.

(* C19: the level of a dark region is its greatest value in the image. *)
Theorem C19_dark_level_is_the_greatest_value :
  forall img gm cols rows fuel P c b R, image_fits 2 2 img cols rows -> channel_result img gm cols rows fuel P c b R ->
  forall j rc S, gm = 0%N -> r_ms R !! j = Some rc -> lists_record cols R j S -> max_on img S (ms_gray rc).
Proof. exact record_level_dark. Qed.
Print Assumptions C19_dark_level_is_the_greatest_value.

(* C19 is false for bright regions: the level is 255 minus the least value, which never
   equals it. *)
Theorem C19_bright_level_is_the_least_value_refuted :
  (forall img gm cols rows fuel P c b R, image_fits 2 2 img cols rows -> channel_result img gm cols rows fuel P c b R ->
   forall j rc S, gm = 255%N -> r_ms R !! j = Some rc -> lists_record cols R j S ->
   exists v, min_on img S v /\ ms_gray rc = (255 - v)%N /\ ms_gray rc <> v) /\
  exists R0 R1, call 4 2 2 ex_img 4 3 exP 0 = Some (R0, R1) /\ length (r_ms R0) = 4 /\
    visit 4 R0 [3] = Some ([(1, 0); (3, 0); (0, 1); (1, 1); (2, 2); (3, 2); (3, 1); (2, 0); (1, 2)]%Z, [3; 2; 1; 0]) /\ length (r_ms R1) = 5.
Proof. exact (conj record_level_bright ex_call). Qed.
Print Assumptions C19_bright_level_is_the_least_value_refuted.

(* C20 in part: left and top of the rectangle are right; right and bottom are a column
   and a row of the region, and right as well if the region lies in one partition. *)
Theorem C20_rectangle_corner :
  forall img gm cols rows fuel P c b R, channel_result img gm cols rows fuel P c b R -> record_rects (rects 2 2 cols rows) R.
Proof. exact result_rects. Qed.
Print Assumptions C20_rectangle_corner.

(* C20 is false: over two partitions the rectangle may lose the last column (or row); here
   the pixel (3,2) is outside the rectangle with columns 1 to 2. *)
Theorem C20_rectangle_is_the_bounding_box_refuted :
  image_fits 2 2 box_img 10 4 /\
  exists R0 R1, call 4 2 2 box_img 10 4 exP 0 = Some (R0, R1) /\
    r_ms R0 = [MRec 1 true 5 0 (Rect 1 0 2 3)] /\ visit 1 R0 [0] = Some ([(2, 0); (2, 1); (1, 2); (2, 2); (3, 2)]%Z, [0]).
Proof. exact (conj box_fits box_run). Qed.
Print Assumptions C20_rectangle_is_the_bounding_box_refuted.

(* C27: reading a record of a well-formed result ends after at most as many steps as
   there are records, and visits every record below it once. *)
Theorem C27_reading_terminates :
  forall R rp kids j, well_formed R rp kids -> j < length (r_ms R) ->
  exists js, visit (length (r_ms R)) R [j] = Some (js ≫= rp, js) /\ NoDup js /\
    forall c, c ∈ js <-> rtc (fun a b => b < length (r_ms R) /\ a ∈ kids b) c j.
Proof. exact decode_ok. Qed.
Print Assumptions C27_reading_terminates.

(* C27, continued: results of calls are well-formed. *)
Theorem C27_results_are_well_formed :
  forall img gm cols rows fuel P c b R, channel_result img gm cols rows fuel P c b R -> exists rp kids, well_formed R rp kids.
Proof. exact result_wf. Qed.
Print Assumptions C27_results_are_well_formed.

Example C27_example : exists R0 R1, call 4 2 2 ex_img 4 3 exP 0 = Some (R0, R1) /\ length (r_ms R0) = 4 /\
  visit 4 R0 [3] = Some ([(1, 0); (3, 0); (0, 1); (1, 1); (2, 2); (3, 2); (3, 1); (2, 0); (1, 2)]%Z, [3; 2; 1; 0]) /\ length (r_ms R1) = 5.
Proof. exact ex_call. Qed.
