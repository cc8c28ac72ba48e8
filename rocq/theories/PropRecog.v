(* Property theorems about recognition: variations, suppression, order, duplicates and
   the reported regions (img_fast_mser_v2.cpp:657-1333, 2053-2114). *)
From stdpp Require Import sorting relations functions list_numbers list.
From Coq Require Import NArith ZArith SpecFloat.
From Verif Require Import Spec TreeSpec FloodModel FloodExamples ConnectModel ConnectProof PartModel WholeModel WholeCorrect JoinCorrect JoinExamples
  FloatModel FloatFacts RecogModel RecogSpec RecogSched RecogOrder RecogTree RecogFinal RecogResults RecogPixels DetectModel Detect
  RecogExamples.
Local Open Scope nat_scope.

(* C09: in every version that computes variations, under every schedule of its
   workers, each surviving region gets the relative growth of its pixel set to the
   component d levels higher, or -1 if the picture has no pixel that bright. *)
Theorem C09_variation_is_relative_growth :
  forall V lab F P fuel m s0, ready V lab F P fuel m s0 ->
  forall d b, (p_delta P = Z.of_nat d)%Z -> computes P m ->
  exists s l b', candidates fuel m P b s0 = Some (s, l, b') /\ variations V lab F d (s_var s).
Proof. exact variations_ok. Qed.
Print Assumptions C09_variation_is_relative_growth.

Example C09_example : (exists lab, ready (image_view ex_img 0 4 3) lab ex4_F exP 600 ex4_mode (ex_s0 ex4_F)) /\
  (p_delta exP = Z.of_nat 1)%Z /\ computes exP ex4_mode.
Proof. exact (conj (ex4_ready exP ex4_mode exP_delta (or_intror (or_introl eq_refl))) (conj eq_refl I)). Qed.

(* C10: the candidates are exactly the regions that pass the limits, the maximal
   variation and the comparison with parent and children, in every version and under
   every schedule. *)
Theorem C10_suppression_is_order_independent :
  forall V lab F P fuel m s0, ready V lab F P fuel m s0 ->
  forall d b var, (p_delta P = Z.of_nat d)%Z -> computes P m \/ fgt fzero (p_stable P) = false ->
  variations V lab F d var ->
  exists s l b', candidates fuel m P b s0 = Some (s, l, b') /\ forall z, z ∈ l <-> survives P (tab F) var z.
Proof. exact survivors_ok. Qed.
Print Assumptions C10_suppression_is_order_independent.

(* C10, continued: in terms of pixel sets, without the tree. *)
Theorem C10_candidates_are_the_stable_extremal_regions :
  forall V lab F P fuel m s0 d b, ready V lab F P fuel m s0 -> (p_delta P = Z.of_nat d)%Z ->
  computes P m \/ fgt fzero (p_stable P) = false ->
  exists s l b', candidates fuel m P b s0 = Some (s, l, b') /\
    (forall z, z ∈ l -> exists a, alive F z a /\ mser V P d (v_gray a) (region_pixels V lab (tab F) z)) /\
    forall g S, mser V P d g S -> reports V lab F l S.
Proof. exact candidates_msers. Qed.
Print Assumptions C10_candidates_are_the_stable_extremal_regions.

(* C10, continued: two versions on the same tree list the same candidates. *)
Theorem C10_versions_agree :
  forall V lab F P fuel m1 m2 s01 s02 b,
  ready V lab F P fuel m1 s01 -> ready V lab F P fuel m2 s02 -> sane P ->
  exists s1 s2 l b', candidates fuel m1 P b s01 = Some (s1, l, b') /\ candidates fuel m2 P b s02 = Some (s2, l, b').
Proof. exact variants_agree. Qed.
Print Assumptions C10_versions_agree.

Example C10_example : (exists lab, ready (image_view ex_img 0 4 3) lab ex4_F exP 600 ex4_mode (ex_s0 ex4_F)) /\
  (exists lab, ready (image_view ex_img 0 4 3) lab ex4_F exP 600 One (ex_s0 ex4_F)) /\ sane exP /\
  exists s l b s' l' n b',
    candidates 600 ex4_mode exP (CBuf 0 0) (ex_s0 ex4_F) = Some (s, l, b) /\ length l = 6 /\
    recognize 600 ex4_mode exP (CBuf 0 0) (ex_s0 ex4_F) = Some (s', l', n, b') /\ n = 4.
Proof.
  exact (conj (ex4_ready exP ex4_mode exP_delta (or_intror (or_introl eq_refl)))
    (conj (ex4_ready exP One exP_delta (or_introl eq_refl)) (conj exP_sane ex4_result))).
Qed.

(* C43 is false: with delta 0 and a negative maximal variation the serial version
   reports regions that the parallel one rejects. *)
Theorem C43_serial_and_parallel_agree_refuted :
  exists s1 l1 n1 b1 s2 l2 n2 b2,
  recognize 600 One negP (CBuf 0 0) (ex_s0 ex4_F) = Some (s1, l1, n1, b1) /\
  recognize 600 ex4_mode negP (CBuf 0 0) (ex_s0 ex4_F) = Some (s2, l2, n2, b2) /\ n1 <> n2.
Proof. exact versions_differ. Qed.
Print Assumptions C43_serial_and_parallel_agree_refuted.

(* C11: two schedules of the workers give the same candidates, flags, variations,
   resolved parents and reported regions. *)
Theorem C11_recognition_does_not_depend_on_the_schedule :
  forall V lab F P fuel m1 m2 s01 s02 b, ready V lab F P fuel m1 s01 -> ready V lab F P fuel m2 s02 ->
  same_kind m1 m2 ->
  exists s1 s2 l b', candidates fuel m1 P b s01 = Some (s1, l, b') /\ candidates fuel m2 P b s02 = Some (s2, l, b') /\
    (forall z a, alive F z a -> exists a1 a2, sget s1 z = Some a1 /\ sget s2 z = Some a2 /\ g_flag a1 = g_flag a2 /\
       (computes P m1 -> s_var s1 z = s_var s2 z) /\
       parent_in (S (nregs F)) s1 z = parent_in (S (nregs F)) s2 z /\
       forall t, parent_in (S (nregs F)) s1 z = Some (Some t) <-> sparent (tab F) z t) /\
  exists s1' s2' l' n' b2', recognize fuel m1 P b s01 = Some (s1', l', n', b2') /\
    recognize fuel m2 P b s02 = Some (s2', l', n', b2') /\
    (forall z a, alive F z a -> exists a1 a2, sget s1' z = Some a1 /\ sget s2' z = Some a2 /\ g_flag a1 = g_flag a2).
Proof. exact schedule_free. Qed.
Print Assumptions C11_recognition_does_not_depend_on_the_schedule.

Example C11_example : (exists lab, ready (image_view ex_img 0 4 3) lab ex4_F exP 600 ex4_mode (ex_s0 ex4_F)) /\
  (exists lab, ready (image_view ex_img 0 4 3) lab ex4_F exP 600 ex4_mode2 (ex_s0 ex4_F)) /\ same_kind ex4_mode ex4_mode2.
Proof.
  exact (conj (ex4_ready exP ex4_mode exP_delta (or_intror (or_introl eq_refl)))
    (conj (ex4_ready exP ex4_mode2 exP_delta (or_intror (or_intror eq_refl))) I)).
Qed.

(* C12: reported regions are within the limits and are not the whole picture. *)
Theorem C12_reported_regions_respect_the_limits :
  forall V lab F P fuel m s0, ready V lab F P fuel m s0 ->
  forall b, exists s l n b', recognize fuel m P b s0 = Some (s, l, n, b') /\
  forall z, z ∈ l -> in_limits P (tab F) z /\ exists p, vw_in V p /\ ~ region_pixels V lab (tab F) z p.
Proof. exact limits_ok. Qed.
Print Assumptions C12_reported_regions_respect_the_limits.

Example C12_example : exists lab, ready (image_view ex_img 0 4 3) lab ex4_F exP 600 ex4_mode (ex_s0 ex4_F).
Proof. exact (ex4_ready exP ex4_mode exP_delta (or_intror (or_introl eq_refl))). Qed.

(* C13: with delta 0 (and a maximal variation that is not negative) every region in the
   limits is a candidate. *)
Theorem C13_delta_zero_keeps_all :
  forall V lab F P fuel m s0, ready V lab F P fuel m s0 ->
  forall b, p_delta P = 0%Z -> fgt fzero (p_stable P) = false ->
  exists s l b', candidates fuel m P b s0 = Some (s, l, b') /\ forall z, z ∈ l <-> in_limits P (tab F) z.
Proof. exact er_delta0. Qed.
Print Assumptions C13_delta_zero_keeps_all.

(* C13, continued: also with an unbounded maximal variation and similarity -1. *)
Theorem C13_unbounded_variation_keeps_all :
  forall V lab F P fuel m s0, ready V lab F P fuel m s0 ->
  forall d b, (p_delta P = Z.of_nat d)%Z -> p_stable P = flt_max -> fge (p_nms P) fzero = false ->
  exists s l b', candidates fuel m P b s0 = Some (s, l, b') /\ forall z, z ∈ l <-> in_limits P (tab F) z.
Proof. exact er_mode. Qed.
Print Assumptions C13_unbounded_variation_keeps_all.

(* C13, continued: with similarity -1 exactly the stable regions in the limits. *)
Theorem C13_negative_similarity_keeps_the_stable :
  forall V lab F P fuel m s0, ready V lab F P fuel m s0 ->
  forall d b var, (p_delta P = Z.of_nat d)%Z -> computes P m -> fge (p_nms P) fzero = false -> variations V lab F d var ->
  exists s l b', candidates fuel m P b s0 = Some (s, l, b') /\
    forall z, z ∈ l <-> in_limits P (tab F) z /\ fgt (var z) (p_stable P) = false.
Proof. exact ser_mode. Qed.
Print Assumptions C13_negative_similarity_keeps_the_stable.

Example C13_example :
  (exists lab, ready (image_view ex_img 0 4 3) lab ex4_F (RParam 0 (f32_of_int 3) f32_tenth f32_half 1 11) 600 ex4_mode (ex_s0 ex4_F)) /\
  (exists lab, ready (image_view ex_img 0 4 3) lab ex4_F (RParam 2 flt_max fminus1 f32_half 1 11) 600 ex4_mode (ex_s0 ex4_F)) /\
  fgt fzero (f32_of_int 3) = false /\ fge fminus1 fzero = false.
Proof.
  exact (conj (ex4_ready (RParam 0 (f32_of_int 3) f32_tenth f32_half 1 11) ex4_mode
      ltac:(vm_compute; split; [discriminate|reflexivity]) (or_intror (or_introl eq_refl)))
    (conj (ex4_ready (RParam 2 flt_max fminus1 f32_half 1 11) ex4_mode
      ltac:(vm_compute; split; [discriminate|reflexivity]) (or_intror (or_introl eq_refl))) (conj eq_refl eq_refl))).
Qed.

(* C14: the candidates are listed once each, by level and then in scan order, fit the
   buffer, and every region comes before its ancestors. *)
Theorem C14_candidates_are_ordered :
  forall V lab F P fuel m s0, ready V lab F P fuel m s0 ->
  forall b, exists s l b', candidates fuel m P b s0 = Some (s, l, b') /\
  NoDup l /\ StronglySorted (before F) l /\ length l <= cb_cap b' /\
  forall l1 x l2 y, l = l1 ++ x :: l2 -> y ∈ l -> vunder (tab F) x y -> x = y \/ y ∈ l2.
Proof. exact order_ok. Qed.
Print Assumptions C14_candidates_are_ordered.

Example C14_example : exists lab, ready (image_view ex_img 0 4 3) lab ex4_F exP 600 ex4_mode (ex_s0 ex4_F).
Proof. exact (ex4_ready exP ex4_mode exP_delta (or_intror (or_introl eq_refl))). Qed.

(* C15: with a threshold below 1, of two nested reported regions the larger exceeds the
   smaller by more than the threshold. *)
Theorem C15_reported_nested_regions_differ :
  forall V lab F P fuel m s0, ready V lab F P fuel m s0 ->
  forall b, below1 (p_dup P) -> exists s l n b', recognize fuel m P b s0 = Some (s, l, n, b') /\
  forall x y, x ∈ l -> y ∈ l -> x <> y ->
    (forall p, region_pixels V lab (tab F) x p -> region_pixels V lab (tab F) y p) ->
    exceeds (p_dup P) (region_pixels V lab (tab F) x) (region_pixels V lab (tab F) y).
Proof. exact apart_ok. Qed.
Print Assumptions C15_reported_nested_regions_differ.

(* C15, continued: a candidate that is not reported is nested with a reported one, and
   both are within the threshold of a common candidate inside them. *)
Theorem C15_removed_regions_are_duplicates :
  forall V lab F P fuel m s0, ready V lab F P fuel m s0 ->
  forall b, exists s l b1 s' l' n b2,
  candidates fuel m P b s0 = Some (s, l, b1) /\ recognize fuel m P b s0 = Some (s', l', n, b2) /\
  (forall z, z ∈ l' -> z ∈ l) /\
  forall z, z ∈ l -> z ∉ l' -> exists c r, c ∈ l /\ r ∈ l' /\
    (forall p, region_pixels V lab (tab F) c p -> region_pixels V lab (tab F) z p) /\
    (forall p, region_pixels V lab (tab F) c p -> region_pixels V lab (tab F) r p) /\
    ((forall p, region_pixels V lab (tab F) z p -> region_pixels V lab (tab F) r p) \/
     (forall p, region_pixels V lab (tab F) r p -> region_pixels V lab (tab F) z p)) /\
    within (p_dup P) (region_pixels V lab (tab F) c) (region_pixels V lab (tab F) z) /\
    within (p_dup P) (region_pixels V lab (tab F) c) (region_pixels V lab (tab F) r).
Proof. exact covered_ok. Qed.
Print Assumptions C15_removed_regions_are_duplicates.

Example C15_example : (exists lab, ready (image_view ex_img 0 4 3) lab ex4_F exP 600 ex4_mode (ex_s0 ex4_F)) /\ below1 (p_dup exP) /\
  exists s l b s' l' n b',
    candidates 600 ex4_mode exP (CBuf 0 0) (ex_s0 ex4_F) = Some (s, l, b) /\ length l = 6 /\
    recognize 600 ex4_mode exP (CBuf 0 0) (ex_s0 ex4_F) = Some (s', l', n, b') /\ n = 4.
Proof.
  exact (conj (ex4_ready exP ex4_mode exP_delta (or_intror (or_introl eq_refl))) (conj exP_below ex4_result)).
Qed.

(* C16: the reported number is the number of listed regions, each listed once, and the
   listed regions are exactly those flagged valid. *)
Theorem C16_reported_number_is_right :
  forall V lab F P fuel m s0, ready V lab F P fuel m s0 ->
  forall b, exists s l n b', recognize fuel m P b s0 = Some (s, l, n, b') /\ n = length l /\ NoDup l /\
  forall z, z ∈ l <-> exists a, sget s z = Some a /\ g_flag a = 2.
Proof. exact count_ok. Qed.
Print Assumptions C16_reported_number_is_right.

Example C16_example : exists lab, ready (image_view ex_img 0 4 3) lab ex4_F exP 600 One (ex_s0 ex4_F).
Proof. exact (ex4_ready exP One exP_delta (or_introl eq_refl)). Qed.

(* C23: whatever the state of the candidate buffer, sizing it makes room for all
   candidates of the call, up to 858993459 of them. *)
Theorem C23_candidate_buffer_has_room :
  forall b total, (N.of_nat total * 5 < 2 ^ 32)%N -> total <= cb_cap (size_buffer b total).
Proof. exact size_buffer_ok. Qed.
Print Assumptions C23_candidate_buffer_has_room.

Example C23_example : (N.of_nat 12 * 5 < 2 ^ 32)%N /\ size_buffer (CBuf 500 10) 12 = CBuf 12 11 /\ size_buffer (CBuf 500 3) 12 = CBuf 500 4.
Proof. exact (conj eq_refl (conj eq_refl eq_refl)). Qed.

(* C44 is false: for more candidates the product wraps around and a small buffer is kept. *)
Theorem C44_candidate_buffer_has_room_for_any_number_refuted :
  exists b total, cb_cap (size_buffer b total) < total.
Proof. exact buffer_wraps. Qed.
Print Assumptions C44_candidate_buffer_has_room_for_any_number_refuted.

(* C29: the reported pixel sets do not depend on how the regions are stored, on the
   version of recognition or on the schedules. *)
Theorem C29_reported_sets_do_not_depend_on_the_partitions :
  forall V lab1 lab2 F1 F2 P fuel m1 m2 s01 s02 b1 b2,
  ready V lab1 F1 P fuel m1 s01 -> ready V lab2 F2 P fuel m2 s02 -> sane P -> below1 (p_dup P) ->
  exists s1 l1 n1 c1 s2 l2 n2 c2,
    recognize fuel m1 P b1 s01 = Some (s1, l1, n1, c1) /\ recognize fuel m2 P b2 s02 = Some (s2, l2, n2, c2) /\
    n1 = n2 /\ forall S, reports V lab1 F1 l1 S <-> reports V lab2 F2 l2 S.
Proof. exact threads_free. Qed.
Print Assumptions C29_reported_sets_do_not_depend_on_the_partitions.

(* C29, continued: every run on an image meets the hypotheses, in both channels. *)
Theorem C29_runs_on_images :
  forall threads hpn vpn img cols rows n fuel P bs sched var0 b,
  grid_of threads = Some (hpn, vpn) -> image_fits hpn vpn img cols rows -> small_image cols rows ->
  allocated hpn vpn cols rows threads bs -> 6 * (rows * cols) < n -> rows * cols + 514 < fuel ->
  delta_ok P -> finishing sched ->
  (exists F os lab s l k b', detect n fuel threads 0 true img cols rows P bs sched var0 b = Some (F, os, s, l, k, b') /\
     ready (image_view img 0 cols rows) lab F P fuel (mode_of threads (rects hpn vpn cols rows) (sched F)) (RSt F var0 (fun _ => false)) /\
     recognize fuel (mode_of threads (rects hpn vpn cols rows) (sched F)) P b (RSt F var0 (fun _ => false)) = Some (s, l, k, b') /\
     forall os' b2 var2, all_reused (rects hpn vpn cols rows) os os' ->
     exists F2 os2 lab2 s2 l2 k2 b2', detect n fuel threads 255 false img cols rows P os' sched var2 b2 = Some (F2, os2, s2, l2, k2, b2') /\
       ready (image_view img 255 cols rows) lab2 F2 P fuel (mode_of threads (rects hpn vpn cols rows) (sched F2)) (RSt F2 var2 (fun _ => false)) /\
       recognize fuel (mode_of threads (rects hpn vpn cols rows) (sched F2)) P b2 (RSt F2 var2 (fun _ => false)) = Some (s2, l2, k2, b2')).
Proof. exact detect_ready. Qed.
Print Assumptions C29_runs_on_images.

Example C29_example :
  (grid_of 4 = Some (2, 2) /\ image_fits 2 2 ex_img 4 3 /\ small_image 4 3 /\ length (ex_bufs 2 2 4 3) = 4) /\
  (grid_of 32 = Some (8, 4) /\ image_fits 8 4 ex32_img 8 5 /\ small_image 8 5 /\ length (ex_bufs 8 4 8 5) = 32) /\
  delta_ok exP /\ sane exP /\ below1 (p_dup exP) /\ finishing in_turn.
Proof.
  exact (conj (conj eq_refl (conj ex4_fits (conj eq_refl eq_refl)))
    (conj (conj eq_refl (conj ex32_fits (conj eq_refl eq_refl)))
      (conj exP_delta (conj exP_sane (conj exP_below in_turn_ok))))).
Qed.

(* C30: reported regions are components of their level with brighter surroundings, and
   two of them are nested or disjoint. *)
Theorem C30_reported_regions_are_extremal_and_laminar :
  forall V lab F P fuel m s0, ready V lab F P fuel m s0 ->
  forall b, exists s l n b', recognize fuel m P b s0 = Some (s, l, n, b') /\
  (forall z, z ∈ l -> exists a, tab F z = Some a /\ extremal V (v_gray a) (region_pixels V lab (tab F) z) /\
     (forall p, region_pixels V lab (tab F) z p -> vw_in V p /\ vw_gray V p <= v_gray a) /\
     (forall p q, region_pixels V lab (tab F) z p -> vw_in V q -> vw_adj V p q -> ~ region_pixels V lab (tab F) z q ->
        v_gray a < vw_gray V q)) /\
  (forall x y, x ∈ l -> y ∈ l ->
     (forall p, region_pixels V lab (tab F) x p -> region_pixels V lab (tab F) y p) \/
     (forall p, region_pixels V lab (tab F) y p -> region_pixels V lab (tab F) x p) \/
     (forall p, ~ (region_pixels V lab (tab F) x p /\ region_pixels V lab (tab F) y p))).
Proof. exact extremal_ok. Qed.
Print Assumptions C30_reported_regions_are_extremal_and_laminar.

(* C30, continued: without duplicate removal the reported sets are exactly the stable
   extremal regions of the view. *)
Theorem C30_reported_regions_are_all_stable_regions :
  forall V lab F P fuel m s0 d b, ready V lab F P fuel m s0 -> (p_delta P = Z.of_nat d)%Z ->
  computes P m \/ fgt fzero (p_stable P) = false -> fge fzero (p_dup P) = true ->
  exists s l n b', recognize fuel m P b s0 = Some (s, l, n, b') /\
    (forall z, z ∈ l -> exists a, alive F z a /\ mser V P d (v_gray a) (region_pixels V lab (tab F) z)) /\
    forall g S, mser V P d g S -> reports V lab F l S.
Proof. exact reported_msers. Qed.
Print Assumptions C30_reported_regions_are_all_stable_regions.

Example C30_example :
  (exists lab, ready (image_view ex_img 0 4 3) lab ex4_F (RParam 1 (f32_of_int 3) f32_tenth fminus1 1 11) 600 ex4_mode (ex_s0 ex4_F)) /\
  fge fzero fminus1 = true.
Proof.
  exact (conj (ex4_ready (RParam 1 (f32_of_int 3) f32_tenth fminus1 1 11) ex4_mode
      ltac:(vm_compute; split; [discriminate|reflexivity]) (or_intror (or_introl eq_refl))) eq_refl).
Qed.

(* C42 holds for a similarity of at least zero: the four workers find the heaps of their
   partitions where they were, so the next channel has the whole room again. *)
Theorem C42_heaps_are_left_in_place :
  forall V lab F P fuel sched caps s0 b, ready V lab F P fuel (Four sched caps) s0 -> fge (p_nms P) fzero = true ->
  exists s l n b', recognize_4 fuel P sched caps b s0 = Some (s, l, n, b', caps).
Proof. exact heaps_kept. Qed.
Print Assumptions C42_heaps_are_left_in_place.

Example C42_example : (exists lab, ready (image_view ex_img 0 4 3) lab ex4_F exP 600 ex4_mode (ex_s0 ex4_F)) /\
  fge (p_nms exP) fzero = true.
Proof. exact (conj (ex4_ready exP ex4_mode exP_delta (or_intror (or_introl eq_refl))) eq_refl). Qed.

(* C42 is false for a negative similarity: on an image of 560 x 2 pixels the bright
   channel fits the heaps as allocated, but not what the dark channel leaves of them;
   the first worker to run is that of the last partition, so the write is behind the
   allocation. *)
Theorem C42_heaps_have_room_in_both_channels_refuted :
  image_fits 2 2 saw_img 560 2 /\
  two_channels (100 * 100) 2000 saw_img 560 2 saw_P saw_sched saw_caps (ex_bufs 2 2 560 2) =
    Some ([260; 258; 260; 260], true, false).
Proof. exact (conj saw_fits saw_run_eq). Qed.
Print Assumptions C42_heaps_have_room_in_both_channels_refuted.
