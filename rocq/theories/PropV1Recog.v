(* Property theorems about recognition in Fast MSER V1
   (img_fast_mser_v1.cpp:2412-2643, 3432-3469). *)
From stdpp Require Import sorting relations functions list.
From Coq Require Import NArith ZArith SpecFloat.
From Verif Require Import Spec TreeSpec FloodModel FloodExamples ConnectModel ConnectProof PartModel WholeModel WholeCorrect JoinExamples
  FloatModel FloatFacts RecogModel RecogSpec RecogResults DetectModel Detect RecogExamples
  V1JoinModel V1Model V1BuildModel V1AllocModel V1Build V1Alloc V1Comp V1Examples V1RecogModel V1Detect V1RecogExamples.
Local Open Scope nat_scope.

(* C66: for every thread number and every schedule of the workers the candidates of V1 are,
   one to one, the stable extremal regions of the image (limits, maximal variation,
   suppression), in the order of levels, and pointers to them fit in the heap array; the
   same in the bright pass on the buffers of the dark one. *)
Theorem C66_v1_candidates_are_the_stable_extremal_regions :
  forall threads hpn vpn img cols rows n fuel m pinfo P sched,
  v1_call threads hpn vpn img cols rows n fuel m pinfo P sched ->
  forall d gm var0, (p_delta P = Z.of_nat d)%Z -> gm = 0%N \/ gm = 255%N ->
  exists bs F os s l, valloc threads cols rows m pinfo = Some bs /\
    vbuild n fuel threads gm true img cols rows bs = Some (F, os) /\
    v1_candidates threads P (sched (forest_of F)) (h_size threads cols rows) (recog_start F var0) = Some (s, l) /\
    v1_stable img gm cols rows P d (h_size threads cols rows) F (vb_pts <$> os) l /\
    (gm = 0%N -> forall os' var2, Forall2 v1_kept os os' -> exists F2 os2 s2 l2,
       vbuild n fuel threads 255 false img cols rows os' = Some (F2, os2) /\
       v1_candidates threads P (sched (forest_of F2)) (h_size threads cols rows) (recog_start F2 var2) = Some (s2, l2) /\
       v1_stable img 255 cols rows P d (h_size threads cols rows) F2 (vb_pts <$> os2) l2).
Proof. exact v1_candidates_run. Qed.
Print Assumptions C66_v1_candidates_are_the_stable_extremal_regions.

Example C66_example :
  v1_call 4 2 2 ex_img 4 3 100 600 (ex_mem 4 2 2 4 3) (ex_pinfo 4) exP in_turn /\
  v1_call 32 8 4 ex32_img 8 5 300 600 (ex_mem 32 8 4 8 5) (ex_pinfo 32) exP in_turn /\ (p_delta exP = Z.of_nat 1)%Z.
Proof. exact (conj ex_call4 (conj ex_call32 eq_refl)). Qed.

(* C67: with a duplicate threshold below 1 the regions reported by V1 are counted right,
   each is a stable extremal region and is reported once, nested ones differ by more than
   the threshold, and every stable extremal region is reported or a duplicate. *)
Theorem C67_v1_reports_stable_regions_without_duplicates :
  forall threads hpn vpn img cols rows n fuel m pinfo P sched,
  v1_call threads hpn vpn img cols rows n fuel m pinfo P sched ->
  forall d gm var0, (p_delta P = Z.of_nat d)%Z -> below1 (p_dup P) -> gm = 0%N \/ gm = 255%N ->
  exists bs F os s l k, valloc threads cols rows m pinfo = Some bs /\
    v1_detect n fuel threads gm true img cols rows P bs sched var0 = Some (F, os, s, l, k) /\
    v1_result img gm cols rows P d F (vb_pts <$> os) l k /\
    (gm = 0%N -> forall os' var2, Forall2 v1_kept os os' -> exists F2 os2 s2 l2 k2,
       v1_detect n fuel threads 255 false img cols rows P os' sched var2 = Some (F2, os2, s2, l2, k2) /\
       v1_result img 255 cols rows P d F2 (vb_pts <$> os2) l2 k2).
Proof. exact v1_detect_run. Qed.
Print Assumptions C67_v1_reports_stable_regions_without_duplicates.

Example C67_example :
  v1_call 4 2 2 ex_img 4 3 100 600 (ex_mem 4 2 2 4 3) (ex_pinfo 4) exP in_turn /\
  (p_delta exP = Z.of_nat 1)%Z /\ below1 (p_dup exP) /\
  v1_brief (ex_detect 4 2 2 exP ex_img 4 3) = Some ([(2, 2, 0, 1, 2); (1, 0, 1, 1, 2); (3, 1, 1, 1, 2); (2, 0, 7, 9, 2)], 4).
Proof. exact (conj ex_call4 (conj eq_refl (conj exP_below ex_detect4))). Qed.

(* C68: two thread numbers, schedules and initial memories give the same number of
   regions and the same sets of pixels with the same levels. *)
Theorem C68_v1_reports_do_not_depend_on_the_threads :
  forall threads hpn vpn threads' hpn' vpn' img cols rows n fuel n' fuel' m pinfo m' pinfo' P sched sched' var0 var0' gm,
  v1_call threads hpn vpn img cols rows n fuel m pinfo P sched ->
  v1_call threads' hpn' vpn' img cols rows n' fuel' m' pinfo' P sched' -> below1 (p_dup P) -> gm = 0%N \/ gm = 255%N ->
  exists bs bs' F os s l k F' os' s' l' k', valloc threads cols rows m pinfo = Some bs /\ valloc threads' cols rows m' pinfo' = Some bs' /\
    v1_detect n fuel threads gm true img cols rows P bs sched var0 = Some (F, os, s, l, k) /\
    v1_detect n' fuel' threads' gm true img cols rows P bs' sched' var0' = Some (F', os', s', l', k') /\
    k = k' /\ forall g S, v1_reports cols F (vb_pts <$> os) l g S <-> v1_reports cols F' (vb_pts <$> os') l' g S.
Proof. exact v1_detect_agree. Qed.
Print Assumptions C68_v1_reports_do_not_depend_on_the_threads.

Example C68_example :
  v1_call 1 1 1 ex_img 4 3 100 600 (ex_mem 1 1 1 4 3) (ex_pinfo 1) exP in_turn /\
  v1_call 8 4 2 ex_img 4 3 100 600 (ex_mem 8 4 2 4 3) (ex_pinfo 8) exP in_turn /\ below1 (p_dup exP) /\
  v1_brief (ex_detect 1 1 1 exP ex_img 4 3) = Some ([(0, 4, 0, 1, 2); (0, 2, 1, 1, 2); (0, 3, 1, 1, 2); (0, 6, 7, 9, 2)], 4).
Proof. exact (conj ex_call1 (conj ex_call8 (conj exP_below ex_detect1))). Qed.

(* C69: V1 and V2 report the same number of regions and the same sets of pixels, for any
   two thread numbers they support. *)
Theorem C69_v1_and_v2_report_the_same :
  forall threads hpn vpn img cols rows n fuel m pinfo P sched var0 threads' hpn' vpn' n' fuel' bs' sched' var0' b,
  v1_call threads hpn vpn img cols rows n fuel m pinfo P sched -> below1 (p_dup P) ->
  grid_of threads' = Some (hpn', vpn') -> image_fits hpn' vpn' img cols rows ->
  allocated hpn' vpn' cols rows threads' bs' -> 6 * (rows * cols) < n' -> rows * cols + 514 < fuel' -> finishing sched' ->
  exists bs F os s l k F' os' lab s' l' k' b',
    valloc threads cols rows m pinfo = Some bs /\
    v1_detect n fuel threads 0 true img cols rows P bs sched var0 = Some (F, os, s, l, k) /\
    detect n' fuel' threads' 0 true img cols rows P bs' sched' var0' b = Some (F', os', s', l', k', b') /\
    ctree (image_view img 0 cols rows) lab (tab F') /\ k = k' /\
    forall S, (exists g, v1_reports cols F (vb_pts <$> os) l g S) <-> reports (image_view img 0 cols rows) lab F' l' S.
Proof. exact v1_v2_detect. Qed.
Print Assumptions C69_v1_and_v2_report_the_same.

Example C69_example :
  v1_call 8 4 2 ex_img 4 3 100 600 (ex_mem 8 4 2 4 3) (ex_pinfo 8) exP in_turn /\ below1 (p_dup exP) /\
  grid_of 4 = Some (2, 2) /\ image_fits 2 2 ex_img 4 3 /\ allocated 2 2 4 3 4 (ex_bufs 2 2 4 3) /\ finishing in_turn.
Proof. exact (conj ex_call8 (conj exP_below (conj eq_refl (conj ex4_fits (conj (conj eq_refl (ex_bufs_ok 2 2 4 3)) in_turn_ok))))). Qed.

(* C70 is false: with a duplicate threshold of 2 a region flagged as a duplicate is counted
   and reported. *)
Theorem C70_v1_any_threshold_reports_valid_regions_refuted :
  v1_call 1 1 1 twice_img 8 1 300 600 (ex_mem 1 1 1 8 1) (ex_pinfo 1) twiceP in_turn /\
  exists bs F os s l x a,
  valloc 1 8 1 (ex_mem 1 1 1 8 1) (ex_pinfo 1) = Some bs /\
  v1_detect 300 600 1 0 true twice_img 8 1 twiceP bs in_turn (fun _ => fzero) = Some (F, os, s, l, 2) /\
  x ∈ l /\ sget s x = Some a /\ g_flag a = 1.
Proof. exact (conj twice_call twice_bad). Qed.
Print Assumptions C70_v1_any_threshold_reports_valid_regions_refuted.
