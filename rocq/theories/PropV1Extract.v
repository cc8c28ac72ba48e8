(* Property theorems about extracting pixels in Fast MSER V1
   (img_fast_mser_v1.cpp:2645-2661, 2867-3204). *)
From stdpp Require Import sorting relations functions list.
From Coq Require Import NArith ZArith SpecFloat.
From Verif Require Import Spec TreeSpec FloodModel FloodExamples ConnectModel ConnectProof PartModel WholeModel WholeCorrect JoinExamples
  FloatModel FloatFacts RecogModel RecogSpec RecogFinal RecogResults DetectModel Detect RecogExamples RectModel ExtractModel CopyModel RunModel RunCorrect RunResults RunExamples
  V1JoinModel V1Model V1BuildModel V1AllocModel V1Build V1Alloc V1Comp V1Examples V1RecogModel V1Detect V1RecogExamples
  V1ExtractModel V1Copy V1Tops V1Extract V1ExtractExamples.
Local Open Scope nat_scope.

(* C71: if the least size of a region is at least 2 and the number of threads less one,
   a run of one channel succeeds under all schedules of recognition and of the copying; the
   memory holds different pixels without gaps; each record can be read and lists a stable
   extremal region with its size, its smallest rectangle and its greatest (bright: least)
   value; nested ones differ by more than the threshold and every stable extremal region is
   listed or a duplicate. The same in the bright pass on the buffers of the dark one. *)
Theorem C71_v1_records_hold_the_stable_regions :
  forall threads hpn vpn img cols rows n fuel m pinfo P sched,
  v1_call threads hpn vpn img cols rows n fuel m pinfo P sched -> below1 (p_dup P) -> sizes_ok threads P ->
  forall d gm var0 xsched, (p_delta P = Z.of_nat d)%Z -> gm = 0%N \/ gm = 255%N -> copies threads cols rows xsched ->
  exists bs F os l R, valloc threads cols rows m pinfo = Some bs /\
    v1_channel n fuel threads gm true img cols rows P bs sched xsched var0 = Some (F, os, l, R) /\
    k_result img gm cols rows P d R /\
    (gm = 0%N -> forall os' var2 xsched2, Forall2 v1_kept os os' -> copies threads cols rows xsched2 -> exists F2 os2 l2 R2,
       v1_channel n fuel threads 255 false img cols rows P os' sched xsched2 var2 = Some (F2, os2, l2, R2) /\
       k_result img 255 cols rows P d R2).
Proof. exact v1_channel_run. Qed.
Print Assumptions C71_v1_records_hold_the_stable_regions.

Example C71_example :
  v1_call 4 2 2 exk_img 6 4 300 600 (ex_mem 4 2 2 6 4) (ex_pinfo 4) exkP in_turn /\ below1 (p_dup exkP) /\ sizes_ok 4 exkP /\
  (p_delta exkP = Z.of_nat 1)%Z /\ copies 4 6 4 (by_turns 4 6 4) /\
  k_brief (ex_channel 4 2 2 0 exkP exk_img 6 4) = Some (13,
    [(KRec 3 (Rect 0 0 2 2) 0 (Some 10), Some [(1, 0); (0, 1); (0, 0)]);
     (KRec 3 (Rect 3 0 2 2) 1 (Some 0), Some [(4, 0); (3, 1); (3, 0)]);
     (KRec 3 (Rect 4 2 2 2) 2 (Some 3), Some [(5, 2); (5, 3); (4, 3)]);
     (KRec 3 (Rect 0 3 3 1) 3 (Some 6), Some [(2, 3); (1, 3); (0, 3)]);
     (KRec 4 (Rect 0 0 2 2) 5 (Some 9), Some [(1, 1); (1, 0); (0, 1); (0, 0)])]).
Proof. exact (conj exk_call4 (conj exkP_below (conj (proj2 (proj2 exk_sizes)) (conj eq_refl (conj (by_turns_ok 4 6 4) exk_run))))). Qed.

(* C72: the records, their order and the memory are the same under all schedules of
   recognition and of the copying, whatever variations were left in the regions. *)
Theorem C72_v1_result_does_not_depend_on_the_schedules :
  forall threads hpn vpn img cols rows n fuel m pinfo P sched0 gm,
  v1_call threads hpn vpn img cols rows n fuel m pinfo P sched0 ->
  gm = 0%N \/ gm = 255%N -> below1 (p_dup P) -> (0 <= p_delta P)%Z -> sizes_ok threads P ->
  exists bs F os l R, valloc threads cols rows m pinfo = Some bs /\
    forall sched xsched var0, finishing sched -> copies threads cols rows xsched ->
    v1_channel n fuel threads gm true img cols rows P bs sched xsched var0 = Some (F, os, l, R).
Proof. exact v1_channel_same. Qed.
Print Assumptions C72_v1_result_does_not_depend_on_the_schedules.

Example C72_example :
  v1_call 4 2 2 exk_img 6 4 300 600 (ex_mem 4 2 2 6 4) (ex_pinfo 4) exkP in_turn /\ below1 (p_dup exkP) /\ (0 <= p_delta exkP)%Z /\
  sizes_ok 4 exkP /\ finishing in_turn /\ copies 4 6 4 (by_turns 4 6 4).
Proof. exact (conj exk_call4 (conj exkP_below (conj (Zle_0_pos 1) (conj (proj2 (proj2 exk_sizes)) (conj in_turn_ok (by_turns_ok 4 6 4)))))). Qed.

(* C73: two thread numbers give the same number of records, listing the same sets. *)
Theorem C73_v1_records_do_not_depend_on_the_threads :
  forall threads hpn vpn threads' hpn' vpn' img cols rows n fuel n' fuel' m pinfo m' pinfo' P sched sched' xsched xsched' var0 var0' gm,
  v1_call threads hpn vpn img cols rows n fuel m pinfo P sched ->
  v1_call threads' hpn' vpn' img cols rows n' fuel' m' pinfo' P sched' -> below1 (p_dup P) -> gm = 0%N \/ gm = 255%N ->
  (0 <= p_delta P)%Z -> sizes_ok threads P -> sizes_ok threads' P -> copies threads cols rows xsched -> copies threads' cols rows xsched' ->
  exists bs bs' F os l R F' os' l' R', valloc threads cols rows m pinfo = Some bs /\ valloc threads' cols rows m' pinfo' = Some bs' /\
    v1_channel n fuel threads gm true img cols rows P bs sched xsched var0 = Some (F, os, l, R) /\
    v1_channel n' fuel' threads' gm true img cols rows P bs' sched' xsched' var0' = Some (F', os', l', R') /\
    length (k_recs R) = length (k_recs R') /\ forall S, (exists i, k_lists cols R i S) <-> exists i, k_lists cols R' i S.
Proof. exact v1_channels_agree. Qed.
Print Assumptions C73_v1_records_do_not_depend_on_the_threads.

Example C73_example :
  v1_call 2 2 1 exk_img 6 4 300 600 (ex_mem 2 2 1 6 4) (ex_pinfo 2) exkP in_turn /\
  v1_call 4 2 2 exk_img 6 4 300 600 (ex_mem 4 2 2 6 4) (ex_pinfo 4) exkP in_turn /\ below1 (p_dup exkP) /\ (0 <= p_delta exkP)%Z /\
  (sizes_ok 1 exkP /\ sizes_ok 2 exkP /\ sizes_ok 4 exkP) /\ copies 2 6 4 (by_turns 2 6 4) /\ copies 4 6 4 (by_turns 4 6 4).
Proof. exact (conj exk_call2 (conj exk_call4 (conj exkP_below (conj (Zle_0_pos 1) (conj exk_sizes (conj (by_turns_ok 2 6 4) (by_turns_ok 4 6 4))))))). Qed.

(* C74: the records of V1 with any number of threads list the sets that those of V2 with
   four partitions list. *)
Theorem C74_v1_and_v2_records_list_the_same :
  forall threads hpn vpn img cols rows n fuel m pinfo P sched xsched var0 gm fuel' c b R2,
  v1_call threads hpn vpn img cols rows n fuel m pinfo P sched -> below1 (p_dup P) -> gm = 0%N \/ gm = 255%N ->
  (0 <= p_delta P)%Z -> sizes_ok threads P -> copies threads cols rows xsched ->
  image_fits 2 2 img cols rows -> channel_result img gm cols rows fuel' P c b R2 ->
  exists bs F os l R, valloc threads cols rows m pinfo = Some bs /\
    v1_channel n fuel threads gm true img cols rows P bs sched xsched var0 = Some (F, os, l, R) /\
    length (k_recs R) = length (r_ms R2) /\ forall S, (exists i, k_lists cols R i S) <-> exists j, lists_record cols R2 j S.
Proof. exact v1_v2_records. Qed.
Print Assumptions C74_v1_and_v2_records_list_the_same.

(* the last hypothesis is met by what a run of V2 returns (C17) *)
Example C74_example :
  v1_call 4 2 2 exk_img 6 4 300 600 (ex_mem 4 2 2 6 4) (ex_pinfo 4) exkP in_turn /\ below1 (p_dup exkP) /\ (0 <= p_delta exkP)%Z /\
  sizes_ok 4 exkP /\ copies 4 6 4 (by_turns 4 6 4) /\ image_fits 2 2 exk_img 6 4 /\
  exists R2, channel_result exk_img 0 6 4 700 exkP (plain (rects 2 2 6 4)) (CBuf 0 0) R2.
Proof. exact (conj exk_call4 (conj exkP_below (conj (Zle_0_pos 1) (conj (proj2 (proj2 exk_sizes)) (conj (by_turns_ok 4 6 4) (conj exk_fits exk_v2)))))). Qed.

(* C75 is false: without the condition on the least size a reported region can be left to
   no worker; its record refers to memory that was not written. With 32 threads this
   concerns the default least size 20: the last of 33 top regions is not dealt. *)
Theorem C75_v1_every_record_can_be_read_refuted :
  (v1_call 4 2 2 lost_img 6 4 300 600 (ex_mem 4 2 2 6 4) (ex_pinfo 4) lostP in_turn /\ below1 (p_dup lostP) /\ copies 4 6 4 (by_turns 4 6 4) /\
   exists bs F os l R r,
   valloc 4 6 4 (ex_mem 4 2 2 6 4) (ex_pinfo 4) = Some bs /\
   v1_channel 300 600 4 0 true lost_img 6 4 lostP bs in_turn (by_turns 4 6 4) (fun _ => fzero) = Some (F, os, l, R) /\
   k_recs R !! 4 = Some r /\ k_read (k_mem R) r = None) /\
  (Forall (fun z => 20 <= z) lost_sizes /\ length lost_sizes = 33 /\
   forall i, i ∈ fst (v1_plan 32 (sum_list lost_sizes / 32) lost_sizes 0 0 (sum_list lost_sizes / 32) 0 (replicate 32 0) (replicate 32 0)) -> i < 32).
Proof. exact (conj (conj lost_call (conj lost_below (conj (by_turns_ok 4 6 4) lost_bad))) lost_plan). Qed.
Print Assumptions C75_v1_every_record_can_be_read_refuted.

(* C76: with one thread the first and the last offset of each record delimit the pixels of
   a stable extremal region, with its size and its greatest (bright: least) value; the rest
   as in C71. *)
Theorem C76_v1_one_thread_offsets_delimit_the_regions :
  forall threads hpn vpn img cols rows n fuel m pinfo P sched,
  v1_call threads hpn vpn img cols rows n fuel m pinfo P sched -> below1 (p_dup P) -> sizes_ok threads P ->
  forall d gm var0, (p_delta P = Z.of_nat d)%Z -> gm = 0%N \/ gm = 255%N -> threads = 1 -> 2 * (rows * cols) <= fuel ->
  exists bs F os l O, valloc 1 cols rows m pinfo = Some bs /\
    v1_channel_1 n fuel gm true img cols rows P bs sched var0 = Some (F, os, l, O) /\
    o_result img gm cols rows P d O /\
    (gm = 0%N -> forall os' var2, Forall2 v1_kept os os' -> exists F2 os2 l2 O2,
       v1_channel_1 n fuel 255 false img cols rows P os' sched var2 = Some (F2, os2, l2, O2) /\
       o_result img 255 cols rows P d O2).
Proof. exact v1_channel_one. Qed.
Print Assumptions C76_v1_one_thread_offsets_delimit_the_regions.

Example C76_example :
  v1_call 1 1 1 exk_img 6 4 300 600 (ex_mem 1 1 1 6 4) (ex_pinfo 1) exkP in_turn /\ below1 (p_dup exkP) /\ sizes_ok 1 exkP /\
  (p_delta exkP = Z.of_nat 1)%Z /\
  o_brief (ex_channel_1 0 exkP exk_img 6 4) = Some (
    [Some (3, 1); Some (3, 0); Some (4, 0); Some (5, 2); Some (5, 3); Some (4, 3); Some (2, 3); Some (0, 3); Some (1, 3);
     Some (1, 1); Some (1, 0); Some (0, 1); Some (0, 0)],
    [ORec 3 0 (Some 10) (Some 12); ORec 3 1 (Some 0) (Some 2); ORec 3 2 (Some 3) (Some 5); ORec 3 3 (Some 6) (Some 8); ORec 4 5 (Some 9) (Some 12)]).
Proof. exact (conj exk_call1 (conj exkP_below (conj (proj1 exk_sizes) (conj eq_refl exk_run1)))). Qed.
