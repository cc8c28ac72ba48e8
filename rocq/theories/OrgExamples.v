(* Small inputs for the properties of the original implementation, and witnesses for the
   refutations. *)
From stdpp Require Import sorting relations functions list_numbers list.
From Coq Require Import NArith ZArith SpecFloat.
From Verif Require Import Spec TreeSpec JoinCorrect Grid WordBits FloodModel FloodInit FloodTree FloodCorrect FloodExamples WholeCorrect JoinExamples FloatModel RecogModel RecogSpec RecogTree RecogFinal
  RecogResults RecogExamples ExtractModel ExtractTop RunModel RunCorrect RunResults RunExamples RectModel LinkedModel LinkedGrid LinkedInit LinkedCorrect LinkedExamples CvModel CvExtract CvCorrect CvResults CvExamples
  MsResults MsExamples OrgModel OrgExtract OrgResults.
Local Open Scope nat_scope.

Lemma ox_hyps : limg_fits ex_img 4 4 3 /\ cv_modest 4 3 /\ delta_ok exP /\ (p_max exP < Z.of_nat (4 * 3))%Z /\ sane exP /\ below1 (p_dup exP).
Proof.
  split; [exact (mi_fits _ _ _ mx_image)|]. split; [done|]. split; [done|]. split; [done|]. split; [exact exP_sane|exact exP_below].
Qed.
Lemma ox_step : limg_fits lx_img 4 3 3 /\ cv_modest 3 3 /\ delta_ok cxP /\ (p_max cxP < Z.of_nat (3 * 3))%Z /\ sane cxP /\ below1 (p_dup cxP).
Proof. destruct cx_hyps as (H1 & H2 & H3 & H4 & H5). split; [exact H1|]. split; [exact H2|]. split; [exact H3|]. split; [done|]. split; [exact H4|exact H5]. Qed.
Lemma ox_zero : let P := RParam 1 (f32_of_int 3) f32_tenth fzero 1 11 in
  (p_delta P = Z.of_nat 1)%Z /\ fge fzero (p_dup P) = true /\ delta_ok P /\ sane P /\ below1 (p_dup P) /\ (p_max P < Z.of_nat (4 * 3))%Z.
Proof. split; [done|]. split; [done|]. split; [done|]. split; [by left|]. split; [done|done]. Qed.

(* the records of a call: level, size, list of pixels, rectangle *)
Definition o_show1 (l : list orec) : list (N * nat * list (Z * Z) * rect) := map (fun c => (q_gray c, q_size c, q_pts c, q_rect c)) l.
Definition o_show (o : option (list orec * list orec * oobj)) : option (list (N * nat * list (Z * Z) * rect) * list (N * nat * list (Z * Z) * rect)) :=
  match o with Some (r0, r1, _) => Some (o_show1 r0, o_show1 r1) | None => None end.
(* a call with eight neighbours *)
Lemma ox_call : o_show (o_extract 14 true true true ex_img 4 4 3 exP o_new) = Some
  ([(0%N, 1%nat, [(1, 2)], Rect 1 2 1 1); (1%N, 2%nat, [(2, 0); (3, 1)], Rect 2 0 2 2);
    (7%N, 9%nat, [(0, 1); (2, 2); (3, 2); (3, 0); (1, 0); (1, 1); (2, 0); (3, 1); (1, 2)], Rect 0 0 4 3)],
   [(9%N, 1%nat, [(2, 1)], Rect 2 1 1 1); (9%N, 1%nat, [(0, 0)], Rect 0 0 1 1); (7%N, 3%nat, [(0, 1); (0, 0); (0, 2)], Rect 0 0 1 3);
    (1%N, 11%nat, [(3, 1); (1, 1); (1, 0); (0, 1); (0, 0); (0, 2); (3, 0); (3, 2); (2, 1); (2, 2); (2, 0)], Rect 0 0 4 3)])%Z.
Proof. vm_compute. reflexivity. Qed.
Definition o_len (o : option (list orec * list orec * oobj)) (k0 k1 : nat) : Prop :=
  match o with Some (r0, r1, _) => length r0 = k0 /\ length r1 = k1 | None => False end.
Lemma o_len_inv (o : option (list orec * list orec * oobj)) k0 k1 : o_len o k0 k1 ->
  exists r0 r1 ob, o = Some (r0, r1, ob) /\ length r0 = k0 /\ length r1 = k1.
Proof. unfold o_len. destruct o as [[[r0 r1] ob]|]; [eauto 6|done]. Qed.
Lemma ox_len : o_len (o_extract 14 false true true ex_img 4 4 3 exP o_new) 4 5.
Proof. vm_compute. split; reflexivity. Qed.
Lemma ox_len8 : o_len (o_extract 14 true true true ex_img 4 4 3 exP o_new) 3 4.
Proof. vm_compute. split; reflexivity. Qed.
Lemma ox_res gm : gm = 0%N \/ gm = 255%N -> exists l, o_result false ex_img gm 4 4 3 exP l /\ length l = if (gm =? 0)%N then 4 else 5.
Proof.
  intros Hgm. destruct (o_len_inv _ _ _ ox_len) as (r0 & r1 & ob & E & H).
  exists (if (gm =? 0)%N then r0 else r1). split; [|destruct Hgm as [->| ->]; apply H].
  exists 14, true, true, o_new, r0, r1, ob. split; [clear; lia|]. split; [right; reflexivity|]. split; [exact E|]. destruct Hgm as [->| ->]; split; reflexivity.
Qed.

(* an image of 2 x 2 pixels after one of 4 x 3 *)
Definition twice_img1 : list N := [9; 0; 9; 9;  9; 9; 9; 9;  9; 9; 9; 9]%N.
Definition twice_img2 : list N := [0; 5; 5; 9]%N.
Definition twiceP : rparam := RParam 1 (f32_of_int 3) f32_tenth f32_tenth 1 3.
Definition twice (n : nat) : option (list orec * list orec * oobj) :=
  match o_extract n false true false twice_img1 4 4 3 twiceP o_new with
  | Some (_, _, ob) => o_extract n false true false twice_img2 2 2 2 twiceP ob
  | None => None
  end.
Lemma twice_call : o_show (twice 14) = Some
  ([(0%N, 1%nat, [(-1, 1)], Rect (-1) 1 1 1); (0%N, 1%nat, [(0, 0)], Rect 0 0 1 1); (5%N, 3%nat, [(0, 1); (1, 0); (0, 0)], Rect 0 0 2 2);
    (0%N, 0%nat, [], Rect 0 0 0 0)], [])%Z.
Proof. vm_compute. reflexivity. Qed.
Lemma twice_new : o_show (o_extract 14 false true false twice_img2 2 2 2 twiceP o_new) = Some
  ([(0%N, 1%nat, [(0, 0)], Rect 0 0 1 1); (5%N, 3%nat, [(0, 1); (1, 0); (0, 0)], Rect 0 0 2 2)], [])%Z.
Proof. vm_compute. reflexivity. Qed.
Lemma show_first (o : option (list orec * list orec * oobj)) g k q L r l' x : o_show o = Some ((g, k, q :: L, r) :: l', x) ->
  exists r0 r1 ob c, o = Some (r0, r1, ob) /\ r0 !! 0 = Some c /\ q ∈ q_pts c.
Proof.
  unfold o_show. destruct o as [[[[|c r0] r1] ob]|]; try done. cbn. intros H. injection H as _ _ H _ _ _.
  exists (c :: r0), r1, ob, c. split; [reflexivity|]. split; [reflexivity|]. rewrite H. apply elem_of_list_here.
Qed.
Lemma twice_inv n r : twice n = Some r -> exists r0 r1 ob, o_extract n false true false twice_img1 4 4 3 twiceP o_new = Some (r0, r1, ob) /\
  o_extract n false true false twice_img2 2 2 2 twiceP ob = Some r.
Proof.
  unfold twice. destruct (o_extract n false true false twice_img1 4 4 3 twiceP o_new) as [[[r0 r1] ob]|]; intros H; [|discriminate H].
  exists r0, r1, ob. split; [reflexivity|exact H].
Qed.
Lemma twice_fits : limg_fits twice_img1 4 4 3 /\ limg_fits twice_img2 2 2 2 /\ cv_modest 4 3 /\ cv_modest 2 2 /\ delta_ok twiceP /\ sane twiceP /\ below1 (p_dup twiceP).
Proof.
  split; [constructor; try (vm_compute; lia); by apply bytes_ok|]. split; [constructor; try (vm_compute; lia); by apply bytes_ok|].
  split; [done|]. split; [done|]. split; [done|]. split; [by left|done].
Qed.
Lemma reuse_refuted : ~ forall src step w h src' step' w' h' P n r0 r1 ob s0 s1 ob', limg_fits src step w h -> limg_fits src' step' w' h' ->
  cv_modest w h -> cv_modest w' h' -> delta_ok P -> sane P -> below1 (p_dup P) -> w * h + 1 < n -> w' * h' + 1 < n ->
  o_extract n false true false src step w h P o_new = Some (r0, r1, ob) -> o_extract n false true false src' step' w' h' P ob = Some (s0, s1, ob') ->
  forall j rc q, s0 !! j = Some rc -> q ∈ q_pts rc -> (0 <= q.1 < Z.of_nat w' /\ 0 <= q.2 < Z.of_nat h')%Z.
Proof.
  intros H. destruct (show_first _ _ _ _ _ _ _ _ twice_call) as (s0 & s1 & ob' & c & E & Hc & Hq). apply twice_inv in E as (r0 & r1 & ob & E1 & E2).
  destruct twice_fits as (H1 & H2 & H3 & H4 & H5 & H6 & H7).
  assert (0 <= (-1, 1).1 < Z.of_nat 2 /\ 0 <= (-1, 1).2 < Z.of_nat 2)%Z as [Hx _]; [|clear - Hx; cbn in Hx; lia].
  apply (H twice_img1 4 4 3 twice_img2 2 2 2 twiceP 14 r0 r1 ob s0 s1 ob' H1 H2 H3 H4 H5 H6 H7) with (j := 0) (rc := c);
    [clear; lia|clear; lia|exact E1|exact E2|exact Hc|exact Hq].
Qed.

(* the whole image among the records *)
Definition wholeP : rparam := RParam 1 (f32_of_int 3) f32_tenth f32_tenth 1 12.
Definition chk_size (o : option (list orec * list orec * oobj)) (j k : nat) : Prop :=
  match o with Some (r0, _, _) => q_size <$> r0 !! j = Some k | None => False end.
Lemma chk_size_inv (o : option (list orec * list orec * oobj)) j k : chk_size o j k ->
  exists r0 r1 ob rc, o = Some (r0, r1, ob) /\ r0 !! j = Some rc /\ q_size rc = k.
Proof. unfold chk_size. destruct o as [[[r0 r1] ob]|]; [|done]. intros H. destruct (r0 !! j) as [rc|] eqn:E; [|done]. injection H as <-. eauto 8. Qed.
Lemma ox_whole : chk_size (o_extract 14 false true true ex_img 4 4 3 wholeP o_new) 6 12.
Proof. vm_compute. reflexivity. Qed.
Lemma whole_hyps : limg_fits ex_img 4 4 3 /\ cv_modest 4 3 /\ delta_ok wholeP /\ sane wholeP /\ below1 (p_dup wholeP).
Proof. split; [exact (proj1 ox_hyps)|]. split; [done|]. split; [done|]. split; [by left|done]. Qed.
Lemma whole_refuted : ~ forall src step w h P l, limg_fits src step w h -> cv_modest w h -> delta_ok P -> sane P -> below1 (p_dup P) ->
  o_result false src 0 step w h P l -> forall j rc, l !! j = Some rc -> q_size rc < w * h.
Proof.
  intros H. destruct (chk_size_inv _ _ _ ox_whole) as (r0 & r1 & ob & rc & E & Hj & Hs).
  assert (q_size rc < 4 * 3) as Hlt; [|clear - Hlt Hs; cbn in Hlt; lia].
  destruct whole_hyps as (H1 & H2 & H3 & H4 & H5). apply (H ex_img 4 4 3 wholeP r0 H1 H2 H3 H4 H5) with (j := 6); [|exact Hj].
  exists 14, true, true, o_new, r0, r1, ob. split; [clear; lia|]. split; [right; reflexivity|]. split; [exact E|]. split; reflexivity.
Qed.
