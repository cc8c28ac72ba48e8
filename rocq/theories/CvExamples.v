(* Small inputs for the properties of CV-MSER+ results. *)
From stdpp Require Import sorting relations functions list_numbers list.
From Coq Require Import NArith ZArith SpecFloat.
From Verif Require Import Spec TreeSpec FloodModel FloodExamples WholeCorrect JoinExamples FloatModel RecogModel RecogSpec RecogTree RecogFinal RecogResults RecogExamples
  ExtractModel RunModel RunCorrect RunExamples RectModel LinkedModel LinkedGrid LinkedInit LinkedCorrect LinkedExamples CvModel CvExtract CvCorrect CvResults.
Local Open Scope nat_scope.

Definition cx_chan : cvchan := CvChan (fun _ => fzero) id.
Definition cx_dirty : cvchan := CvChan (fun i => f32_of_int (Z.of_nat i - 5)) (map (fun _ => Some 77)).
Definition cxP : rparam := RParam 1 (f32_of_int 3) f32_tenth f32_half 1 8.
Definition cxP0 : rparam := RParam 1 (f32_of_int 3) f32_tenth fzero 1 8.
Lemma cx_fair : fair_dirt cx_chan /\ fair_dirt cx_dirty.
Proof. split; intros h; [done|]. apply map_length. Qed.
Lemma cx_hyps : limg_fits lx_img 4 3 3 /\ cv_modest 3 3 /\ delta_ok cxP /\ sane cxP /\ below1 (p_dup cxP).
Proof. split; [exact lx_fits|]. split; [done|]. split; [done|]. split; [by left|done]. Qed.

(* the records of a call: level, list of pixels, rectangle *)
Definition cv_show (o : option (cvres * cvres)) : option (list (Z * option (list (Z * Z)) * rect) * list (Z * option (list (Z * Z)) * rect)) :=
  match o with
  | Some (R0, R1) => Some (map (fun m => (Z.of_nat (cr_gray m), cv_read R0 m, cr_rect m)) (cv_ms R0), map (fun m => (Z.of_nat (cr_gray m), cv_read R1 m, cr_rect m)) (cv_ms R1))
  | None => None
  end.
Lemma cx_call4 : cv_show (cv_call 100 (lcfgn false 3 3) true true lx_img 4 cxP (lalloc_buf 3 3 99) cx_chan cx_dirty) = Some
  ([(5, Some [(0, 0)], Rect 0 0 1 1); (5, Some [(1, 1)], Rect 1 1 1 1); (6, Some [(2, 2)], Rect 2 2 1 1);
    (8, Some [(1, 2); (0, 2); (0, 1); (0, 0); (1, 1); (2, 2)], Rect 0 0 3 3)],
   [(9, Some [(2, 1); (2, 0); (1, 0)], Rect 1 0 2 2); (6, Some [(2, 2); (2, 1); (2, 0); (1, 0); (0, 1); (0, 2); (1, 2)], Rect 0 0 3 3)])%Z.
Proof. vm_compute. reflexivity. Qed.
Lemma cx_call8 : cv_show (cv_call 100 (lcfgn true 3 3) true true lx_img 4 cxP (lalloc_buf 3 3 99) cx_dirty cx_chan) = Some
  ([(5, Some [(1, 1); (0, 0)], Rect 0 0 2 2); (7, Some [(0, 1); (0, 2); (2, 2); (1, 1); (0, 0)], Rect 0 0 3 3)],
   [(9, Some [(2, 0); (2, 1); (1, 0)], Rect 1 0 2 2); (7, Some [(0, 1); (0, 2); (1, 2); (2, 0); (2, 1); (1, 0)], Rect 0 0 3 3)])%Z.
Proof. vm_compute. reflexivity. Qed.
Lemma cx_res e gm : gm = 0%N \/ gm = 255%N -> exists R, cv_result e lx_img gm 4 3 3 cxP R.
Proof. intros Hgm. destruct cx_hyps as (H1 & H2 & H3 & _). destruct (one_result e lx_img gm 4 3 3 H1 Hgm H2 cxP H3) as (R & HR & _). eauto. Qed.

(* both implementations on the same image *)
Lemma cx_both : (exists R0 R1, call 4 2 2 ex_img 4 3 exP 0 = Some (R0, R1) /\ length (r_ms R0) = 4 /\ length (r_ms R1) = 5) /\
  exists R0 R1, cv_call 100 (lcfgn false 4 3) true true ex_img 4 exP (lalloc_buf 4 3 99) cx_chan cx_dirty = Some (R0, R1) /\
    length (cv_ms R0) = 4 /\ length (cv_ms R1) = 5.
Proof. split; vm_compute; (eexists _, _; split; [reflexivity|]; split; reflexivity). Qed.
Lemma cx_zero : (p_delta cxP = Z.of_nat 1)%Z /\ fge fzero (p_dup cxP0) = true /\ delta_ok cxP0 /\ sane cxP0.
Proof. split; [done|]. split; [done|]. split; [done|by left]. Qed.
