(* Small inputs for the properties of MS-MSER results, and witnesses for the refutations. *)
From stdpp Require Import sorting relations functions list_numbers list.
From Coq Require Import NArith ZArith SpecFloat.
From Verif Require Import Spec TreeSpec JoinCorrect Grid WordBits FloodModel FloodInit FloodTree FloodCorrect FloodExamples WholeCorrect JoinExamples FloatModel RecogModel RecogSpec RecogTree RecogFinal
  RecogResults RecogExamples ExtractModel RunModel RunCorrect RunResults RunExamples RectModel LinkedModel LinkedGrid LinkedInit LinkedCorrect LinkedExamples CvModel CvExtract CvCorrect CvResults CvExamples
  MsModel MsTop MsResults.
Local Open Scope nat_scope.

Definition mx_chan : mschan := MsChan (fun _ => fzero) (fun _ => None) id.
Definition mx_dirty : mschan := MsChan (fun i => f32_of_int (Z.of_nat i - 5)) (fun _ => Some 3%Z) (map (fun _ => Some 77)).
Lemma mx_fair : ms_fair mx_chan /\ ms_fair mx_dirty.
Proof. split; intros q; [done|]. apply map_length. Qed.
Lemma mx_image : ms_image ex_img 4 3.
Proof.
  constructor.
  - constructor; try (vm_compute; lia). by apply bytes_ok.
  - unfold modest_image. vm_compute. done.
  - exists 200. split; [lia|]. intros p Hp. apply (in_rect_nodes 4 0 0 4 3 (fun _ => 0)) in Hp; [|lia].
    assert (Forall (fun p => level ex_img 0 p <> 200) (rect_nodes 4 0 0 4 3)) as HF by (apply (bool_decide_unpack _); vm_compute; done).
    rewrite Forall_forall in HF. by apply HF.
Qed.
Lemma mx_hyps : ms_image ex_img 4 3 /\ delta_ok exP /\ dup_number exP /\ sane exP /\ below1 (p_dup exP).
Proof. split; [exact mx_image|]. split; [done|]. split; [by left|]. split; [exact exP_sane|exact exP_below]. Qed.

(* the records of a call: level, whether the points are shared, list of pixels, rectangle *)
Definition ms_show1 (R : mres) : list (N * bool * option (list (Z * Z)) * rect) :=
  imap (fun j c => (ms_gray c, ms_share c, fst <$> ms_visit (length (r_ms R)) R [j], ms_rect c)) (r_ms R).
Definition ms_show (o : option (mres * mres)) : option (list (N * bool * option (list (Z * Z)) * rect) * list (N * bool * option (list (Z * Z)) * rect)) :=
  match o with Some (R0, R1) => Some (ms_show1 R0, ms_show1 R1) | None => None end.
Lemma mx_call : ms_show (ms_call 100 4 3 true ex_img exP 0 (ms_alloc 4 3 99) mx_chan mx_dirty) = Some
  ([(0%N, true, Some [(1, 2)], Rect 1 2 1 1); (1%N, true, Some [(2, 0)], Rect 2 0 1 1); (1%N, true, Some [(3, 1)], Rect 3 1 1 1);
    (7%N, false, Some [(1, 0); (3, 0); (0, 1); (1, 1); (2, 2); (3, 2); (3, 1); (2, 0); (1, 2)], Rect 0 0 4 3)],
   [(9%N, true, Some [(0, 0)], Rect 0 0 1 1); (9%N, true, Some [(2, 1)], Rect 2 1 1 1); (7%N, false, Some [(0, 1); (0, 2); (0, 0)], Rect 0 0 1 3);
    (3%N, true, Some [(3, 0)], Rect 3 0 1 1);
    (1%N, false, Some [(1, 0); (2, 0); (1, 1); (3, 1); (2, 2); (3, 2); (3, 0); (0, 1); (0, 2); (0, 0); (2, 1)], Rect 0 0 4 3)])%Z.
Proof. vm_compute. reflexivity. Qed.
Definition chk_len (o : option (mres * mres)) (k0 k1 : nat) : Prop :=
  match o with Some (R0, R1) => length (r_ms R0) = k0 /\ length (r_ms R1) = k1 | None => False end.
Lemma mx_len : chk_len (ms_call 100 4 3 true ex_img exP 0 (ms_alloc 4 3 99) mx_chan mx_dirty) 4 5.
Proof. vm_compute. split; reflexivity. Qed.
Lemma call_len (o : option (mres * mres)) k0 k1 : chk_len o k0 k1 ->
  exists R0 R1, o = Some (R0, R1) /\ length (r_ms R0) = k0 /\ length (r_ms R1) = k1.
Proof. unfold chk_len. destruct o as [[R0 R1]|]; [eauto|done]. Qed.
Lemma mx_res gm : gm = 0%N \/ gm = 255%N -> exists R, ms_result ex_img gm 4 3 exP R /\ length (r_ms R) = if (gm =? 0)%N then 4 else 5.
Proof.
  intros Hgm. destruct (call_len _ _ _ mx_len) as (R0 & R1 & E & H).
  exists (if (gm =? 0)%N then R0 else R1). split; [|destruct Hgm as [->| ->]; apply H].
  exists 100, 0%Z, (ms_alloc 4 3 99), mx_chan, mx_dirty, R0, R1. split; [lia|]. split; [apply ms_alloc_ok|]. split; [apply mx_fair|]. split; [exact E|reflexivity].
Qed.
Lemma mx_zero : let P := RParam 1 (f32_of_int 3) f32_tenth fzero 1 11 in (p_delta P = Z.of_nat 1)%Z /\ fge fzero (p_dup P) = true /\ delta_ok P /\ dup_number P /\ sane P.
Proof. split; [done|]. split; [done|]. split; [done|]. split; [by right|by left]. Qed.

(* the first bright record of a 3 x 3 image in rows of 4 bytes has the level of a byte
   between the rows *)
Definition chk_rec (o : option (mres * mres)) (g : N) : Prop :=
  match o with Some (_, R1) => ms_gray <$> r_ms R1 !! 0 = Some g | None => False end.
Lemma mx_step : chk_rec (ms_call 100 3 3 true lx_img cxP 0 (ms_alloc 3 3 99) mx_chan mx_chan) 200%N.
Proof. vm_compute. reflexivity. Qed.
Lemma call_rec (o : option (mres * mres)) g : chk_rec o g ->
  exists R0 R1 rc, o = Some (R0, R1) /\ r_ms R1 !! 0 = Some rc /\ ms_gray rc = g.
Proof. unfold chk_rec. destruct o as [[R0 R1]|]; [|done]. intros H. destruct (r_ms R1 !! 0) as [rc|] eqn:E; [|done]. injection H as <-. eauto 6. Qed.
Lemma step_refuted : ~ forall src step w h P n thr b c0 c1 R0 R1, limg_fits src step w h -> modest_image w h -> delta_ok P -> dup_number P ->
  6 * (w * h) < n -> buf_alloc w h b -> ms_fair c0 -> ms_call n w h true src P thr b c0 c1 = Some (R0, R1) ->
  forall j rc, r_ms R1 !! j = Some rc -> exists p, in_rect step 0 0 w h p /\ src !! p = Some (ms_gray rc).
Proof.
  intros H. destruct (call_rec _ _ mx_step) as (R0 & R1 & rc & E & Hj & Hg).
  destruct (H lx_img 4 3 3 cxP 100 0%Z (ms_alloc 3 3 99) mx_chan mx_chan R0 R1) with (j := 0) (rc := rc) as (p & Hp & Hv).
  - exact lx_fits.
  - unfold modest_image. vm_compute. reflexivity.
  - exact (proj1 (proj2 (proj2 cx_hyps))).
  - left. vm_compute. reflexivity.
  - cbn. lia.
  - apply ms_alloc_ok.
  - apply mx_fair.
  - exact E.
  - exact Hj.
  - clear H E Hj. rewrite Hg in Hv. apply (in_rect_nodes 4 0 0 3 3 (fun _ => 0)) in Hp; [|lia].
    assert (Forall (fun p => lx_img !! p <> Some 200%N) (rect_nodes 4 0 0 3 3)) as HF by (apply (bool_decide_unpack _); vm_compute; done).
    rewrite Forall_forall in HF. by apply (HF p).
Qed.

(* a call for bright regions alone: the tree of a row of four pixels has a region of seven *)
Definition sizes (o : fres) : list nat := match o with FTree r _ => map m_size r | _ => [] end.
Lemma mx_alone : sizes (ms_build 100 4 1 255 true bright_img (ms_alloc 4 1 0)) = [3; 5; 7].
Proof. vm_compute. reflexivity. Qed.
Lemma tree_sizes (o : fres) a b c : sizes o = [a; b; c] ->
  exists r0 r1 r2 b', o = FTree [r0; r1; r2] b' /\ m_size r2 = c.
Proof. destruct o as [[|r0 [|r1 [|r2 [|r3 regs]]]] b'| |]; try done. intros [= H0 H1 H2]. eauto 6. Qed.
Lemma alone_refuted : exists w h img b regs b' r, ms_image img w h /\ buf_alloc w h b /\ ms_build 100 w h 255 true img b = FTree regs b' /\
  r ∈ regs /\ w * h < m_size r.
Proof.
  destruct (tree_sizes _ _ _ _ mx_alone) as (r0 & r1 & r2 & b' & E & H2).
  exists 4, 1, bright_img, (ms_alloc 4 1 0), [r0; r1; r2], b', r2. split; [|split; [apply ms_alloc_ok|split; [exact E|split]]].
  - constructor.
    + constructor; try (vm_compute; lia). by apply bytes_ok.
    + unfold modest_image. vm_compute. done.
    + exists 200. split; [lia|]. intros p Hp. apply (in_rect_nodes 4 0 0 4 1 (fun _ => 0)) in Hp; [|lia].
      assert (Forall (fun p => level bright_img 0 p <> 200) (rect_nodes 4 0 0 4 1)) as HF by (apply (bool_decide_unpack _); vm_compute; done).
      rewrite Forall_forall in HF. by apply HF.
  - clear E. do 2 right. left.
  - clear E. lia.
Qed.
(* a row with all 256 grey values *)
Lemma all_levels : exists w h img b, limg_fits img w w h /\ modest_image w h /\ buf_alloc w h b /\
  forall n, 2000 <= n -> ms_build n w h 0 true img b = FUB.
Proof.
  exists 256, 1, desc_img, (ms_alloc 256 1 0). split; [|split; [|split; [apply ms_alloc_ok|]]].
  - destruct desc_fits. constructor; auto; lia.
  - unfold modest_image. vm_compute. done.
  - intros n Hn. unfold ms_build. eapply make_tree_ub; [|exact Hn]. vm_compute. done.
Qed.
