(* Small inputs for the properties of the OpenCV-style extraction, and witnesses for the
   refutations. *)
From stdpp Require Import sorting relations functions list_numbers list.
From Coq Require Import NArith ZArith SpecFloat.
From Verif Require Import FloodModel FloatModel RectModel RecogModel RecogExamples FloodExamples OcvModel LinkedCorrect Oc2Model Oc2Spec.
Local Open Scope nat_scope.

(* level sets of 1, 5, 6, 7, 14 and 15 pixels *)
Definition wx_img : list N := [0;1;1;1;1; 2;3;4;4;4; 4;4;4;4;5]%N.
(* the same with dark and bright exchanged *)
Definition wx_neg : list N := [255;254;254;254;254; 253;252;251;251;251; 251;251;251;251;250]%N.
(* two dark parts that a brighter pixel separates *)
Definition wx_two : list N := [0;1;1;1;1;2;3;5;0;5;4;4;4;4;4;4;4;5;6]%N.
Definition wxP : rparam := RParam 1 (f32_of_int 3) f32_tenth f32_tenth 1 100.

Lemma wx_fits : limg_fits wx_img 5 5 3 /\ limg_fits wx_neg 5 5 3 /\ limg_fits wx_two 19 19 1.
Proof. repeat split; try (vm_compute; lia); by apply bytes_ok. Qed.
Lemma wx_bufs : wbuf_ok 5 3 (walloc 5 3 7 3) /\ wbuf_ok 5 3 (walloc 5 3 0 0) /\ wbuf_ok 19 1 (walloc 19 1 7 3).
Proof. repeat split; vm_compute; lia. Qed.
Lemma wx_gap : stepgap 5 = 3 /\ stepgap 19 = 5.
Proof. by vm_compute. Qed.

(* the records of a call: size, points, rectangle, level *)
Definition w_show1 (l : list wmser) : list (nat * list (Z * Z) * rect * nat) := map (fun c => (wm_size c, wm_pts c, wm_rect c, wm_level c)) l.
Definition w_show (o : option (list wmser * list wmser)) := match o with Some (r0, r1) => Some (w_show1 r0, w_show1 r1) | None => None end.
Lemma show_inv1 o k L r g l1 : w_show o = Some ([], (k, L, r, g) :: l1) -> exists c r1, o = Some ([], c :: r1) /\ wm_pts c = L /\ wm_level c = g.
Proof.
  unfold w_show. destruct o as [[[|c0 r0] [|c r1]]|]; try done. cbn. intros H. injection H as _ H1 _ H2 _. exists c, r1. split; [reflexivity|]. split; [exact H1|exact H2].
Qed.
Lemma show_inv0 o k L r g l0 l1 : w_show o = Some ((k, L, r, g) :: l0, l1) -> exists c r0 r1, o = Some (c :: r0, r1) /\ wm_pts c = L /\ wm_level c = g.
Proof.
  unfold w_show. destruct o as [[[|c r0] r1]|]; try done. cbn. intros H. injection H as _ H1 _ H2 _ _. exists c, r0, r1. split; [reflexivity|]. split; [exact H1|exact H2].
Qed.

(* calls with the shift that fits the width: the bright pixels are in the first list *)
Lemma wx_call : w_show (w_call 300 wx_img 5 5 3 wxP 3 true true (walloc 5 3 7 3)) = Some
  ([], [(7%nat, [(0, 0); (1, 0); (2, 0); (3, 0); (4, 0); (0, 1); (1, 1)], Rect 0 0 5 2, 251%nat)])%Z.
Proof. vm_compute. reflexivity. Qed.
Lemma wx_call_neg : w_show (w_call 300 wx_neg 5 5 3 wxP 3 true true (walloc 5 3 7 3)) = Some
  ([(7%nat, [(0, 0); (1, 0); (2, 0); (3, 0); (4, 0); (0, 1); (1, 1)], Rect 0 0 5 2, 4%nat)], [])%Z.
Proof. vm_compute. reflexivity. Qed.
Lemma wx_call_two : w_show (w_call 300 wx_two 19 19 1 wxP 5 true true (walloc 19 1 7 3)) = Some
  ([], [(8%nat, [(0, 0); (1, 0); (2, 0); (3, 0); (4, 0); (5, 0); (6, 0); (8, 0)], Rect 0 0 9 1, 250%nat)])%Z.
Proof. vm_compute. reflexivity. Qed.
(* with another shift two pixels get the same coordinates *)
Lemma wx_call_gap : w_show (w_call 300 wx_img 5 5 3 wxP 4 true true (walloc 5 3 7 3)) = Some
  ([], [(7%nat, [(0, 0); (1, 0); (2, 0); (3, 0); (4, 0); (0, 0); (1, 0)], Rect 0 0 5 1, 251%nat)])%Z.
Proof. vm_compute. reflexivity. Qed.

Lemma gap_refuted : ~ forall src step w h P gap n dark bright b r0 r1, limg_fits src step w h -> wbuf_ok w h b -> (0 <= gap < 32)%Z ->
  w_call n src step w h P gap dark bright b = Some (r0, r1) ->
  forall rc, rc ∈ r0 ++ r1 -> NoDup (wm_pts rc) /\ Forall (in_image w h) (wm_pts rc).
Proof.
  intros H. destruct (show_inv1 _ _ _ _ _ _ wx_call_gap) as (c & r1 & E & HL & _).
  destruct (H wx_img 5 5 3 wxP 4%Z 300 true true (walloc 5 3 7 3) [] (c :: r1) (proj1 wx_fits) (proj1 wx_bufs) ltac:(lia) E c) as [Hd _]; [apply elem_of_list_here|].
  rewrite HL in Hd. clear - Hd. apply NoDup_cons in Hd as [Hd _]. apply Hd. do 4 right. left.
Qed.

Lemma piece_refuted : ~ forall src step w h P n dark bright b r0 r1, limg_fits src step w h -> wbuf_ok w h b ->
  w_call n src step w h P (Z.of_nat (stepgap w)) dark bright b = Some (r0, r1) ->
  forall rc, rc ∈ r0 ++ r1 -> one_piece (wm_pts rc).
Proof.
  intros H. destruct (show_inv1 _ _ _ _ _ _ wx_call_two) as (c & r1 & E & HL & _).
  assert (one_piece (wm_pts c)) as Hp.
  { eapply (H wx_two 19 19 1 wxP 300 true true (walloc 19 1 7 3) [] (c :: r1) (proj2 (proj2 wx_fits)) (proj2 (proj2 wx_bufs))); [|apply elem_of_list_here].
    rewrite (proj2 wx_gap). exact E. }
  rewrite HL in Hp. clear - Hp. specialize (Hp (8, 0)%Z (0, 0)%Z ltac:(do 7 right; left) ltac:(left)).
  inversion Hp as [|? y ? (_ & Hy & Ht) _]. subst. unfold touching in Ht. cbn [fst snd] in Ht.
  repeat (apply elem_of_cons in Hy as [->|Hy]; [cbn in Ht; lia|]). by apply elem_of_nil in Hy.
Qed.

Lemma dark_refuted : ~ forall src step w h P n dark bright b r0 r1, limg_fits src step w h -> wbuf_ok w h b ->
  w_call n src step w h P (Z.of_nat (stepgap w)) dark bright b = Some (r0, r1) ->
  forall rc p q, rc ∈ r0 -> p ∈ wm_pts rc -> q ∉ wm_pts rc -> in_image w h q -> touching p q -> (value_at src step p < value_at src step q)%N.
Proof.
  intros H. destruct (show_inv0 _ _ _ _ _ _ _ wx_call_neg) as (c & r0 & r1 & E & HL & _).
  assert (value_at wx_neg 5 (1, 1)%Z < value_at wx_neg 5 (2, 1)%Z)%N as Hlt; [|clear - Hlt; vm_compute in Hlt; discriminate Hlt].
  eapply (H wx_neg 5 5 3 wxP 300 true true (walloc 5 3 7 3) (c :: r0) r1 (proj1 (proj2 wx_fits)) (proj1 wx_bufs)) with (rc := c).
  - rewrite (proj1 wx_gap). exact E.
  - apply elem_of_list_here.
  - rewrite HL. clear. do 6 right. left.
  - rewrite HL. clear. intros Hin. repeat (apply elem_of_cons in Hin as [Hin|Hin]; [discriminate Hin|]). by apply elem_of_nil in Hin.
  - clear. unfold in_image. cbn. lia.
  - clear. unfold touching. cbn. lia.
Qed.

Lemma level_refuted : ~ forall src step w h P n dark bright b r0 r1, limg_fits src step w h -> wbuf_ok w h b ->
  w_call n src step w h P (Z.of_nat (stepgap w)) dark bright b = Some (r0, r1) ->
  forall rc, rc ∈ r0 ++ r1 -> exists p, p ∈ wm_pts rc /\ value_at src step p = N.of_nat (wm_level rc).
Proof.
  intros H. destruct (show_inv1 _ _ _ _ _ _ wx_call) as (c & r1 & E & HL & Hg).
  destruct (H wx_img 5 5 3 wxP 300 true true (walloc 5 3 7 3) [] (c :: r1) (proj1 wx_fits) (proj1 wx_bufs)) with (rc := c) as (p & Hp & Hv).
  - rewrite (proj1 wx_gap). exact E.
  - apply elem_of_list_here.
  - rewrite HL in Hp. rewrite Hg in Hv. clear - Hp Hv.
    repeat (apply elem_of_cons in Hp as [->|Hp]; [vm_compute in Hv; discriminate Hv|]). by apply elem_of_nil in Hp.
Qed.

(* a record within a later one *)
Definition wx_nest : list N := [0;1;1;1;1;2;3;4;4;4;4;4;4;4;5;6;7;7;7;7;7;7;7;7;7;7;7;7;7;7;7;7;7;7;7;8]%N.
(* two records without a common pixel *)
Definition wx_side : list N := [0;1;1;1;1;2;3;4;4;4;4;4;4;4;9;0;1;1;1;1;2;3;4;4;4;4;4;4;4;9;10;11;12;13;13;13;13;13;13;13;13;13;13;13;13;13;13]%N.
Lemma wx_fits2 : limg_fits wx_nest 36 36 1 /\ limg_fits wx_side 47 47 1.
Proof. repeat split; try (vm_compute; lia); by apply bytes_ok. Qed.
Lemma wx_bufs2 : wbuf_ok 36 1 (walloc 36 1 7 3) /\ wbuf_ok 47 1 (walloc 47 1 7 3).
Proof. repeat split; vm_compute; lia. Qed.
Lemma wx_call_nest : w_show (w_call 300 wx_nest 36 36 1 wxP 6 true true (walloc 36 1 7 3)) = Some
  ([], [(7%nat, [(0, 0); (1, 0); (2, 0); (3, 0); (4, 0); (5, 0); (6, 0)], Rect 0 0 7 1, 251%nat);
        (16%nat, [(0, 0); (1, 0); (2, 0); (3, 0); (4, 0); (5, 0); (6, 0); (7, 0); (8, 0); (9, 0); (10, 0); (11, 0); (12, 0); (13, 0); (14, 0); (15, 0)], Rect 0 0 16 1, 248%nat)])%Z.
Proof. vm_compute. reflexivity. Qed.
Lemma wx_call_side : w_show (w_call 300 wx_side 47 47 1 wxP 6 true true (walloc 47 1 7 3)) = Some
  ([], [(7%nat, [(0, 0); (1, 0); (2, 0); (3, 0); (4, 0); (5, 0); (6, 0)], Rect 0 0 7 1, 251%nat);
        (14%nat, [(15, 0); (16, 0); (17, 0); (18, 0); (19, 0); (20, 0); (21, 0); (22, 0); (23, 0); (24, 0); (25, 0); (26, 0); (27, 0); (28, 0)], Rect 15 0 14 1, 246%nat)])%Z.
Proof. vm_compute. reflexivity. Qed.

(* a component that grows from 11 to 23 pixels in the level before it is merged *)
Definition wx_grow : list N := [13;8;8;8;8;8;8;8;8;9;10;11;12;12;12;12;12;12;12;12;12;12;12;12;13;13;13;13;13;13;13;13;14]%N.
(* as wxP, with m_stable_variation 0.5 *)
Definition wxS : rparam := RParam 1 f32_half f32_tenth f32_tenth 1 100.
Definition wx_grown : list (Z * Z) := [(1,0);(2,0);(3,0);(4,0);(5,0);(6,0);(7,0);(8,0);(9,0);(10,0);(11,0);(12,0);(13,0);(14,0);(15,0);(16,0);(17,0);(18,0);(19,0);(20,0);(21,0);(22,0);(23,0)]%Z.
Lemma wx_fits3 : limg_fits wx_grow 33 33 1 /\ wbuf_ok 33 1 (walloc 33 1 7 3) /\ stepgap 33 = 6.
Proof. split; [|split]; [repeat split; try (vm_compute; lia); by apply bytes_ok|repeat split; vm_compute; lia|vm_compute; reflexivity]. Qed.
Lemma wx_call_grow : w_show (w_call 300 wx_grow 33 33 1 wxS 6 true true (walloc 33 1 7 3)) = Some ([], [(23%nat, wx_grown, Rect 1 0 23 1, 242%nat)])%Z.
Proof. vm_compute. reflexivity. Qed.
Lemma show_size1 o k L r g : w_show o = Some ([], [(k, L, r, g)]) -> exists c, o = Some ([], [c]) /\ wm_pts c = L /\ wm_size c = k.
Proof. unfold w_show. destruct o as [[[|c0 r0] [|c [|c' r1]]]|]; try done. cbn. intros H. injection H as H1 H2 _ _. exists c. auto. Qed.
Lemma wx_below : map (fun q => value_at wx_grow 33 q) wx_grown = [8;8;8;8;8;8;8;8;9;10;11;12;12;12;12;12;12;12;12;12;12;12;12]%N.
Proof. vm_compute. reflexivity. Qed.
Lemma wx_growth : fgt (f64_of_f32 f32_half) (f64_growth 23 11) = false.
Proof. vm_compute. reflexivity. Qed.
Lemma growth_refuted : ~ forall src step w h P n dark bright b r0 r1, limg_fits src step w h -> wbuf_ok w h b ->
  w_call n src step w h P (Z.of_nat (stepgap w)) dark bright b = Some (r0, r1) ->
  forall rc, rc ∈ r1 -> grows_little src step P rc.
Proof.
  intros H. destruct wx_fits3 as (Hf & Hb & Hg). destruct (show_size1 _ _ _ _ _ wx_call_grow) as (c & E & HL & Hs).
  specialize (H wx_grow 33 33 1 wxS 300 true true (walloc 33 1 7 3) [] [c] Hf Hb). rewrite Hg in H. specialize (H E c (elem_of_list_here _ _)).
  clear E Hf Hb Hg. unfold grows_little in H. rewrite HL, Hs in H. specialize (H (23, 0)%Z). cbv zeta in H.
  assert (length (filter (fun q => (Z.of_N (value_at wx_grow 33 q) + p_delta wxS <= Z.of_N (value_at wx_grow 33 (23, 0)%Z))%Z) wx_grown) = 11) as Hk by (vm_compute; reflexivity).
  rewrite Hk in H. change (p_stable wxS) with f32_half in H. rewrite wx_growth in H. discriminate H.
  - unfold wx_grown. do 22 right. left.
  - change (value_at wx_grow 33 (23, 0)%Z) with 12%N. intros q Hq. apply elem_of_list_In, (in_map (fun q => value_at wx_grow 33 q)), elem_of_list_In in Hq. rewrite wx_below in Hq.
    generalize dependent (value_at wx_grow 33 q). intros v Hq.
    repeat (apply elem_of_cons in Hq as [->|Hq]; [done|]). by apply elem_of_nil in Hq.
  - lia.
Qed.
