(* Small inputs for the properties of the drawn regions. *)
From stdpp Require Import sorting relations functions list_numbers list.
From Coq Require Import NArith ZArith SpecFloat.
From Verif Require Import Spec TreeSpec FloodModel FloodExamples ConnectModel ConnectProof PartModel WholeModel WholeCorrect JoinExamples
  FloatModel FloatFacts RecogModel RecogSpec RecogFinal RecogResults DetectModel Detect RecogExamples RectModel ExtractModel RunModel RunCorrect RunResults RunExamples
  V1JoinModel V1Model V1BuildModel V1AllocModel V1Build V1Alloc V1Comp V1Examples V1RecogModel V1Detect V1RecogExamples
  V1ExtractModel V1Copy V1Tops V1Extract V1ExtractExamples LinkedModel LinkedGrid LinkedInit LinkedCorrect LinkedExamples CvModel CvExtract CvCorrect CvResults CvExamples DrawModel Draw.
Local Open Scope nat_scope.

(* what is drawn of the records of Fast MSER V1: 1 is a pixel of the region *)
Definition k_draw {X Y Z} (o : option (X * Y * Z * kres)) : option (list (option (nat * nat * list nat))) :=
  match o with
  | Some (_, _, _, R) => Some (map (fun r => option_map (fun d => (pc_w d, pc_h d, pc_px d)) (draw_v1 1 0 R r)) (k_recs R))
  | None => None
  end.
Lemma exk_drawn : k_draw (ex_channel 4 2 2 0 exkP exk_img 6 4) = Some
  [Some (2, 2, [1; 1; 1; 0]); Some (2, 2, [1; 1; 1; 0]); Some (2, 2, [0; 1; 1; 1]); Some (3, 3, [0; 0; 0; 1; 1; 1; 0; 0; 0]); Some (2, 2, [1; 1; 1; 1])].
Proof. vm_compute. reflexivity. Qed.
(* and of CV-MSER+ *)
Definition cv_draw (o : option (cvres * cvres)) : option (list (option (nat * nat * list nat))) :=
  match o with
  | Some (R0, _) => Some (map (fun r => option_map (fun d => (pc_w d, pc_h d, pc_px d)) (draw_cv 1 0 R0 r)) (cv_ms R0))
  | None => None
  end.
Lemma cx_drawn : cv_draw (cv_call 100 (lcfgn false 3 3) true true lx_img 4 cxP (lalloc_buf 3 3 99) cx_chan cx_dirty) = Some
  [Some (1, 1, [1]); Some (1, 1, [1]); Some (1, 1, [1]); Some (3, 3, [1; 0; 0; 1; 1; 0; 1; 1; 1])].
Proof. vm_compute. reflexivity. Qed.

(* Fast MSER V2: of the region {(2,0),(2,1),(1,2),(2,2),(3,2)} four pixels are drawn *)
Lemma box_lost {A} (fg bg : A) R : r_ms R = [MRec 1 true 5 0 (Rect 1 0 2 3)] ->
  visit 1 R [0] = Some ([(2, 0); (2, 1); (1, 2); (2, 2); (3, 2)]%Z, [0]) ->
  draw_v2 fg bg R 0 = Some (Pic 2 3 [bg; fg; bg; fg; fg; fg]).
Proof. intros E1 E2. unfold draw_v2. rewrite E1. cbn [lookup list_lookup length]. rewrite E2. reflexivity. Qed.
Lemma box_clipped : exists R0 R1, call 4 2 2 box_img 10 4 exP 0 = Some (R0, R1) /\
  visit 1 R0 [0] = Some ([(2, 0); (2, 1); (1, 2); (2, 2); (3, 2)]%Z, [0]) /\
  draw_v2 true false R0 0 = Some (Pic 2 3 [false; true; false; true; true; true]).
Proof.
  destruct box_run as (R0 & R1 & H1 & H2 & H3). exact (ex_intro _ R0 (ex_intro _ R1 (conj H1 (conj H3 (box_lost true false R0 H2 H3))))).
Qed.
Lemma box_not_shown : ~ (forall threads hpn vpn img cols rows P R0 R1 L K, image_fits hpn vpn img cols rows ->
     call threads hpn vpn img cols rows P 0 = Some (R0, R1) -> visit (length (r_ms R0)) R0 [0] = Some (L, K) ->
     exists D r, draw_v2 true false R0 0 = Some D /\ shows true false D r (fun q => q ∈ L)).
Proof.
  intros H. destruct box_run as (R0 & R1 & H1 & H2 & H3).
  assert (visit (length (r_ms R0)) R0 [0] = Some ([(2, 0); (2, 1); (1, 2); (2, 2); (3, 2)]%Z, [0])) as H4 by (rewrite H2; exact H3).
  destruct (H _ _ _ _ _ _ _ _ _ _ _ box_fits H1 H4) as (D & r & ED & HD).
  rewrite (box_lost true false R0 H2 H3) in ED. injection ED as <-. clear H H1 H2 H3 H4.
  destruct HD as (mx & my & _ & _ & _ & _ & _ & _ & HD). cbn [pc_w pc_h] in HD.
  destruct (HD (1, 2)%Z) as (x1 & y1 & Hx1 & _ & E1). { right; right; left. }
  destruct (HD (3, 2)%Z) as (x2 & y2 & Hx2 & _ & E2). { right; right; right; right; left. }
  injection E1 as E1 _. injection E2 as E2 _. lia.
Qed.
