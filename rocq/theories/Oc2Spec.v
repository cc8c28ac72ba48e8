(* SPEC: what is asked of the records of the OpenCV-style extraction. *)
From stdpp Require Import sorting relations functions list_numbers list.
From Coq Require Import NArith ZArith SpecFloat.
From Verif Require Import FloodModel FloatModel RectModel RecogModel UtilFacts LinkedCorrect Oc2Model.
Local Open Scope nat_scope.

(* SPEC: buffers as after allocate_memory (img_opencv_mser.cpp:373-403), for an image of
   w x h pixels, with any contents *)
Record wbuf_ok (w h : nat) (b : wbuf) : Prop := {
  wk_img : length (wb_img b) = wide w * (h + 2);
  wk_heap : length (wb_heap b) = w * h + 256;
  wk_hs : length (wb_hs b) = 256;
  wk_first : wb_hs b !! 0 = Some 0
}.
(* SPEC: two pixels side by side or one above the other *)
Definition touching (p q : Z * Z) : Prop := (Z.abs (p.1 - q.1) + Z.abs (p.2 - q.2) = 1)%Z.
(* SPEC: a pixel of an image of w x h pixels *)
Definition in_image (w h : nat) (p : Z * Z) : Prop := (0 <= p.1 < Z.of_nat w /\ 0 <= p.2 < Z.of_nat h)%Z.
(* SPEC: the byte of the image at p; [step] bytes per row *)
Definition value_at (src : list N) (step : nat) (p : Z * Z) : N := default 0%N (src !! (Z.to_nat p.2 * step + Z.to_nat p.1)).
(* SPEC: any two pixels of the list are joined by a path within it *)
Definition one_piece (l : list (Z * Z)) : Prop :=
  forall p q, p ∈ l -> q ∈ l -> rtc (fun x y => x ∈ l /\ y ∈ l /\ touching x y) p q.
(* SPEC: p and q are joined by a path of pixels of the image whose values satisfy ok *)
Definition joined (src : list N) (step w h : nat) (ok : N -> Prop) (p q : Z * Z) : Prop :=
  rtc (fun x y => touching x y /\ in_image w h x /\ in_image w h y /\ ok (value_at src step x) /\ ok (value_at src step y)) p q.
(* SPEC: what holds of every record: its points are different pixels of the image, as many as
   its size says and the parameters allow; its rectangle is the smallest one with them; their
   values satisfy ok, and any two are joined by a path of pixels with such values *)
Record wrec_ok (src : list N) (step w h : nat) (P : rparam) (ok : N -> Prop) (rc : wmser) : Prop := {
  wo_some : wm_pts rc <> [];
  wo_nd : NoDup (wm_pts rc);
  wo_in : Forall (in_image w h) (wm_pts rc);
  wo_size : wm_size rc = length (wm_pts rc);
  wo_range : (p_min P <= Z.of_nat (wm_size rc) <= p_max P)%Z;
  wo_rect : hull (fun x y => (x, y) ∈ wm_pts rc) (wm_rect rc);
  wo_val : Forall (fun p => ok (value_at src step p)) (wm_pts rc);
  wo_join : forall p q, p ∈ wm_pts rc -> q ∈ wm_pts rc -> joined src step w h ok p q
}.
(* SPEC: an earlier record a and a later one b have no pixel in common, or b has the pixels of
   a and, by the quotient of their sizes as a double, enough others *)
Definition apart (P : rparam) (a b : wmser) : Prop :=
  (forall p, p ∈ wm_pts a -> p ∉ wm_pts b) \/
  ((forall p, p ∈ wm_pts a -> p ∈ wm_pts b) /\
   fgt (SFdiv 53 1024 (f64_of_int (Z.of_nat (wm_size b) - Z.of_nat (wm_size a))) (f64_of_int (Z.of_nat (wm_size b)))) (f64_of_f32 (p_dup P)) = true /\
   (fge (p_dup P) fzero = true -> wm_size a < wm_size b)).
(* SPEC: so for any two records of a list *)
Definition all_apart (P : rparam) (l : list wmser) : Prop :=
  forall i j a b, l !! i = Some a -> l !! j = Some b -> i < j -> apart P a b.
(* SPEC: a record of the second list, where levels are values: compared with its pixels that are
   m_delta or more below its greatest value it has grown by less than m_stable_variation *)
Definition grows_little (src : list N) (step : nat) (P : rparam) (rc : wmser) : Prop :=
  forall p, p ∈ wm_pts rc -> (forall q, q ∈ wm_pts rc -> (value_at src step q <= value_at src step p)%N) ->
  let k := length (filter (fun q => (Z.of_N (value_at src step q) + p_delta P <= Z.of_N (value_at src step p))%Z) (wm_pts rc)) in
  0 < k -> fgt (f64_of_f32 (p_stable P)) (f64_growth (wm_size rc) k) = true.
