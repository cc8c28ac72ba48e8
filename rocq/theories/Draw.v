(* The drawn image shows the region. *)
From stdpp Require Import sorting relations functions list_numbers list.
From Coq Require Import NArith ZArith SpecFloat.
From Verif Require Import Spec TreeSpec JoinCorrect FloodModel FloodCorrect FloatModel RecogModel RecogFinal RectModel ExtractModel ExtractTop RunCorrect RunResults LinkedModel LinkedGrid LinkedCorrect CvModel CvExtract CvCorrect CvResults
  V1ExtractModel V1Extract DrawModel.
Local Open Scope nat_scope.

(* SPEC: the image d shows the set of points In in the rectangle r: r is in the middle of
   an image that is square up to a row or column; the colour is fg at the points of the
   set and bg elsewhere, and all points of the set are in the image *)
Definition shows {A} (fg bg : A) (d : pic A) (r : rect) (In : Z * Z -> Prop) : Prop :=
  exists mx my : nat,
    (Z.of_nat (pc_w d) = x_w r + 2 * Z.of_nat mx)%Z /\ (Z.of_nat (pc_h d) = x_h r + 2 * Z.of_nat my)%Z /\
    pc_w d <= pc_h d + 1 /\ pc_h d <= pc_w d + 1 /\
    length (pc_px d) = pc_h d * pc_w d /\
    (forall x y, x < pc_w d -> y < pc_h d ->
       let q := (x_left r + Z.of_nat x - Z.of_nat mx, x_top r + Z.of_nat y - Z.of_nat my)%Z in
       (In q -> pc_px d !! (y * pc_w d + x) = Some fg) /\ (~ In q -> pc_px d !! (y * pc_w d + x) = Some bg)) /\
    forall q, In q -> exists x y, x < pc_w d /\ y < pc_h d /\ q = (x_left r + Z.of_nat x - Z.of_nat mx, x_top r + Z.of_nat y - Z.of_nat my)%Z.

Section draw.
Context {A : Type} (fg bg : A) (r : rect) (w h : nat).
Definition at_xy (x y : nat) : Z * Z := (x_left r + Z.of_nat x - fst (margins r), x_top r + Z.of_nat y - snd (margins r))%Z.
Definition drawn (L : list (Z * Z)) (d : pic A) : Prop :=
  pc_w d = w /\ pc_h d = h /\ length (pc_px d) = h * w /\
  forall x y, x < w -> y < h -> pc_px d !! (y * w + x) = Some (if decide (at_xy x y ∈ L) then fg else bg).
Lemma cell_inj x y x' y' : x < w -> x' < w -> y * w + x = y' * w + x' -> x = x' /\ y = y'.
Proof using All. intros H1 H2 E. assert (y = y') as -> by nia. lia. Qed.
Lemma cell_lt x y : x < w -> y < h -> y * w + x < h * w.
Proof using All. intros. nia. Qed.
Lemma draw_step L d q : drawn L d -> drawn (L ++ [q]) (draw_point fg r d q).
Proof using All.
  intros (Hw & Hh & Hl & Hp). unfold draw_point. rewrite Hw, Hh.
  set (x' := (fst q - x_left r + fst (margins r))%Z). set (y' := (snd q - x_top r + snd (margins r))%Z).
  assert (forall x y, at_xy x y = q <-> Z.of_nat x = x' /\ Z.of_nat y = y') as Hq.
  { intros x y. unfold at_xy, x', y'. destruct q as [q1 q2]. cbn [fst snd]. split; [intros [= <- <-]; lia|]. intros [E1 E2]. f_equal; lia. }
  assert (forall x y, at_xy x y ∈ L ++ [q] <-> at_xy x y ∈ L \/ (Z.of_nat x = x' /\ Z.of_nat y = y')) as Ha.
  { intros x y. rewrite elem_of_app, elem_of_list_singleton, Hq. done. }
  destruct ((0 <=? x')%Z && (0 <=? y')%Z && (x' <? Z.of_nat w)%Z && (y' <? Z.of_nat h)%Z) eqn:Eb.
  - apply andb_prop in Eb as [[[E1%Z.leb_le E2%Z.leb_le]%andb_prop E3%Z.ltb_lt]%andb_prop E4%Z.ltb_lt].
    split; [done|]. split; [done|]. cbn [pc_px]. split; [by rewrite insert_length|]. intros x y Hx Hy.
    destruct (decide (x = Z.to_nat x' /\ y = Z.to_nat y')) as [[-> ->]|Hne].
    + rewrite list_lookup_insert by (rewrite Hl; apply cell_lt; lia). destruct (decide (at_xy (Z.to_nat x') (Z.to_nat y') ∈ L ++ [q])) as [_|Hn]; [done|].
      exfalso. apply Hn, Ha. right. lia.
    + rewrite list_lookup_insert_ne. 2:{ intros E. apply Hne. apply cell_inj in E; lia. }
      rewrite (Hp x y Hx Hy). destruct (decide (at_xy x y ∈ L)) as [H1|H1], (decide (at_xy x y ∈ L ++ [q])) as [H2|H2]; try done.
      * exfalso. apply H2, Ha. by left.
      * exfalso. apply Ha in H2 as [H2|H2]; [done|]. apply Hne. lia.
  - split; [done|]. split; [done|]. split; [done|]. intros x y Hx Hy. rewrite (Hp x y Hx Hy).
    destruct (decide (at_xy x y ∈ L)) as [H1|H1], (decide (at_xy x y ∈ L ++ [q])) as [H2|H2]; try done.
    * exfalso. apply H2, Ha. by left.
    * exfalso. apply Ha in H2 as [H2|[H2 H3]]; [done|]. rewrite <-H2, <-H3 in Eb.
      assert ((0 <=? Z.of_nat x)%Z && (0 <=? Z.of_nat y)%Z && (Z.of_nat x <? Z.of_nat w)%Z && (Z.of_nat y <? Z.of_nat h)%Z = true) as E; [|congruence].
      repeat (apply andb_true_intro; split); [apply Z.leb_le|apply Z.leb_le|apply Z.ltb_lt|apply Z.ltb_lt]; lia.
Qed.
Lemma draw_fold L : forall L0 d, drawn L0 d -> drawn (L0 ++ L) (foldl (draw_point fg r) d L).
Proof using All.
  induction L as [|q L IH]; intros L0 d H; [by rewrite app_nil_r|]. cbn [foldl].
  replace (L0 ++ q :: L) with ((L0 ++ [q]) ++ L) by (by rewrite <-app_assoc). by apply IH, draw_step.
Qed.
Lemma draw_empty : drawn [] (Pic w h (replicate (h * w) bg)).
Proof using All.
  split; [done|]. split; [done|]. cbn [pc_px]. split; [by rewrite replicate_length|]. intros x y Hx Hy.
  rewrite lookup_replicate_2 by (apply cell_lt; lia). destruct (decide (at_xy x y ∈ [])) as [H|H]; [by apply elem_of_nil in H|done].
Qed.
End draw.

Lemma margins_ok r : (0 < x_w r -> 0 < x_h r -> exists a b : nat, margins r = (Z.of_nat a, Z.of_nat b) /\
  x_w r + 2 * Z.of_nat a <= x_h r + 2 * Z.of_nat b + 1 /\ x_h r + 2 * Z.of_nat b <= x_w r + 2 * Z.of_nat a + 1)%Z.
Proof.
  intros Hw Hh. unfold margins. destruct (Z.ltb_spec (x_h r) (x_w r)); [|destruct (Z.ltb_spec (x_w r) (x_h r))].
  - exists 0, (Z.to_nat (Z.quot (x_w r - x_h r) 2)). rewrite Z.quot_div_nonneg by lia.
    pose proof (Z.div_mod (x_w r - x_h r) 2 ltac:(lia)). pose proof (Z.mod_pos_bound (x_w r - x_h r) 2 ltac:(lia)).
    rewrite !Z2Nat.id by lia. split; [done|]. lia.
  - exists (Z.to_nat (Z.quot (x_h r - x_w r) 2)), 0. rewrite Z.quot_div_nonneg by lia.
    pose proof (Z.div_mod (x_h r - x_w r) 2 ltac:(lia)). pose proof (Z.mod_pos_bound (x_h r - x_w r) 2 ltac:(lia)).
    rewrite !Z2Nat.id by lia. split; [done|]. lia.
  - exists 0, 0. split; [done|]. lia.
Qed.

(* a list of points in their bounding box *)
Lemma draw_ok {A} (fg bg : A) r L : bounding L r -> exists d, draw fg bg r L = Some d /\ shows fg bg d r (fun q => q ∈ L).
Proof.
  intros (Hin & (q1 & Hq1 & E1) & (q2 & Hq2 & E2) & (q3 & Hq3 & E3) & (q4 & Hq4 & E4)).
  assert (0 < x_w r /\ 0 < x_h r)%Z as [Hw Hh]. { pose proof (Hin q1 Hq1). pose proof (Hin q3 Hq3). lia. }
  destruct (margins_ok r Hw Hh) as (a & b & Em & Ha & Hb). unfold draw. rewrite Em. cbn [fst snd].
  assert ((x_w r + Z.of_nat a * 2 <? 0)%Z || (x_h r + Z.of_nat b * 2 <? 0)%Z = false) as ->.
  { apply orb_false_intro; apply Z.ltb_ge; lia. }
  set (w := Z.to_nat (x_w r + Z.of_nat a * 2)). set (h := Z.to_nat (x_h r + Z.of_nat b * 2)).
  assert (Z.of_nat w = x_w r + 2 * Z.of_nat a /\ Z.of_nat h = x_h r + 2 * Z.of_nat b)%Z as [Ew Eh] by (unfold w, h; lia).
  destruct (draw_fold fg bg r w h L [] _ (draw_empty fg bg r w h)) as (H1 & H2 & H3 & H4).
  eexists. split; [reflexivity|]. exists a, b. rewrite H1, H2.
  split; [lia|]. split; [lia|]. split; [lia|]. split; [lia|]. split; [done|]. split.
  - intros x y Hx Hy. rewrite (H4 x y Hx Hy). cbn [app]. unfold at_xy. rewrite Em. cbn [fst snd].
    split; intros Hq; destruct (decide _) as [H|H]; done.
  - intros q Hq. destruct (Hin q Hq) as [B1 B2]. destruct q as [qx qy]. cbn [fst snd] in B1, B2.
    exists (Z.to_nat (qx - x_left r + Z.of_nat a)), (Z.to_nat (qy - x_top r + Z.of_nat b)). split; [lia|]. split; [lia|]. f_equal; lia.
Qed.

Lemma shows_ext {A} (fg bg : A) d r (I I' : Z * Z -> Prop) : (forall q, I q <-> I' q) -> shows fg bg d r I -> shows fg bg d r I'.
Proof.
  intros H (mx & my & H1 & H2 & H3 & H4 & H5 & H6 & H7). exists mx, my. repeat (split; [done|]). split.
  - intros x y Hx Hy. destruct (H6 x y Hx Hy) as [Ha Hb]. split; intros Hq; [apply Ha|apply Hb]; by rewrite H.
  - intros q Hq. apply H7. by apply H.
Qed.

(* SPEC: the point q is one of the pixel offsets S *)
Definition pixel_of (cols : nat) (S : nat -> Prop) (q : Z * Z) : Prop :=
  exists p, S p /\ q = (Z.of_nat (p mod cols), Z.of_nat (p / cols)).

Lemma draw_v1_ok {A} (fg bg : A) img gm cols rows P d R : 0 < cols -> k_result img gm cols rows P d R ->
  forall i r S, k_recs R !! i = Some r -> k_lists cols R i S ->
  exists D, draw_v1 fg bg R r = Some D /\ shows fg bg D (kr_rect r) (pixel_of cols S).
Proof.
  intros Hc HR i r S Hr (r' & pl & Hr' & Hrd & Hnd & Hlen & HS). assert (r' = r) as -> by congruence.
  destruct (kc_sound _ _ _ _ _ _ _ HR i r Hr) as (g & S' & (r2 & pl2 & Hr2 & Hrd2 & _ & _ & HS2) & _ & (T0 & T1 & T2 & T3 & T4) & _).
  assert (r2 = r) as -> by congruence. assert (pl2 = pl) as -> by congruence. clear Hr2 Hrd2.
  unfold draw_v1. rewrite Hrd. set (L := map _ pl).
  assert (forall q, q ∈ L <-> exists x y, (x, y) ∈ pl /\ q = (Z.of_nat x, Z.of_nat y)) as HL.
  { intros q. unfold L. rewrite elem_of_list_fmap. split; [intros ([x y] & -> & H); eauto|intros (x & y & H & ->); by exists (x, y)]. }
  assert (forall x y, (x, y) ∈ pl -> x < cols) as Hx.
  { destruct (kc_mem _ _ _ _ _ _ _ HR) as (ml & Em & _ & Hml). intros x y H. apply elem_of_list_lookup in H as [k Hk].
    unfold k_read in Hrd. destruct (kr_pts r) as [pp|]; [|done]. apply mapM_Some in Hrd. destruct (Forall2_lookup_r _ _ _ _ _ Hrd Hk) as (j & Hj & Hj2).
    rewrite Em in Hj2. rewrite list_lookup_fmap in Hj2. destruct (ml !! j) as [[u v]|] eqn:E; [|done]. cbn in Hj2. injection Hj2 as -> ->.
    apply elem_of_list_lookup_2 in E. by apply Hml in E as [? _]. }
  assert (forall q, q ∈ L <-> pixel_of cols S' q) as HLS.
  { intros q. rewrite HL. unfold pixel_of. split.
    - intros (x & y & H & ->). exists (y * cols + x). pose proof (Hx x y H) as Hlt.
      assert ((y * cols + x) mod cols = x /\ (y * cols + x) / cols = y) as [E1 E2].
      { split; [rewrite Nat.add_comm, Nat.mod_add by lia; by apply Nat.mod_small|rewrite Nat.div_add_l by lia; rewrite Nat.div_small by lia; lia]. }
      rewrite E1, E2. split; [|done]. apply HS2. by rewrite E1, E2.
    - intros (p & Hp & ->). apply HS2 in Hp. eauto. }
  destruct (draw_ok fg bg (kr_rect r) L) as (D & ED & HD).
  - split; [|repeat split].
    + intros q Hq. apply HLS in Hq as (p & Hp & ->). cbn [fst snd]. specialize (T0 p Hp). lia.
    + destruct T1 as (p & Hp & E). exists (Z.of_nat (p mod cols), Z.of_nat (p / cols)). split; [apply HLS; exists p; eauto|done].
    + destruct T2 as (p & Hp & E). exists (Z.of_nat (p mod cols), Z.of_nat (p / cols)). split; [apply HLS; exists p; eauto|done].
    + destruct T3 as (p & Hp & E). exists (Z.of_nat (p mod cols), Z.of_nat (p / cols)). split; [apply HLS; exists p; eauto|done].
    + destruct T4 as (p & Hp & E). exists (Z.of_nat (p mod cols), Z.of_nat (p / cols)). split; [apply HLS; exists p; eauto|done].
  - exists D. split; [done|]. eapply shows_ext; [|exact HD]. intros q. cbn beta. rewrite HLS. unfold pixel_of.
    split; intros (p & Hp & ->); exists p; split; auto; [apply HS, HS2, Hp|apply HS2, HS, Hp].
Qed.

Lemma draw_list_ok {A} (fg bg : A) cols r S L : lists_set cols S L -> bounding L r ->
  exists D, draw fg bg r L = Some D /\ shows fg bg D r (pixel_of cols S).
Proof.
  intros [_ HS] HB. destruct (draw_ok fg bg r L HB) as (D & ED & HD). exists D. split; [done|].
  eapply shows_ext; [|exact HD]. intros q. cbn beta. rewrite HS. done.
Qed.
Lemma draw_cv_ok {A} (fg bg : A) step R j m S L : cv_ms R !! j = Some m -> cv_lists step R j S -> cv_read R m = Some L -> bounding L (cr_rect m) ->
  exists D, draw_cv fg bg R m = Some D /\ shows fg bg D (cr_rect m) (pixel_of step S).
Proof.
  intros Hm (c & L' & Hc & Hr & HS & _) Hr' HB. assert (c = m) as -> by congruence. assert (L' = L) as -> by congruence.
  unfold draw_cv. rewrite Hr. by apply draw_list_ok.
Qed.
Lemma draw_cv_region {A} (fg bg : A) e src gm step w h : limg_fits src step w h -> gm = 0%N \/ gm = 255%N -> cv_modest w h ->
  forall P, delta_ok P -> forall R, cv_result e src gm step w h P R ->
  forall j rc, cv_ms R !! j = Some rc -> exists g S D, extremal (lview e step w h (level src gm)) g S /\
    draw_cv fg bg R rc = Some D /\ shows fg bg D (cr_rect rc) (pixel_of step S).
Proof.
  intros HF Hgm Hm P Hd R HR j rc Hj. destruct (cv_extremal e src gm step w h HF Hgm Hm P Hd R HR j rc Hj) as (g & S & L & Hx & Hls & _ & Hrd & HB).
  destruct (draw_cv_ok fg bg step R j rc S L Hj Hls Hrd HB) as (D & ED & HD). eauto 10.
Qed.
