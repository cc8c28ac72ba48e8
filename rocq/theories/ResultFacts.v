(* The channel images of img_mser_result: proof for from_min. *)
From stdpp Require Import list_numbers list.
From Coq Require Import ZArith.
From Verif Require Import ResultModel.
Local Open Scope nat_scope.

(* SPEC: the points of the components are pixels of the image *)
Definition pts_inside (w h : nat) (ms : list mcomp) : Prop :=
  forall c q, c ∈ ms -> q ∈ mc_pts c -> (0 <= fst q < Z.of_nat w)%Z /\ (0 <= snd q < Z.of_nat h)%Z.
(* SPEC: component j has the pixel (x, y) and the level lv *)
Definition has_px (ms : list mcomp) (j lv x y : nat) : Prop :=
  exists c, ms !! j = Some c /\ mc_level c = lv /\ (Z.of_nat x, Z.of_nat y) ∈ mc_pts c.
(* SPEC: the images show at each pixel the first component of least level below 255
   among those containing it; 255 and -1 if there is none *)
Definition shows_least (w h : nat) (ms : list mcomp) (I : list nat * list Z) : Prop :=
  length (fst I) = h * w /\ length (snd I) = h * w /\
  forall x y, x < w -> y < h -> exists lv id, fst I !! (y * w + x) = Some lv /\ snd I !! (y * w + x) = Some id /\
    ((id = -1)%Z /\ lv = 255 /\ (forall j l, has_px ms j l x y -> 255 <= l) \/
     exists j, id = Z.of_nat j /\ lv < 255 /\ has_px ms j lv x y /\ (forall i l, has_px ms i l x y -> lv <= l) /\
       forall i l, has_px ms i l x y -> i < j -> lv < l).

(* one pixel after the points done so far: T are the (index, level) pairs seen in order *)
Definition least_of (T : list (nat * nat)) (lv : nat) (id : Z) : Prop :=
  (id = -1)%Z /\ lv = 255 /\ (forall j l, (j, l) ∈ T -> 255 <= l) \/
  exists j, id = Z.of_nat j /\ lv < 255 /\ (j, lv) ∈ T /\ (forall i l, (i, l) ∈ T -> lv <= l) /\ forall i l, (i, l) ∈ T -> i < j -> lv < l.
(* the pixels of the points done: triples of index, level and point *)
Definition seen (T : list (nat * nat * (Z * Z))) (x y : nat) : list (nat * nat) :=
  map fst (filter (fun t => snd t = (Z.of_nat x, Z.of_nat y)) T).
Definition inv (w h : nat) (T : list (nat * nat * (Z * Z))) (I : chanimg) : Prop :=
  length (fst I) = h * w /\ length (snd I) = h * w /\
  forall x y, x < w -> y < h -> exists lv id, fst I !! (y * w + x) = Some lv /\ snd I !! (y * w + x) = Some id /\ least_of (seen T x y) lv id.

Lemma least_step T lv id j l : least_of T lv id -> (forall i l', (i, l') ∈ T -> i <= j) -> (forall l', (j, l') ∈ T -> l' = l) ->
  if l <? lv then least_of (T ++ [(j, l)]) l (Z.of_nat j) else least_of (T ++ [(j, l)]) lv id.
Proof.
  intros H Hj Hl. destruct (Nat.ltb_spec l lv).
  - assert (lv <= 255) as H255 by (destruct H as [(_ & -> & _)|(? & _ & ? & _)]; lia).
    assert (forall i l', (i, l') ∈ T -> lv <= l') as Hmin.
    { destruct H as [(_ & -> & H)|(? & _ & _ & _ & H & _)]; [exact H|exact H]. }
    right. exists j. split; [done|]. split; [lia|]. split; [apply elem_of_app; right; by apply elem_of_list_singleton|].
    split; intros i l' Hi; apply elem_of_app in Hi as [Hi|Hi%elem_of_list_singleton]; try (injection Hi as -> ->; lia);
      specialize (Hmin _ _ Hi); lia.
  - destruct H as [(-> & -> & H)|(k & -> & Hk & Hin & H1 & H2)].
    + left. split; [done|]. split; [done|]. intros i l' Hi. apply elem_of_app in Hi as [Hi|Hi%elem_of_list_singleton]; [by eapply H|]. injection Hi as -> ->. lia.
    + right. exists k. split; [done|]. split; [done|]. split; [by apply elem_of_app; left|].
      split; intros i l' Hi; apply elem_of_app in Hi as [Hi|Hi%elem_of_list_singleton]; [by eapply H1|injection Hi as -> ->; lia|by eapply H2|].
      injection Hi as -> ->. intros Hlt. specialize (Hj _ _ Hin). lia.
Qed.
Lemma px_inside w h q : (0 <= fst q < Z.of_nat w)%Z -> (0 <= snd q < Z.of_nat h)%Z ->
  exists x y, x < w /\ y < h /\ q = (Z.of_nat x, Z.of_nat y) /\ px_at w h q = Some (y * w + x).
Proof.
  destruct q as [a b]. cbn [fst snd]. intros H1 H2. exists (Z.to_nat a), (Z.to_nat b). split; [lia|]. split; [lia|].
  split; [f_equal; lia|]. unfold px_at. cbn [fst snd].
  replace (0 <=? a)%Z with true by lia. replace (0 <=? b)%Z with true by lia. replace (a <? Z.of_nat w)%Z with true by lia. by replace (b <? Z.of_nat h)%Z with true by lia.
Qed.
Lemma same_px w x y x' y' : x < w -> x' < w -> y * w + x = y' * w + x' -> x = x' /\ y = y'.
Proof.
  intros H H' E. assert (y = y') as ->; [|split; lia].
  assert ((y * w + x) / w = y) as E1 by (rewrite Nat.div_add_l by lia; rewrite Nat.div_small by lia; lia).
  assert ((y' * w + x') / w = y') as E2 by (rewrite Nat.div_add_l by lia; rewrite Nat.div_small by lia; lia).
  by rewrite <-E1, <-E2, E.
Qed.
Lemma seen_app T t x y : seen (T ++ [t]) x y = seen T x y ++ (if decide (snd t = (Z.of_nat x, Z.of_nat y)) then [fst t] else []).
Proof. unfold seen. rewrite filter_app, map_app. f_equal. rewrite filter_cons, filter_nil. by destruct (decide _). Qed.
Lemma seen_in T x y i l : (i, l) ∈ seen T x y <-> (i, l, (Z.of_nat x, Z.of_nat y)) ∈ T.
Proof.
  unfold seen. rewrite elem_of_list_fmap. split.
  - intros ([[i' l'] q] & E & H). injection E as -> ->. apply elem_of_list_filter in H as [E H]. cbn in E. by subst.
  - intros H. exists (i, l, (Z.of_nat x, Z.of_nat y)). split; [done|]. by apply elem_of_list_filter.
Qed.

Section run.
Context (w h : nat) (ms : list mcomp) (Hin : pts_inside w h ms).

(* the triples of a component *)
Definition tri (jc : nat * mcomp) : list (nat * nat * (Z * Z)) := map (fun q => (fst jc, mc_level (snd jc), q)) (mc_pts (snd jc)).

Lemma point_step T I j c q : inv w h T I -> (0 <= fst q < Z.of_nat w)%Z -> (0 <= snd q < Z.of_nat h)%Z ->
  (forall i l q', (i, l, q') ∈ T -> i <= j) -> (forall l q', (j, l, q') ∈ T -> l = mc_level c) ->
  exists I', chan_point w h Nat.ltb j (mc_level c) (Some (mc_level c)) (Some I) q = Some I' /\ inv w h (T ++ [(j, mc_level c, q)]) I'.
Proof.
  intros (HL & HD & HI) Hx Hy Hj Hl. destruct I as [L D]. cbn [fst snd] in *.
  destruct (px_inside w h q Hx Hy) as (x & y & Hx' & Hy' & -> & E). unfold chan_point. rewrite E.
  destruct (HI x y Hx' Hy') as (lv & id & E1 & E2 & H). rewrite E1.
  pose proof (least_step _ lv id j (mc_level c) H) as Hs.
  assert (if mc_level c <? lv then least_of (seen T x y ++ [(j, mc_level c)]) (mc_level c) (Z.of_nat j)
    else least_of (seen T x y ++ [(j, mc_level c)]) lv id) as Hs'.
  { apply Hs; [intros i l' Hi; apply seen_in in Hi; by eapply Hj|intros l' Hi; apply seen_in in Hi; by eapply Hl]. }
  clear Hs. assert (y * w + x < h * w) as Hk by nia.
  assert (forall x' y' lv' id', x' < w -> (x', y') <> (x, y) -> least_of (seen T x' y') lv' id' -> least_of (seen (T ++ [(j, mc_level c, (Z.of_nat x, Z.of_nat y))]) x' y') lv' id') as Hother.
  { intros x' y' lv' id' _ Hne Ho. rewrite seen_app. cbn [fst snd]. destruct (decide _) as [Ex|]; [|by rewrite app_nil_r].
    injection Ex as Ex1 Ex2. apply Nat2Z.inj in Ex1, Ex2. by subst. }
  assert (seen (T ++ [(j, mc_level c, (Z.of_nat x, Z.of_nat y))]) x y = seen T x y ++ [(j, mc_level c)]) as Hsame.
  { rewrite seen_app. cbn [fst snd]. by rewrite decide_True. }
  destruct (mc_level c <? lv).
  - eexists. split; [reflexivity|]. split; [cbn [fst]; by rewrite insert_length|]. split; [cbn [snd]; by rewrite insert_length|]. intros x' y' Hx2 Hy2. cbn [fst snd].
    destruct (decide ((x', y') = (x, y))) as [Ep|Hne].
    + injection Ep as -> ->. exists (mc_level c), (Z.of_nat j). rewrite !list_lookup_insert by lia. split; [done|]. split; [done|]. by rewrite Hsame.
    + destruct (HI x' y' Hx2 Hy2) as (lv' & id' & E1' & E2' & H'). exists lv', id'.
      rewrite !list_lookup_insert_ne; [split; [done|]; split; [done|]; by apply Hother| |]; intros Ek; apply same_px in Ek as [-> ->]; done.
  - eexists. split; [reflexivity|]. split; [done|]. split; [done|]. intros x' y' Hx2 Hy2. cbn [fst snd].
    destruct (decide ((x', y') = (x, y))) as [Ep|Hne].
    + injection Ep as -> ->. exists lv, id. split; [done|]. split; [done|]. by rewrite Hsame.
    + destruct (HI x' y' Hx2 Hy2) as (lv' & id' & E1' & E2' & H'). exists lv', id'. split; [done|]. split; [done|]. by apply Hother.
Qed.
Lemma comp_step j c qs : forall T I, inv w h T I -> (forall q, q ∈ qs -> (0 <= fst q < Z.of_nat w)%Z /\ (0 <= snd q < Z.of_nat h)%Z) ->
  (forall i l q', (i, l, q') ∈ T -> i <= j) -> (forall l q', (j, l, q') ∈ T -> l = mc_level c) ->
  exists I', foldl (chan_point w h Nat.ltb j (mc_level c) (Some (mc_level c))) (Some I) qs = Some I' /\
    inv w h (T ++ map (fun q => (j, mc_level c, q)) qs) I'.
Proof.
  induction qs as [|q qs IH]; intros T I HI Hq Hj Hl.
  - exists I. split; [done|]. cbn [map]. by rewrite app_nil_r.
  - destruct (Hq q) as [H1 H2]; [left|]. destruct (point_step T I j c q HI H1 H2 Hj Hl) as (I1 & E1 & HI1).
    destruct (IH (T ++ [(j, mc_level c, q)]) I1 HI1) as (I2 & E2 & HI2).
    + intros q' Hq'. apply Hq. by right.
    + intros i l q' Hi. apply elem_of_app in Hi as [Hi|Hi%elem_of_list_singleton]; [by eapply Hj|]. injection Hi as -> -> ->. lia.
    + intros l q' Hi. apply elem_of_app in Hi as [Hi|Hi%elem_of_list_singleton]; [by eapply Hl|]. by injection Hi as -> ->.
    + exists I2. cbn [foldl map]. rewrite E1. split; [exact E2|]. by rewrite <-app_assoc in HI2.
Qed.
Lemma comps_run : forall js T I n, inv w h T I -> (forall i l q', (i, l, q') ∈ T -> i < n) ->
  (forall c q, c ∈ js -> q ∈ mc_pts c -> (0 <= fst q < Z.of_nat w)%Z /\ (0 <= snd q < Z.of_nat h)%Z) ->
  exists I', foldl (fun s jc => foldl (chan_point w h Nat.ltb (fst jc) (mc_level (snd jc)) (Some (mc_level (snd jc)))) s (mc_pts (snd jc)))
    (Some I) (zip (seq n (length js)) js) = Some I' /\ inv w h (T ++ mjoin (map tri (zip (seq n (length js)) js))) I'.
Proof.
  induction js as [|c js IH]; intros T I n HI Hn Hq.
  - exists I. split; [done|]. cbn. by rewrite app_nil_r.
  - destruct (comp_step n c (mc_pts c) T I HI) as (I1 & E1 & HI1).
    + intros q Hq'. eapply Hq; [left|done].
    + intros i l q' Hi. specialize (Hn i l q' Hi). lia.
    + intros l q' Hi. specialize (Hn n l q' Hi). lia.
    + destruct (IH _ I1 (S n) HI1) as (I2 & E2 & HI2).
      * intros i l q' Hi. apply elem_of_app in Hi as [Hi|Hi]; [specialize (Hn i l q' Hi); lia|].
        apply elem_of_list_fmap in Hi as (? & E & _). injection E as -> -> ->. lia.
      * intros c' q Hc'. apply Hq. by right.
      * exists I2. cbn [length seq zip zip_with foldl map mjoin list_join fst snd]. rewrite E1. split; [exact E2|].
        rewrite <-app_assoc in HI2. exact HI2.
Qed.
Lemma tri_in x y j l : (j, l, (Z.of_nat x, Z.of_nat y)) ∈ mjoin (map tri (zip (seq 0 (length ms)) ms)) <-> has_px ms j l x y.
Proof using All.
  unfold has_px. rewrite elem_of_list_join. split.
  - intros (T & HT & H). apply elem_of_list_fmap in H as ([i c] & -> & H). unfold tri in HT. apply elem_of_list_fmap in HT as (q & E & Hq). cbn [fst snd] in *.
    injection E as -> -> <-. apply elem_of_list_lookup in H as [k Hk]. apply lookup_zip_with_Some in Hk as (a & b & E & Ha & Hb). injection E as -> ->.
    apply lookup_seq in Ha as [-> _]. exists b. auto.
  - intros (c & Hc & <- & Hq). exists (tri (j, c)). split; [apply elem_of_list_fmap; eauto|]. apply elem_of_list_fmap. exists (j, c). split; [done|].
    apply elem_of_list_lookup. exists j. apply lookup_zip_with_Some. exists j, c. split; [done|]. split; [|done].
    apply lookup_seq. split; [done|]. by eapply lookup_lt_Some.
Qed.
Lemma chan_min_ok : exists I, chan_min w h ms = Some I /\ shows_least w h ms I.
Proof using All.
  destruct (comps_run ms [] (replicate (h * w) 255, replicate (h * w) (-1)%Z) 0) as (I & E & HL & HD & HI).
  - split; [apply replicate_length|]. split; [apply replicate_length|]. intros x y Hx Hy. cbn [fst snd]. exists 255, (-1)%Z.
    rewrite !lookup_replicate_2 by nia. split; [done|]. split; [done|]. left. split; [done|]. split; [done|]. intros j l H. by apply elem_of_nil in H.
  - intros i l q' H. by apply elem_of_nil in H.
  - exact Hin.
  - exists I. split; [exact E|]. split; [done|]. split; [done|]. intros x y Hx Hy. destruct (HI x y Hx Hy) as (lv & id & E1 & E2 & H). cbn [app] in H.
    assert (forall j l, (j, l) ∈ seen (mjoin (map tri (zip (seq 0 (length ms)) ms))) x y <-> has_px ms j l x y) as Hse.
    { intros j l. rewrite seen_in. apply tri_in. }
    exists lv, id. split; [done|]. split; [done|]. destruct H as [(-> & -> & H)|(j & -> & Hlt & Hj & H1 & H2)].
    + left. split; [done|]. split; [done|]. intros j l Hp. apply (H j l). by apply Hse.
    + right. exists j. split; [done|]. split; [done|]. split; [by apply Hse|]. split; intros i l Hp; [apply (H1 i l)|apply (H2 i l)]; by apply Hse.
Qed.
End run.

Definition rx_ms : list mcomp := [MComp 9 [(0, 0); (1, 0); (1, 1)]%Z; MComp 4 [(1, 0)]%Z; MComp 4 [(1, 0); (2, 1)]%Z; MComp 255 [(0, 1)]%Z].
Lemma rx_inside : pts_inside 3 2 rx_ms.
Proof.
  intros c q Hc Hq. unfold rx_ms in Hc. repeat (apply elem_of_cons in Hc as [->|Hc]; [cbn [mc_pts] in Hq; repeat (apply elem_of_cons in Hq as [->|Hq]; [cbn; lia|]); by apply elem_of_nil in Hq|]).
  by apply elem_of_nil in Hc.
Qed.
Lemma rx_run : channel_image 3 2 rx_ms [] true = Some ([9; 4; 255; 255; 9; 4], [0; 1; -1; -1; 0; 2]%Z).
Proof. reflexivity. Qed.
(* from_max takes the level of the dark component with the same number *)
Lemma rx_max : channel_image 1 1 [MComp 5 [(0, 0)]%Z] [MComp 200 [(0, 0)]%Z] false = Some ([5], [0%Z]) /\
  channel_image 1 1 [] [MComp 200 [(0, 0)]%Z] false = None.
Proof. done. Qed.
Lemma rx_inside1 : pts_inside 1 1 [MComp 200 [(0, 0)]%Z].
Proof. intros c q ->%elem_of_list_singleton ->%elem_of_list_singleton. cbn. lia. Qed.
Lemma rx_max_wrong : ~ (forall w h ms0 ms1, pts_inside w h ms1 -> exists I, channel_image w h ms0 ms1 false = Some I) /\
  ~ (forall w h ms0 ms1 I, pts_inside w h ms1 -> channel_image w h ms0 ms1 false = Some I ->
     forall x y lv j, x < w -> y < h -> fst I !! (y * w + x) = Some lv -> snd I !! (y * w + x) = Some (Z.of_nat j) -> has_px ms1 j lv x y).
Proof.
  split; intros H.
  - destruct (H 1 1 [] _ rx_inside1) as [I E]. by rewrite (proj2 rx_max) in E.
  - destruct (H 1 1 _ _ _ rx_inside1 (proj1 rx_max) 0 0 5 0) as (c & E & Hl & _); [lia|lia|done|done|]. injection E as <-. done.
Qed.
