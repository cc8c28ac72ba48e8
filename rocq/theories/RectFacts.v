(* Facts about rectangles: what growing, joining and appending give for lists of points. *)
From stdpp Require Import sorting relations functions list_numbers list.
From Coq Require Import NArith ZArith.
From Verif Require Import FloodModel ConnectModel PartModel WholeModel FloatModel RecogModel RectModel ExtractModel.
Local Open Scope Z_scope.

Notation pt := (Z * Z)%type.
(* SPEC: v is the least value of f on L; v is a value of f on L; v bounds f on L *)
Definition least (f : pt -> Z) (L : list pt) (v : Z) : Prop := (exists p, p ∈ L /\ f p = v) /\ forall p, p ∈ L -> v <= f p.
Definition taken (f : pt -> Z) (L : list pt) (v : Z) : Prop := exists p, p ∈ L /\ f p = v.
Definition bounds (f : pt -> Z) (L : list pt) (v : Z) : Prop := forall p, p ∈ L -> f p <= v.

(* SPEC: l r t b are the least and greatest coordinates of the points of L; the two
   greatest ones are only values of coordinates unless E holds *)
Definition boxed (E : Prop) (L : list pt) (l r t b : Z) : Prop :=
  least fst L l /\ taken fst L r /\ least snd L t /\ taken snd L b /\ (E -> bounds fst L r /\ bounds snd L b).

Lemma least_le f L v w : least f L v -> taken f L w -> v <= w.
Proof. intros [_ H] (p & Hp & <-). auto. Qed.
Lemma taken_app_l f L L' v : taken f L v -> taken f (L ++ L') v.
Proof. intros (p & Hp & E). exists p. rewrite elem_of_app. auto. Qed.
Lemma taken_app_r f L L' v : taken f L' v -> taken f (L ++ L') v.
Proof. intros (p & Hp & E). exists p. rewrite elem_of_app. auto. Qed.
Lemma least_app f L L' v v' : least f L v -> least f L' v' -> least f (L ++ L') (Z.min v v').
Proof.
  intros [H1 H2] [H3 H4]. split.
  - destruct (Z.min_spec v v') as [[_ ->]|[_ ->]]; [by apply taken_app_l|by apply taken_app_r].
  - intros p [Hp|Hp]%elem_of_app; [specialize (H2 p Hp)|specialize (H4 p Hp)]; lia.
Qed.
Lemma taken_max f L L' v v' : taken f L v -> taken f L' v' -> taken f (L ++ L') (Z.max v v').
Proof. intros H1 H2. destruct (Z.max_spec v v') as [[_ ->]|[_ ->]]; [by apply taken_app_r|by apply taken_app_l]. Qed.
Lemma bounds_max f L L' v v' : bounds f L v -> bounds f L' v' -> bounds f (L ++ L') (Z.max v v').
Proof. intros H1 H2 p [Hp|Hp]%elem_of_app; [specialize (H1 p Hp)|specialize (H2 p Hp)]; lia. Qed.

Lemma boxed_one E p : boxed E [p] (fst p) (fst p) (snd p) (snd p).
Proof.
  assert (forall f, taken f [p] (f p)) as HT by (intros f; exists p; split; [left|done]).
  assert (forall f, least f [p] (f p)) as HL.
  { intros f. split; [apply HT|]. intros q ->%elem_of_list_singleton. lia. }
  assert (forall f, bounds f [p] (f p)) as HB by (intros f q ->%elem_of_list_singleton; lia).
  split; [apply HL|]. split; [apply HT|]. split; [apply HL|]. split; [apply HT|]. auto.
Qed.
Lemma boxed_perm E L L' l r t b : L ≡ₚ L' -> boxed E L l r t b -> boxed E L' l r t b.
Proof.
  intros HP. unfold boxed, least, taken, bounds.
  assert (forall p, p ∈ L <-> p ∈ L') as HE by (intros p; by rewrite HP).
  intros (H1 & H2 & H3 & H4 & H5). setoid_rewrite HE in H1. setoid_rewrite HE in H2. setoid_rewrite HE in H3.
  setoid_rewrite HE in H4. setoid_rewrite HE in H5. auto.
Qed.
Lemma boxed_weak (E E' : Prop) L l r t b : (E' -> E) -> boxed E L l r t b -> boxed E' L l r t b.
Proof. intros H (H1 & H2 & H3 & H4 & H5). repeat (split; [done|]). auto. Qed.
Lemma boxed_nil E l r t b : ~ boxed E [] l r t b.
Proof. intros (((p & Hp & _) & _) & _). by apply elem_of_nil in Hp. Qed.

(* SPEC: the rectangle of the points of L *)
Definition rect_of (E : Prop) (L : list pt) (r : rect) : Prop :=
  boxed E L (x_left r) (right_of r) (x_top r) (bottom_of r).

Lemma boxed_rect E L l r t b : boxed E L l r t b -> rect_of E L (Rect l t (r - l + 1) (b - t + 1)).
Proof.
  intros H. unfold rect_of, right_of, bottom_of. cbn.
  by replace (l + (r - l + 1) - 1) with r by lia; replace (t + (b - t + 1) - 1) with b by lia.
Qed.
Lemma rect_nonempty E L r : rect_of E L r -> is_empty r = false.
Proof.
  intros (H1 & H2 & _). pose proof (least_le _ _ _ _ H1 H2) as H. unfold right_of in H. unfold is_empty.
  destruct (Z.eqb_spec 0 (x_w r)); [lia|done].
Qed.
Lemma append_of E L L' r r' : rect_of E L r -> rect_of E L' r' -> rect_of E (L ++ L') (append_rect r r').
Proof.
  intros H H'. unfold append_rect. rewrite (rect_nonempty E L r H). apply boxed_rect.
  destruct H as (H1 & H2 & H3 & H4 & H5). destruct H' as (J1 & J2 & J3 & J4 & J5).
  split; [by apply least_app|]. split; [by apply taken_max|]. split; [by apply least_app|]. split; [by apply taken_max|].
  intros HE. destruct (H5 HE), (J5 HE). split; by apply bounds_max.
Qed.
Lemma append_empty r : append_rect rect0 r = r.
Proof. by destruct r. Qed.

(* SPEC: the entry of a record holds the least and greatest coordinates of the points of
   L, or its left is -1 without points *)
Definition info_of (L : list pt) (b : binfo) : Prop :=
  (L = [] /\ bi_left b = -1) \/ (boxed True L (bi_left b) (bi_right b) (bi_top b) (bi_bottom b) /\ 0 <= bi_left b).

Lemma i16_id z : 0 <= z < 2 ^ 15 -> i16 z = z.
Proof. intros H. unfold i16. rewrite Z.mod_small; lia. Qed.

Lemma grow_ok L b x y : 0 <= x < 2 ^ 15 -> 0 <= y < 2 ^ 15 -> info_of L b -> info_of (L ++ [(x, y)]) (grow b x y).
Proof.
  intros Hx Hy [[-> Hb]|[Hb Hl]]; unfold grow.
  - rewrite (proj2 (Z.eqb_eq _ _) Hb). right. cbn [app bi_left bi_right bi_top bi_bottom]. rewrite !i16_id by done.
    split; [apply boxed_one|lia].
  - destruct (Z.eqb_spec (bi_left b) (-1)); [lia|]. rewrite !i16_id by done.
    destruct (boxed_one True (x, y)) as (_ & K1 & _ & K2 & _). cbn in K1, K2.
    assert (boxed True (L ++ [(x, y)]) (Z.min (bi_left b) x) (Z.max (bi_right b) x) (Z.min (bi_top b) y) (Z.max (bi_bottom b) y)) as HB.
    { destruct (boxed_one True (x, y)) as (J1 & J2 & J3 & J4 & J5). destruct Hb as (H1 & H2 & H3 & H4 & H5). cbn in *.
      split; [by apply least_app|]. split; [by apply taken_max|]. split; [by apply least_app|]. split; [by apply taken_max|].
      intros HE. destruct (H5 HE), (J5 HE). split; by apply bounds_max. }
    assert (bi_left b <= bi_right b) as Hlr by (destruct Hb as (? & ? & _); by eapply least_le).
    assert (bi_top b <= bi_bottom b) as Htb by (destruct Hb as (_ & _ & ? & ? & _); by eapply least_le).
    right. assert (exists q, (let '(l, r) := if x <? bi_left b then (x, bi_right b) else if bi_right b <? x then (bi_left b, x) else (bi_left b, bi_right b) in
      let '(t, d) := if y <? bi_top b then (y, bi_bottom b) else if bi_bottom b <? y then (bi_top b, y) else (bi_top b, bi_bottom b) in
      BInfo (bi_pos b + 1) t l d r) = BInfo q (Z.min (bi_top b) y) (Z.min (bi_left b) x) (Z.max (bi_bottom b) y) (Z.max (bi_right b) x)) as (q & ->).
    { exists (bi_pos b + 1)%nat.
      destruct (Z.ltb_spec x (bi_left b)); [|destruct (Z.ltb_spec (bi_right b) x)];
        (destruct (Z.ltb_spec y (bi_top b)); [|destruct (Z.ltb_spec (bi_bottom b) y)]); f_equal; lia. }
    cbn [bi_left bi_right bi_top bi_bottom]. split; [done|lia].
Qed.
Lemma grow_pos b x y : bi_pos (grow b x y) = (bi_pos b + 1)%nat.
Proof.
  unfold grow. destruct (_ =? _); [done|].
  destruct (_ <? bi_left b); [|destruct (bi_right b <? x)]; (destruct (_ <? bi_top b); [|destruct (bi_bottom b <? y)]); done.
Qed.

(* joining the boxes of the parts: the least coordinates are right, the greatest are
   taken from some part; all are right if at most one part has points *)
Definition joined (E : Prop) (L : list pt) (o : option (Z * Z * Z * Z)) : Prop :=
  match o with
  | None => L = []
  | Some (l, r, t, b) => boxed E L l r t b
  end.
Lemma join_ok E L o L' b : joined E L o -> info_of L' b -> (E -> L = [] \/ L' = []) -> joined E (L ++ L') (join_box o b).
Proof.
  intros HL [[-> Hb]|[Hb Hl]] HE; unfold join_box.
  { rewrite (proj2 (Z.eqb_eq _ _) Hb), app_nil_r. done. }
  destruct (Z.eqb_spec (bi_left b) (-1)); [lia|]. destruct o as [[[[l r] t] d]|]; cbn in HL.
  2:{ subst L. cbn. by eapply boxed_weak; [|exact Hb]. }
  assert (~ E) as HnE.
  { intros He. destruct (HE He) as [->| ->]; [by apply boxed_nil in HL|by apply boxed_nil in Hb]. }
  destruct HL as (H1 & H2 & H3 & H4 & _). destruct Hb as (J1 & J2 & J3 & J4 & _).
  assert (exists r' d', (let '(l', r') := if bi_left b <? l then (bi_left b, r) else if r <? bi_right b then (l, bi_right b) else (l, r) in
    let '(t', d') := if bi_top b <? t then (bi_top b, d) else if d <? bi_bottom b then (t, bi_bottom b) else (t, d) in
    Some (l', r', t', d')) = Some (Z.min l (bi_left b), r', Z.min t (bi_top b), d') /\
    (r' = r \/ r' = bi_right b) /\ (d' = d \/ d' = bi_bottom b)) as (r' & d' & -> & Hr & Hd).
  { destruct (Z.ltb_spec (bi_left b) l); [|destruct (Z.ltb_spec r (bi_right b))];
      (destruct (Z.ltb_spec (bi_top b) t); [|destruct (Z.ltb_spec d (bi_bottom b))]);
      eexists _, _; (split; [repeat f_equal; lia|]); auto. }
  cbn. split; [by apply least_app|]. split.
  { destruct Hr as [->| ->]; [by apply taken_app_l|by apply taken_app_r]. }
  split; [by apply least_app|]. split; [|done]. destruct Hd as [->| ->]; [by apply taken_app_l|by apply taken_app_r].
Qed.

(* SPEC: appending a point gives the smallest rectangle with both *)
Lemma append_point_of L r x y : rect_of True L r -> rect_of True (L ++ [(x, y)]) (append_point r x y).
Proof.
  intros H. unfold append_point. rewrite (rect_nonempty True L r H).
  destruct (boxed_one True (x, y)) as (J1 & J2 & J3 & J4 & J5). cbn in J1, J2, J3, J4, J5.
  assert (boxed True (L ++ [(x, y)]) (Z.min (x_left r) x) (Z.max (right_of r) x) (Z.min (x_top r) y) (Z.max (bottom_of r) y)) as HB.
  { destruct H as (H1 & H2 & H3 & H4 & H5).
    split; [by apply least_app|]. split; [by apply taken_max|]. split; [by apply least_app|]. split; [by apply taken_max|].
    intros HE. destruct (H5 HE), (J5 HE). split; by apply bounds_max. }
  apply boxed_rect in HB.
  assert (x_left r <= right_of r) as Hlr by (destruct H as (? & ? & _); by eapply least_le).
  assert (x_top r <= bottom_of r) as Htb by (destruct H as (_ & _ & ? & ? & _); by eapply least_le).
  replace (let '(rr, l) := if right_of r <? x then (x, x_left r) else if x <? x_left r then (right_of r, x) else (right_of r, x_left r) in
    let '(b, t) := if bottom_of r <? y then (y, x_top r) else if y <? x_top r then (bottom_of r, y) else (bottom_of r, x_top r) in
    Rect l t (rr - l + 1) (b - t + 1)) with
    (Rect (Z.min (x_left r) x) (Z.min (x_top r) y) (Z.max (right_of r) x - Z.min (x_left r) x + 1) (Z.max (bottom_of r) y - Z.min (x_top r) y + 1)); [done|].
  destruct (Z.ltb_spec (right_of r) x); [|destruct (Z.ltb_spec x (x_left r))];
    (destruct (Z.ltb_spec (bottom_of r) y); [|destruct (Z.ltb_spec y (x_top r))]); f_equal; lia.
Qed.
