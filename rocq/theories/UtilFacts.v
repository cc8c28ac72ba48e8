(* Proofs about the array helpers of mt_helper.h and about rectangles. *)
From stdpp Require Import sorting relations functions list_numbers list.
From Coq Require Import ZArith.
From Verif Require Import UtilModel UtilSort RectModel.
Local Open Scope nat_scope.

(* SPEC: sum of a list *)
Definition zsum (l : list Z) : Z := foldr Z.add 0%Z l.
Lemma zsum_app l l' : zsum (l ++ l') = (zsum l + zsum l')%Z.
Proof. unfold zsum. induction l as [|x l IH]; cbn; [done|]. rewrite IH. lia. Qed.
Lemma zsum_snoc l i x : l !! i = Some x -> zsum (take (S i) l) = (zsum (take i l) + x)%Z.
Proof. intros H. rewrite (take_S_r _ _ _ H), zsum_app. cbn. lia. Qed.

(* prefix sums *)
Lemma integral_loop_ok src0 : forall src o res, o + length src < length res -> drop o src0 = src ->
  (forall k, k <= o -> res !! k = Some (zsum (take k src0) mod 2 ^ 32)%Z) ->
  exists res', integral_loop src o res = Some res' /\ length res' = length res /\
    (forall k, k <= o + length src -> res' !! k = Some (zsum (take k src0) mod 2 ^ 32)%Z) /\
    forall k, o + length src < k -> res' !! k = res !! k.
Proof.
  induction src as [|x src IH]; intros o res HL HD HR; cbn [integral_loop length].
  - exists res. rewrite Nat.add_0_r. auto.
  - cbn [length] in HL. rewrite (HR o) by lia. rewrite (proj2 (Nat.ltb_lt _ _)) by lia.
    assert (src0 !! o = Some x) as Hx.
    { rewrite <-(Nat.add_0_r o), <-lookup_drop, HD. done. }
    destruct (IH (S o) (<[o + 1 := ((zsum (take o src0) mod 2 ^ 32 + x) mod 2 ^ 32)%Z]> res)) as (res' & E & L' & K1 & K2).
    + rewrite insert_length. lia.
    + replace (S o) with (o + 1) by lia. rewrite <-drop_drop, HD. done.
    + intros k Hk. destruct (decide (k = o + 1)) as [->|].
      * rewrite list_lookup_insert by lia. rewrite Nat.add_1_r, (zsum_snoc _ _ _ Hx), Zplus_mod_idemp_l. done.
      * rewrite list_lookup_insert_ne by lia. apply HR. lia.
    + rewrite insert_length in L'. exists res'. split; [done|]. split; [done|]. split; [intros k Hk; apply K1; lia|].
      intros k Hk. rewrite K2 by lia. rewrite list_lookup_insert_ne by lia. done.
Qed.
Lemma integral_ok res src : length src < length res -> exists res', integral_array res src = Some res' /\ length res' = length res /\
  (forall k, k <= length src -> res' !! k = Some (zsum (take k src) mod 2 ^ 32)%Z) /\
  forall k, length src < k -> res' !! k = res !! k.
Proof.
  intros HL. unfold integral_array. rewrite (proj2 (Nat.ltb_lt _ _)) by lia.
  destruct (integral_loop_ok src src 0 (<[0 := 0%Z]> res)) as (res' & E & L' & K1 & K2).
  - rewrite insert_length. lia.
  - done.
  - intros k Hk. assert (k = 0) as -> by lia. rewrite list_lookup_insert by lia. done.
  - rewrite insert_length in L'. exists res'. split; [done|]. split; [done|]. split; [done|]. intros k Hk. rewrite K2 by done.
    by rewrite list_lookup_insert_ne by lia.
Qed.
Lemma integral_short : forall src o res, length res <= o + length src -> o <= length res -> 0 < length src -> integral_loop src o res = None.
Proof.
  induction src as [|x src IH]; intros o res HL Ho Hs; cbn in Hs; [lia|]. cbn [integral_loop length] in *.
  destruct (res !! o) as [s|] eqn:E; [|done]. destruct (Nat.ltb_spec (o + 1) (length res)); [|done].
  apply IH; rewrite ?insert_length; try lia.
Qed.
Lemma integral_bounds res src : length res <= length src -> integral_array res src = None.
Proof.
  intros HL. unfold integral_array. destruct (Nat.ltb_spec 0 (length res)); [|done].
  apply integral_short; rewrite ?insert_length; lia.
Qed.

(* extremal values *)
Section best.
Context (lt : Z -> Z -> bool) (f : Z -> Z) (Hlt : forall a b, lt a b = true <-> (f a < f b)%Z).
Lemma lt_false a b : lt a b = false <-> (f b <= f a)%Z.
Proof using Hlt. rewrite <-not_true_iff_false, Hlt. lia. Qed.
Lemma compute_best_ok l : l <> [] -> exists m, compute_best lt l = Some m /\ m ∈ l /\ forall v, v ∈ l -> (f m <= f v)%Z.
Proof using Hlt.
  destruct l as [|x l]; [done|]. intros _. cbn. eexists. split; [done|].
  revert x. induction l as [|y l IH]; intros x; cbn.
  - split; [left|]. intros v ->%elem_of_list_singleton. lia.
  - destruct (IH (if lt y x then y else x)) as [H1 H2]. set (m := foldl _ _ _) in *. split.
    + apply elem_of_cons in H1 as [->|H1]; [destruct (lt y x); [right; left|left]|right; by right].
    + assert (f m <= f (if lt y x then y else x))%Z as H3 by (apply H2; left).
      assert (f (if lt y x then y else x) <= f x /\ f (if lt y x then y else x) <= f y)%Z as [H4 H5].
      { destruct (lt y x) eqn:E; [apply Hlt in E|apply lt_false in E]; lia. }
      intros v [->|[->|Hv]%elem_of_cons]%elem_of_cons; [lia|lia|]. apply H2. by right.
Qed.
Lemma index_of_best_ok l : l <> [] -> exists i m, index_of_best lt l = Some i /\ l !! i = Some m /\
  forall j v, l !! j = Some v -> (f m <= f v)%Z /\ (j < i -> (f m < f v)%Z).
Proof using Hlt.
  intros Hl. assert (0 < length l) as HL by (destruct l; cbn; [done|lia]). unfold index_of_best.
  match goal with |- exists i m, for_each ?g _ _ = _ /\ _ => destruct (for_each_ind g (fun k i => i < k /\ exists m, l !! i = Some m /\
    forall j v, j < k -> l !! j = Some v -> (f m <= f v)%Z /\ (j < i -> (f m < f v)%Z)) 1 (length l - 1) 0) as (i & E & Hi & m & Hm & HB) end.
  - split; [lia|]. destruct (lookup_lt_is_Some_2 l 0 HL) as [m Hm]. exists m. split; [done|]. intros j v Hj Hv.
    assert (j = 0) as -> by lia. assert (v = m) as -> by congruence. lia.
  - intros k i Hk (Hi & m & Hm & HB). destruct (lookup_lt_is_Some_2 l k ltac:(lia)) as [v Hv]. rewrite Hv, Hm. eexists. split; [done|].
    destruct (lt v m) eqn:E; [apply Hlt in E|apply lt_false in E].
    + split; [lia|]. exists v. split; [done|]. intros j w Hj Hw. destruct (decide (j = k)) as [->|].
      * assert (w = v) as -> by congruence. lia.
      * destruct (HB j w ltac:(lia) Hw). lia.
    + split; [lia|]. exists m. split; [done|]. intros j w Hj Hw. destruct (decide (j = k)) as [->|].
      * assert (w = v) as -> by congruence. lia.
      * apply HB; auto. lia.
  - exists i, m. split; [done|]. split; [done|]. intros j v Hv. apply lookup_lt_Some in Hv as Hl'. apply HB; auto. lia.
Qed.
End best.
Lemma compute_min_ok l : l <> [] -> exists m, compute_min l = Some m /\ m ∈ l /\ forall v, v ∈ l -> (m <= v)%Z.
Proof. apply (compute_best_ok Z.ltb id). intros a b. unfold id. apply Z.ltb_lt. Qed.
Lemma compute_max_ok l : l <> [] -> exists m, compute_max l = Some m /\ m ∈ l /\ forall v, v ∈ l -> (v <= m)%Z.
Proof.
  intros Hl. destruct (compute_best_ok (fun v m => Z.ltb m v) Z.opp) with (l := l) as (m & E & H1 & H2); [intros a b; rewrite Z.ltb_lt; lia|done|].
  exists m. split; [done|]. split; [done|]. intros v Hv. specialize (H2 v Hv). lia.
Qed.
Lemma index_of_min_ok l : l <> [] -> exists i m, index_of_min_value l = Some i /\ l !! i = Some m /\
  forall j v, l !! j = Some v -> (m <= v)%Z /\ (j < i -> (m < v)%Z).
Proof. apply (index_of_best_ok Z.ltb id). intros a b. unfold id. apply Z.ltb_lt. Qed.
Lemma index_of_max_ok l : l <> [] -> exists i m, index_of_max_value l = Some i /\ l !! i = Some m /\
  forall j v, l !! j = Some v -> (v <= m)%Z /\ (j < i -> (v < m)%Z).
Proof.
  intros Hl. destruct (index_of_best_ok (fun v m => Z.ltb m v) Z.opp) with (l := l) as (i & m & E & H1 & H2); [intros a b; rewrite Z.ltb_lt; lia|done|].
  exists i, m. split; [done|]. split; [done|]. intros j v Hv. destruct (H2 j v Hv). lia.
Qed.

(* flip_vector permutes; up to three elements it reverses *)
Lemma flip_perm l : exists l', flip_vector l = Some l' /\ l' ≡ₚ l.
Proof.
  unfold flip_vector. destruct (for_each_ind (fun i l1 => swap_at i (i + length l1 - i - 1) l1) (fun _ l1 => l1 ≡ₚ l) 0 (length l / 2) l) as (l' & E & H); eauto.
  intros i l1 Hi H1. assert (length l1 = length l) as HL by (by rewrite H1). pose proof (Nat.div_lt_upper_bound (length l) 2 (S (length l))).
  assert (length l / 2 <= length l) as H2 by (apply Nat.div_le_upper_bound; lia).
  destruct (swap_at_ok i (i + length l1 - i - 1) l1) as (a & b & Ha & Hb & ->); [lia|lia|].
  eexists. split; [done|]. rewrite swap_perm; auto.
Qed.
Lemma flip_short l : length l <= 3 -> flip_vector l = Some (reverse l).
Proof. destruct l as [|a [|b [|c [|d l]]]]; cbn; try done. lia. Qed.

(* multi indices *)
(* SPEC: a position in an array with the given sizes; its place in row-major order; the
   number of places *)
Definition position (ix sizes : list Z) : Prop := Forall2 (fun x s => (0 <= x < s)%Z) ix sizes.
Fixpoint place (ix sizes : list Z) (acc : Z) : Z :=
  match ix, sizes with x :: ix, s :: sizes => place ix sizes (acc * s + x) | _, _ => acc end.
Definition places (sizes : list Z) : Z := foldr Z.mul 1%Z sizes.

Lemma place_acc ix sizes acc : length ix = length sizes -> place ix sizes acc = (acc * places sizes + place ix sizes 0)%Z.
Proof.
  revert sizes acc. induction ix as [|x ix IH]; intros [|s sizes] acc HL; try discriminate; cbn; [lia|].
  injection HL as HL. rewrite (IH sizes (acc * s + x)%Z HL), (IH sizes (0 * s + x)%Z HL). unfold places. lia.
Qed.
Lemma place_bound ix sizes : position ix sizes -> (0 <= place ix sizes 0 < places sizes)%Z.
Proof.
  induction 1 as [|x s ix sizes Hx HF IH]; cbn; [lia|].
  rewrite (place_acc ix sizes (0 * s + x)%Z) by (by eapply Forall2_length). unfold places in *. nia.
Qed.
Lemma place_inj ix ix' sizes : position ix sizes -> position ix' sizes -> place ix sizes 0 = place ix' sizes 0 -> ix = ix'.
Proof.
  intros H. revert ix'. induction H as [|x s ix sizes Hx HF IH]; intros ix' H' E.
  - by apply Forall2_nil_inv_r in H' as ->.
  - apply Forall2_cons_inv_r in H' as (x' & ix2 & Hx' & HF' & ->). cbn in E.
    rewrite (place_acc ix sizes (0 * s + x)%Z) in E by (by eapply Forall2_length). rewrite (place_acc ix2 sizes (0 * s + x')%Z) in E by (by eapply Forall2_length).
    pose proof (place_bound _ _ HF). pose proof (place_bound _ _ HF'). assert (x = x') as -> by nia.
    f_equal. apply IH; auto. lia.
Qed.
Lemma places_app l l' : places (l ++ l') = (places l * places l')%Z.
Proof. unfold places. induction l as [|x l IH]; cbn; [lia|]. rewrite IH. lia. Qed.
Lemma place_snoc ix sizes x s acc : length ix = length sizes -> place (ix ++ [x]) (sizes ++ [s]) acc = (place ix sizes acc * s + x)%Z.
Proof. revert sizes acc. induction ix as [|y ix IH]; intros [|t sizes] acc HL; try discriminate; cbn; auto. Qed.
Lemma index_ok ix sizes : length ix = length sizes -> ix <> [] -> index_from_multi_index ix sizes = Some (place ix sizes 0).
Proof.
  intros HL Hne. unfold index_from_multi_index. destruct (exists_last Hne) as (ix0 & xl & Hix).
  rewrite Hix at 1. rewrite last_snoc. assert (length ix = S (length ix0)) as HLx by (rewrite Hix, app_length; cbn; lia).
  match goal with |- option_map _ (for_each ?g _ _) = _ => destruct (for_each_down g (fun i st =>
    st = (place (drop i ix) (drop i sizes) 0, places (drop (S i) sizes))) (length ix - 1) (xl, 1%Z)) as (st & E & ->) end.
  - rewrite HLx, Nat.sub_succ, Nat.sub_0_r.
    assert (drop (length ix0) ix = [xl]) as -> by (by rewrite Hix, drop_app).
    destruct (drop (length ix0) sizes) as [|s [|? ?]] eqn:ED; apply (f_equal length) in ED as EL; rewrite drop_length in EL; cbn in EL; try lia.
    cbn. f_equal. assert (drop (S (length ix0)) sizes = []) as -> by (apply drop_ge; lia). done.
  - intros i st Hi ->. destruct (lookup_lt_is_Some_2 sizes (i + 1) ltac:(lia)) as [s Hs]. destruct (lookup_lt_is_Some_2 ix i ltac:(lia)) as [x Hx].
    rewrite Hs, Hx. eexists. split; [done|]. destruct (lookup_lt_is_Some_2 sizes i ltac:(lia)) as [s0 Hs0].
    rewrite (drop_S _ _ _ Hx), (drop_S _ _ _ Hs0). cbn [place]. rewrite Nat.add_1_r in *. rewrite (drop_S _ _ _ Hs).
    assert (places (s :: drop (S (S i)) sizes) = s * places (drop (S (S i)) sizes))%Z as -> by done.
    rewrite <-(drop_S _ _ _ Hs). rewrite (place_acc _ _ (0 * s0 + x)%Z) by (rewrite !drop_length; lia).
    rewrite (drop_S _ _ _ Hs) at 2. cbn [places foldr]. fold (places (drop (S (S i)) sizes)). f_equal; lia.
  - rewrite E. cbn. rewrite !drop_0. done.
Qed.
Lemma multi_index_out index sizes : sizes <> [] -> multi_index_from_index index (length sizes) sizes = None.
Proof.
  intros Hne. unfold multi_index_from_index. destruct (for_each _ (seq 1 _) _) as [d|]; [|done].
  destruct (length sizes) as [|n] eqn:E; [by destruct sizes|]. rewrite seq_S.
  match goal with |- option_map _ (for_each ?g _ _) = None => assert (forall l s, for_each g (l ++ [0 + n]) s = None) as H end.
  { induction l as [|i l IH]; intros [[x y] z]; cbn [for_each app].
    - destruct (y =? 0)%Z; [done|]. rewrite (proj2 (lookup_ge_None sizes (0 + n + 1))) by lia. done.
    - destruct (y =? 0)%Z; [done|]. destruct (sizes !! (i + 1)); [|done]. destruct (z0 =? 0)%Z; [done|]. apply IH. }
  by rewrite H.
Qed.

(* rectangles *)
(* SPEC: the points of a rectangle *)
Definition covers (r : rect) (x y : Z) : Prop := (x_left r <= x < x_left r + x_w r)%Z /\ (x_top r <= y < x_top r + x_h r)%Z.
(* SPEC: u is the smallest rectangle containing the points of P *)
Definition hull (P : Z -> Z -> Prop) (u : rect) : Prop :=
  (forall x y, P x y -> covers u x y) /\
  forall q, (forall x y, P x y -> covers q x y) -> forall x y, covers u x y -> covers q x y.
(* SPEC: it has points *)
Definition solid (r : rect) : Prop := (0 < x_w r)%Z /\ (0 < x_h r)%Z.
Lemma solid_empty r : solid r -> is_empty r = false.
Proof. intros [H _]. unfold is_empty. by rewrite (proj2 (Z.eqb_neq 0 (x_w r))) by lia. Qed.

Lemma append_rect_hull r a : solid r -> solid a -> hull (fun x y => covers r x y \/ covers a x y) (append_rect r a).
Proof.
  intros Hr Ha. unfold append_rect. rewrite (solid_empty r Hr). unfold solid, hull, covers, right_of, bottom_of in *. cbn. split.
  - lia.
  - intros q Hq x y Hxy.
    pose proof (Hq (x_left r) (x_top r) ltac:(lia)). pose proof (Hq (x_left r + x_w r - 1)%Z (x_top r + x_h r - 1)%Z ltac:(lia)).
    pose proof (Hq (x_left a) (x_top a) ltac:(lia)). pose proof (Hq (x_left a + x_w a - 1)%Z (x_top a + x_h a - 1)%Z ltac:(lia)). lia.
Qed.
Lemma append_point_hull r x y : solid r -> hull (fun u v => covers r u v \/ (u = x /\ v = y)) (append_point r x y).
Proof.
  intros Hr. unfold append_point. rewrite (solid_empty r Hr). unfold solid, hull, covers, right_of, bottom_of in *.
  destruct (Z.ltb_spec (x_left r + x_w r - 1) x), (Z.ltb_spec x (x_left r)), (Z.ltb_spec (x_top r + x_h r - 1) y), (Z.ltb_spec y (x_top r)); try lia;
  (split; [cbn; lia|]; intros q Hq u v Huv; cbn in Huv;
   pose proof (Hq (x_left r) (x_top r) ltac:(lia)); pose proof (Hq (x_left r + x_w r - 1)%Z (x_top r + x_h r - 1)%Z ltac:(lia));
   pose proof (Hq x y ltac:(lia)); lia).
Qed.
Lemma append_point_empty r x y : is_empty r = true -> hull (fun u v => u = x /\ v = y) (append_point r x y).
Proof.
  intros Hr. unfold append_point. rewrite Hr. unfold hull, covers. cbn. split; [lia|]. intros q Hq u v Huv. specialize (Hq x y). lia.
Qed.
Lemma append_empty_rect r a : is_empty r = true -> append_rect r a = a.
Proof. intros Hr. unfold append_rect. by rewrite Hr. Qed.
(* appending an empty rectangle moves the corner unless it lies inside *)
Lemma append_nothing r a : solid r -> is_empty a = true ->
  (append_rect r a = r <-> (x_left r <= x_left a <= x_left r + x_w r)%Z /\ (x_top r <= x_top a <= x_top r + x_h r)%Z).
Proof.
  intros Hr Ha. unfold append_rect. rewrite (solid_empty r Hr). unfold is_empty in Ha. apply andb_prop in Ha as [H1 H2].
  apply Z.eqb_eq in H1, H2. destruct r as [l t w h], a as [l' t' w' h']. unfold solid, right_of, bottom_of in *. cbn in *. subst. split.
  - intros [= H1 H2 H3 H4]. lia.
  - intros. f_equal; lia.
Qed.
