(* The partitions tile the image and their buffers are disjoint. *)
From stdpp Require Import sorting relations functions list.
From Coq Require Import NArith.
From Verif Require Import Spec TreeSpec FloodModel PartModel.

Lemma cuts_lookup n width cur total i : i < n -> cuts n width cur total !! i =
  Some (cur + i * width, if S i =? n then total - (cur + i * width) else width).
Proof.
  revert cur i. induction n as [|n IH]; intros cur i Hi; [lia|].
  destruct n as [|n].
  - assert (i = 0) as -> by lia. simpl. f_equal. f_equal; lia.
  - change (cuts (S (S n)) width cur total) with ((cur, width) :: cuts (S n) width (cur + width) total).
    destruct i as [|i].
    + simpl. f_equal. f_equal. lia.
    + cbn [lookup list_lookup]. fold (@list_lookup (nat * nat)).
      change (cuts (S n) width (cur + width) total !! i = Some (cur + S i * width,
        if S (S i) =? S (S n) then total - (cur + S i * width) else width)).
      rewrite IH by lia. f_equal.
      replace (cur + width + i * width) with (cur + S i * width) by lia. done.
Qed.
Lemma cuts_length n width cur total : length (cuts n width cur total) = n.
Proof.
  revert cur. induction n as [|n IH]; intros cur; [done|]. destruct n as [|n]; [done|].
  change (S (length (cuts (S n) width (cur + width) total)) = S (S n)). by rewrite IH.
Qed.

(* the pieces of one axis *)
Definition cut_start (n total i : nat) : nat := i * (total / n).
Definition cut_size (n total i : nat) : nat :=
  if S i =? n then total - i * (total / n) else total / n.
Lemma cut_at n total i : i < n ->
  cuts n (total / n) 0 total !! i = Some (cut_start n total i, cut_size n total i).
Proof. intros Hi. by rewrite cuts_lookup. Qed.

Lemma cut_inside n total i : i < n -> cut_start n total i + cut_size n total i <= total.
Proof.
  intros Hi. unfold cut_start, cut_size. pose proof (Nat.mul_div_le total n ltac:(lia)).
  destruct (Nat.eqb_spec (S i) n); nia.
Qed.
(* consecutive pieces touch *)
Lemma cut_next n total i : S i < n -> cut_start n total (S i) = cut_start n total i + cut_size n total i.
Proof. intros Hi. unfold cut_start, cut_size. destruct (Nat.eqb_spec (S i) n); lia. Qed.
(* the piece of an axis that holds coordinate x *)
Definition cut_idx (n total x : nat) : nat :=
  if (n - 1) * (total / n) <=? x then n - 1 else x / (total / n).
Lemma cut_idx_ok n total x : 0 < n -> x < total -> cut_idx n total x < n /\
  cut_start n total (cut_idx n total x) <= x <
  cut_start n total (cut_idx n total x) + cut_size n total (cut_idx n total x).
Proof.
  intros Hn Hx. unfold cut_idx, cut_start, cut_size. set (w := total / n).
  destruct (Nat.leb_spec ((n - 1) * w) x) as [Hle|Hlt].
  - split; [lia|]. replace (S (n - 1)) with n by lia. rewrite Nat.eqb_refl. lia.
  - assert (w <> 0) by nia. pose proof (Nat.div_mod x w ltac:(lia)).
    pose proof (Nat.mod_upper_bound x w ltac:(lia)).
    assert (x / w < n - 1) as Hq. { apply Nat.div_lt_upper_bound; lia. }
    split; [lia|]. destruct (Nat.eqb_spec (S (x / w)) n); [lia|]. nia.
Qed.
Lemma cut_find n total x : 0 < n -> x < total ->
  exists i, i < n /\ cut_start n total i <= x < cut_start n total i + cut_size n total i.
Proof. intros. exists (cut_idx n total x). by apply cut_idx_ok. Qed.
Lemma cut_unique n total x i j : i < n -> j < n ->
  cut_start n total i <= x < cut_start n total i + cut_size n total i ->
  cut_start n total j <= x < cut_start n total j + cut_size n total j -> i = j.
Proof.
  unfold cut_start, cut_size. set (w := total / n). intros Hi Hj H1 H2.
  destruct (Nat.eqb_spec (S i) n), (Nat.eqb_spec (S j) n); nia.
Qed.
Lemma cut_pos n total i : i < n -> n <= total -> 0 < cut_size n total i.
Proof.
  intros Hi Hn. unfold cut_size. pose proof (Nat.mul_div_le total n ltac:(lia)).
  assert (0 < total / n) by (apply Nat.div_str_pos; lia).
  destruct (Nat.eqb_spec (S i) n); nia.
Qed.
Lemma cut_sum n total : 0 < n -> sum_list (map (cut_size n total) (seq 0 n)) = total.
Proof.
  intros Hn.
  assert (forall m, m < n -> sum_list (map (cut_size n total) (seq 0 m)) = m * (total / n)) as H.
  { induction m as [|m IH]; intros Hm; [done|]. rewrite seq_S, map_app. cbn [map].
    rewrite sum_list_with_app, IH by lia.
    assert (sum_list [cut_size n total (0 + m)] = total / n) as ->; [|lia].
    simpl. unfold cut_size. destruct (Nat.eqb_spec (S m) n); lia. }
  destruct n as [|n]; [lia|]. rewrite seq_S, map_app. cbn [map]. rewrite sum_list_with_app, H by lia.
  assert (cut_size (S n) total (0 + n) = total - n * (total / S n)) as Hc.
  { unfold cut_size. cbn [Nat.add]. by rewrite Nat.eqb_refl. }
  pose proof (Nat.mul_div_le total (S n) ltac:(lia)). cbn [sum_list_with]. unfold id. rewrite Hc. nia.
Qed.

Lemma flat_map_lookup {A B} (f : A -> list B) (l : list A) m i j x :
  (forall a, length (f a) = m) -> j < m -> l !! i = Some x -> flat_map f l !! (i * m + j) = f x !! j.
Proof.
  intros Hm Hj. revert i. induction l as [|a l IH]; intros i Hi; [done|]. cbn [flat_map].
  destruct i as [|i].
  - injection Hi as ->. rewrite lookup_app_l; [done|]. rewrite Hm. lia.
  - rewrite lookup_app_r by (rewrite Hm; lia). rewrite Hm.
    replace (S i * m + j - m) with (i * m + j) by lia. by apply IH.
Qed.
Lemma flat_map_length {A B} (f : A -> list B) (l : list A) m :
  (forall a, length (f a) = m) -> length (flat_map f l) = length l * m.
Proof. intros Hm. induction l as [|a l IH]; [done|]. simpl. rewrite app_length, Hm, IH. done. Qed.

Section grid.
Context (hpn vpn cols rows : nat) (Hh : 0 < hpn) (Hv : 0 < vpn).
Notation R := (rects hpn vpn cols rows).

Definition rect_at (v h : nat) : prect :=
  PRect (cut_start vpn rows v) (cut_start hpn cols h) (cut_size hpn cols h) (cut_size vpn rows v).

Lemma rects_at v h : v < vpn -> h < hpn -> R !! (v * hpn + h) = Some (rect_at v h).
Proof.
  intros Hv' Hh'. unfold rects.
  rewrite (flat_map_lookup _ _ hpn v h (cut_start vpn rows v, cut_size vpn rows v)).
  - rewrite list_lookup_fmap, cut_at by auto. done.
  - intros a. by rewrite map_length, cuts_length.
  - done.
  - by apply cut_at.
Qed.
Lemma rects_length : length R = vpn * hpn.
Proof.
  unfold rects. rewrite (flat_map_length _ _ hpn), cuts_length; auto.
  intros a. by rewrite map_length, cuts_length.
Qed.
Lemma rects_inv k r : R !! k = Some r ->
  exists v h, v < vpn /\ h < hpn /\ k = v * hpn + h /\ r = rect_at v h.
Proof.
  intros Hk. pose proof (lookup_lt_Some _ _ _ Hk) as Hlt. rewrite rects_length in Hlt.
  exists (k / hpn), (k mod hpn). pose proof (Nat.div_mod k hpn ltac:(lia)).
  pose proof (Nat.mod_upper_bound k hpn ltac:(lia)).
  assert (k / hpn < vpn) by (apply Nat.div_lt_upper_bound; nia).
  assert (k = k / hpn * hpn + k mod hpn) as He by nia.
  split; auto. split; auto. split; auto.
  pose proof (rects_at (k / hpn) (k mod hpn)) as Ha. rewrite <-He in Ha. rewrite Ha in Hk by auto. congruence.
Qed.

(* SPEC: pixel p belongs to partition k *)
Definition in_part (rs : list prect) (cols k p : nat) : Prop :=
  exists r, rs !! k = Some r /\ in_rect cols (r_top r) (r_left r) (r_w r) (r_h r) p.

Lemma part_at v h p : v < vpn -> h < hpn -> in_part R cols (v * hpn + h) p <->
  cut_start vpn rows v <= p / cols < cut_start vpn rows v + cut_size vpn rows v /\
  cut_start hpn cols h <= p mod cols < cut_start hpn cols h + cut_size hpn cols h.
Proof.
  intros Hv' Hh'. unfold in_part. split.
  - intros (r & Hr & Hp). rewrite rects_at in Hr by auto. injection Hr as <-. exact Hp.
  - intros Hp. exists (rect_at v h). split; [by apply rects_at|]. exact Hp.
Qed.

Lemma part_unique p k k' : in_part R cols k p -> in_part R cols k' p -> k = k'.
Proof.
  intros H H'. pose proof H as (r & Hr & _). pose proof H' as (r' & Hr' & _).
  apply rects_inv in Hr as (v & h & Hv1 & Hh1 & -> & _).
  apply rects_inv in Hr' as (v' & h' & Hv2 & Hh2 & -> & _).
  apply part_at in H as [A1 A2]; auto. apply part_at in H' as [B1 B2]; auto.
  rewrite (cut_unique vpn rows (p / cols) v v'), (cut_unique hpn cols (p mod cols) h h'); auto.
Qed.
(* the partition of a pixel *)
Definition partf (p : nat) : nat := cut_idx vpn rows (p / cols) * hpn + cut_idx hpn cols (p mod cols).
Lemma partf_ok p : p < rows * cols -> partf p < vpn * hpn /\ in_part R cols (partf p) p.
Proof.
  intros Hp. assert (cols <> 0) by lia.
  destruct (cut_idx_ok hpn cols (p mod cols)) as (Hh1 & Hh2); auto. { by apply Nat.mod_upper_bound. }
  destruct (cut_idx_ok vpn rows (p / cols)) as (Hv1 & Hv2); auto. { apply Nat.div_lt_upper_bound; lia. }
  unfold partf. split; [nia|]. apply part_at; auto.
Qed.
Lemma part_find p : p < rows * cols -> exists k, k < vpn * hpn /\ in_part R cols k p.
Proof. intros Hp. exists (partf p). by apply partf_ok. Qed.
Lemma part_inside p k : in_part R cols k p -> p < rows * cols.
Proof.
  intros H. pose proof H as (r & Hr & _). apply rects_inv in Hr as (v & h & Hv1 & Hh1 & -> & _).
  apply part_at in H as [A1 A2]; auto. pose proof (cut_inside vpn rows v Hv1).
  pose proof (cut_inside hpn cols h Hh1).
  assert (cols <> 0) by lia. pose proof (Nat.div_mod p cols ltac:(lia)). nia.
Qed.
Lemma partf_iff p k : p < rows * cols -> in_part R cols k p <-> partf p = k.
Proof.
  intros Hp. destruct (partf_ok p Hp) as [_ H]. split; [intros H'; by eapply part_unique|intros <-; auto].
Qed.
Lemma rects_inside k r : R !! k = Some r -> r_top r + r_h r <= rows /\ r_left r + r_w r <= cols.
Proof.
  intros Hr. apply rects_inv in Hr as (v & h & Hv1 & Hh1 & -> & ->). simpl.
  split; by apply cut_inside.
Qed.

(* sizes of buffers *)
Definition words (r : prect) : nat := (r_w r + 2) * (r_h r + 2).
Definition slots (r : prect) : nat := r_w r * r_h r + 257.

Lemma wrap_small n : (N.of_nat n < 2 ^ 31)%N -> wrap32 n = n.
Proof. clear. intros H. unfold wrap32. rewrite N.mod_small; [lia|]. lia. Qed.

Lemma map_cuts {B} n total (f : nat * nat -> B) : map f (cuts n (total / n) 0 total) =
  map (fun i => f (cut_start n total i, cut_size n total i)) (seq 0 n).
Proof.
  clear. apply list_eq. intros i. rewrite !list_lookup_fmap. destruct (le_lt_dec n i) as [Hi|Hi].
  - rewrite (lookup_ge_None_2 (cuts _ _ _ _)) by (rewrite cuts_length; lia).
    rewrite (lookup_ge_None_2 (seq 0 n)) by (rewrite seq_length; lia). done.
  - rewrite cut_at by auto. rewrite lookup_seq_lt by auto. done.
Qed.
Lemma sum_map_add {A} (f : A -> nat) c l : sum_list (map (fun x => f x + c) l) = sum_list (map f l) + c * length l.
Proof. clear. induction l as [|x l IH]; [simpl; lia|]. cbn [map length sum_list_with]. unfold id in *. rewrite IH. lia. Qed.
Lemma sum_map_mul {A} (f : A -> nat) c l : sum_list (map (fun x => f x * c) l) = sum_list (map f l) * c.
Proof. clear. induction l as [|x l IH]; [done|]. cbn [map sum_list_with]. unfold id in *. rewrite IH. lia. Qed.
Lemma sum_cut n total : 0 < n -> sum_list (map snd (cuts n (total / n) 0 total)) = total.
Proof. clear. intros Hn. rewrite map_cuts. cbn [snd]. by apply cut_sum. Qed.
Lemma sum_plus2 n total : 0 < n -> sum_list (map (fun lw => snd lw + 2) (cuts n (total / n) 0 total)) = total + 2 * n.
Proof. clear. intros Hn. rewrite sum_map_add, sum_cut, cuts_length by auto. done. Qed.

(* the sum over the grid of a product *)
Lemma sum_grid (f g : nat -> nat) : sum_list (map (fun r => f (r_w r) * g (r_h r)) R) =
  sum_list (map (fun lw => f (snd lw)) (cuts hpn (cols / hpn) 0 cols)) *
  sum_list (map (fun vh => g (snd vh)) (cuts vpn (rows / vpn) 0 rows)).
Proof.
  clear. unfold rects. generalize (cuts hpn (cols / hpn) 0 cols) as A. generalize (cuts vpn (rows / vpn) 0 rows) as B.
  intros B A. induction B as [|b B IH]; [simpl; lia|]. cbn [flat_map map sum_list_with].
  rewrite map_app, sum_list_with_app, IH. rewrite map_map. cbn [r_w r_h].
  rewrite (sum_map_mul (fun lw => f (snd lw)) (g (snd b)) A). unfold id. lia.
Qed.
Lemma words_sum : sum_list (map words R) = (cols + 2 * hpn) * (rows + 2 * vpn).
Proof.
  unfold words. rewrite (sum_grid (fun w => w + 2) (fun h => h + 2)). by rewrite !sum_plus2.
Qed.
Lemma slots_sum : sum_list (map slots R) = rows * cols + 257 * (vpn * hpn).
Proof.
  unfold slots. rewrite (sum_map_add (fun r => r_w r * r_h r) 257).
  rewrite (sum_grid (fun w => w) (fun h => h)), rects_length.
  change (map (fun lw : nat * nat => snd lw)) with (map (@snd nat nat)). rewrite !sum_cut by auto. lia.
Qed.

(* the allocation is large enough, without wrap around *)
Lemma fold_wrap (f : nat * nat -> nat) l s :
  (N.of_nat (s + sum_list (map f l)) < 2 ^ 31)%N ->
  fold_left (fun s x => wrap32 (s + wrap32 (f x))) l s = s + sum_list (map f l).
Proof.
  clear. revert s. induction l as [|x l IH]; intros s Hs; [simpl; lia|]. cbn [fold_left map sum_list_with] in *.
  unfold id in *. rewrite (wrap_small (f x)), wrap_small by lia. rewrite IH; lia.
Qed.
Lemma pt_size_eq : (N.of_nat ((cols + 2 * hpn) * (rows + 2 * vpn)) < 2 ^ 31)%N ->
  pt_size hpn vpn cols rows = (cols + 2 * hpn) * (rows + 2 * vpn).
Proof.
  intros Hs. unfold pt_size. rewrite <-(sum_plus2 hpn cols Hh) in *.
  assert (forall (l : list (nat * nat)) s, (N.of_nat (s + sum_list (map (fun lw => (snd lw + 2)%nat) l) * (rows + 2 * vpn)) < 2 ^ 31)%N ->
    fold_left (fun s lw => fold_left (fun s vh => wrap32 (s + wrap32 ((snd lw + 2) * (snd vh + 2))))
      (cuts vpn (rows / vpn) 0 rows) s) l s = s + sum_list (map (fun lw : nat * nat => snd lw + 2) l) * (rows + 2 * vpn)) as H.
  { intros l. induction l as [|lw l IH]; intros s Hs'; [simpl; lia|]. cbn [fold_left map sum_list_with] in *.
    assert (sum_list (map (fun vh => (snd lw + 2) * (snd vh + 2)) (cuts vpn (rows / vpn) 0 rows)) = (snd lw + 2) * (rows + 2 * vpn)) as He.
    { rewrite <-(sum_plus2 vpn rows Hv). rewrite Nat.mul_comm. rewrite <-(sum_map_mul (fun vh => snd vh + 2)).
      f_equal. apply map_ext. intros. lia. }
    rewrite (fold_wrap (fun vh => (snd lw + 2) * (snd vh + 2))); rewrite He; unfold id in *; [|lia]. rewrite IH; lia. }
  rewrite H by (simpl; lia). lia.
Qed.
Lemma h_size_eq : (N.of_nat (rows * cols + 257 * (vpn * hpn)) < 2 ^ 31)%N ->
  h_size (vpn * hpn) cols rows = rows * cols + 257 * (vpn * hpn).
Proof. intros Hs. unfold h_size. by apply wrap_small. Qed.

Lemma layout_ok rs po ho :
  (N.of_nat (po + sum_list (map words rs)) < 2 ^ 31)%N ->
  (N.of_nat (ho + sum_list (map slots rs)) < 2 ^ 31)%N ->
  exists offs, layout rs po ho = Some offs /\ length offs = length rs /\
    forall k r, rs !! k = Some r ->
      offs !! k = Some (po + sum_list (map words (take k rs)), ho + sum_list (map slots (take k rs))).
Proof.
  clear. revert po ho. induction rs as [|r rs IH]; intros po ho Hp Hs; [by exists []|].
  cbn [layout map sum_list_with] in *. unfold id in *.
  assert (r_w r * r_h r <= slots r) by (unfold slots; lia).
  fold (words r). unfold i32_ok at 1. destruct (N.ltb_spec (N.of_nat (words r)) (2 ^ 31)); [|lia].
  unfold i32_ok at 1. destruct (N.ltb_spec (N.of_nat (r_w r * r_h r)) (2 ^ 31)); [|lia].
  unfold i32_ok at 1. destruct (N.ltb_spec (N.of_nat (po + words r)) (2 ^ 31)); [|lia].
  fold (slots r). unfold i32_ok at 1. destruct (N.ltb_spec (N.of_nat (ho + slots r)) (2 ^ 31)); [|lia].
  destruct (IH (po + words r) (ho + slots r)) as (offs & -> & Hl & Ho); [lia|lia|].
  eexists. split; [done|]. split; [simpl; by rewrite Hl|]. intros k r' Hk. destruct k as [|k].
  - simpl. f_equal. f_equal; lia.
  - cbn [take map sum_list_with]. unfold id. change (offs !! k = Some (po + (words r + sum_list (map words (take k rs))),
      ho + (slots r + sum_list (map slots (take k rs))))).
    rewrite (Ho k r') by done. unfold id. f_equal. f_equal; lia.
Qed.
End grid.

(* SPEC: consecutive disjoint slices inside an allocation of size total; slice k
   starts at start k and has size k elements *)
Definition disjoint_slices (n : nat) (start size : nat -> nat) (total : nat) : Prop :=
  (forall k, k < n -> start k + size k <= total) /\
  (forall j k, j < k -> k < n -> start j + size j <= start k).

Lemma take_sum {A} (f : A -> nat) l k x : l !! k = Some x ->
  sum_list (map f (take (S k) l)) = sum_list (map f (take k l)) + f x.
Proof.
  intros Hk. rewrite (take_S_r _ _ _ Hk), map_app, sum_list_with_app. simpl. unfold id. lia.
Qed.
Lemma take_sum_le {A} (f : A -> nat) l j k : j <= k ->
  sum_list (map f (take j l)) <= sum_list (map f (take k l)).
Proof.
  intros Hle. replace k with (j + (k - j)) by lia. rewrite <-take_take_drop, map_app, sum_list_with_app. lia.
Qed.
Lemma sum_slices {A} (f : A -> nat) l total : total = sum_list (map f l) ->
  disjoint_slices (length l) (fun k => sum_list (map f (take k l)))
    (fun k => match l !! k with Some x => f x | None => 0 end) total.
Proof.
  intros ->. split.
  - intros k Hk. apply lookup_lt_is_Some in Hk as [x Hx]. rewrite Hx, <-(take_sum f l k x Hx).
    rewrite <-(firstn_all l) at 2. apply (take_sum_le f l (S k) (length l)). by apply lookup_lt_Some in Hx.
  - intros j k Hjk Hk. assert (is_Some (l !! j)) as [x Hx] by (apply lookup_lt_is_Some; lia).
    rewrite Hx, <-(take_sum f l j x Hx). apply take_sum_le. lia.
Qed.

(* SPEC: what C07 asks of the partition of an image *)
Record tiles (threads cols rows : nat) (rs : list prect) (offs : list (nat * nat)) (psize hsize : nat) : Prop := {
  t_len : length rs = threads;
  t_cover : forall p, p < rows * cols -> exists k, k < threads /\ in_part rs cols k p;
  t_once : forall p k k', in_part rs cols k p -> in_part rs cols k' p -> k = k';
  t_inside : forall k p, in_part rs cols k p -> p < rows * cols;
  t_points : disjoint_slices threads (fun k => match offs !! k with Some o => fst o | None => psize end)
    (fun k => match rs !! k with Some r => (r_w r + 2) * (r_h r + 2) | None => 0 end) psize;
  t_heap : disjoint_slices threads (fun k => match offs !! k with Some o => snd o | None => hsize end)
    (fun k => match rs !! k with Some r => r_w r * r_h r + 257 | None => 0 end) hsize
}.

Lemma grid_pos threads hpn vpn : grid_of threads = Some (hpn, vpn) ->
  0 < hpn /\ 0 < vpn /\ vpn * hpn = threads.
Proof.
  unfold grid_of. destruct (Nat.eqb_spec threads 1); [intros [= <- <-]; lia|].
  destruct (Nat.eqb_spec threads 4); [intros [= <- <-]; lia|].
  destruct (Nat.eqb_spec threads 32); [intros [= <- <-]; lia|done].
Qed.

Lemma slices_ext n s s' z z' t : (forall k, k < n -> s k = s' k) -> (forall k, k < n -> z k = z' k) ->
  disjoint_slices n s z t -> disjoint_slices n s' z' t.
Proof.
  intros Hs Hz [H1 H2]. split.
  - intros k Hk. rewrite <-Hs, <-Hz by auto. auto.
  - intros j k Hjk Hk. rewrite <-!Hs, <-Hz by lia. auto.
Qed.

Lemma partition_tiles threads hpn vpn cols rows : grid_of threads = Some (hpn, vpn) ->
  (N.of_nat ((cols + 2 * hpn) * (rows + 2 * vpn) + 257 * threads) < 2 ^ 31)%N ->
  exists offs, layout (rects hpn vpn cols rows) 0 0 = Some offs /\
    tiles threads cols rows (rects hpn vpn cols rows) offs (pt_size hpn vpn cols rows) (h_size threads cols rows).
Proof.
  intros Hg Hs. destruct (grid_pos _ _ _ Hg) as (Hh & Hv & Ht).
  assert (rows * cols <= (cols + 2 * hpn) * (rows + 2 * vpn)) by nia.
  destruct (layout_ok (rects hpn vpn cols rows) 0 0) as (offs & Hl & Hlen & Ho).
  { rewrite words_sum by auto. lia. }
  { rewrite slots_sum by auto. lia. }
  assert (forall k, k < threads -> exists r, rects hpn vpn cols rows !! k = Some r) as Hr.
  { intros k Hk. apply lookup_lt_is_Some. by rewrite rects_length, Ht. }
  exists offs. split; auto. constructor.
  - by rewrite rects_length.
  - intros p Hp. rewrite <-Ht. by apply part_find.
  - intros p k k'. by apply part_unique.
  - intros k p. by apply part_inside.
  - rewrite pt_size_eq by (auto; lia). eapply slices_ext.
    3: { rewrite <-Ht, <-(rects_length hpn vpn cols rows). apply (sum_slices words). by rewrite words_sum. }
    + intros k Hk. destruct (Hr k Hk) as [r Hkr]. rewrite (Ho k r Hkr). done.
    + intros k Hk. done.
  - rewrite <-Ht at 2. rewrite h_size_eq by lia. eapply slices_ext.
    3: { rewrite <-Ht, <-(rects_length hpn vpn cols rows). apply (sum_slices slots). rewrite slots_sum; auto. by rewrite rects_length. }
    + intros k Hk. destruct (Hr k Hk) as [r Hkr]. rewrite (Ho k r Hkr). done.
    + intros k Hk. done.
Qed.
