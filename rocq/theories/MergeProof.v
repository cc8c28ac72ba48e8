(* The joining schedule: which pixel pairs are joined, and the tree that results. *)
From stdpp Require Import sorting relations functions list.
From Coq Require Import NArith.
From Verif Require Import Spec TreeSpec TreeFacts JoinMath FloodModel FloodCorrect ConnectModel ConnectProof
  PartModel PartProof.

(* ---------- the joins as a list ---------- *)

(* SPEC: a pixel word: partition and offset in its bordered array *)
Notation wref := (nat * nat)%type.

(* the word pairs visited by the loop over one seam, img_fast_mser_v2.cpp:562-579,587-604 *)
Fixpoint walk (n ka offa sa kb offb sb : nat) : list (wref * wref) :=
  match n with
  | O => []
  | S n' => ((ka, offa), (kb, offb)) :: walk n' ka (offa + sa) sa kb (offb + sb) sb
  end.
(* the same for the seam of partitions ka and kb, img_fast_mser_v2.cpp:555-604 *)
Definition seam_words (rs : list prect) (lr : bool) (ka kb : nat) : list (wref * wref) :=
  match rs !! ka, rs !! kb with
  | Some ra, Some rb =>
      if lr then walk (r_h ra) ka (r_w ra + (r_w ra + 2)) (r_w ra + 2) kb (1 + (r_w rb + 2)) (r_w rb + 2)
      else walk (r_w ra) ka (r_h ra * (r_w ra + 2) + 1) 1 kb (r_w rb + 2 + 1) 1
  | _, _ => []
  end.
(* the seams of a schedule, img_fast_mser_v2.cpp:553-605 *)
Definition seams (sched : list (list nat * nat * bool)) : list (nat * nat * bool) :=
  flat_map (fun s => map (fun k => (k, k + snd (fst s), snd s)) (fst (fst s))) sched.
(* SPEC: the word pairs joined by a schedule, in order *)
Definition sched_words (rs : list prect) (sched : list (list nat * nat * bool)) : list (wref * wref) :=
  flat_map (fun s => seam_words rs (snd s) (fst (fst s)) (snd (fst s))) (seams sched).

(* SPEC: joining the pairs of a list one after the other *)
Fixpoint join_list (fuel : nat) (bnd : N) (P : list pinfo) (l : list (wref * wref)) (F : forest)
  : option forest :=
  match l with
  | [] => Some F
  | (a, b) :: rest =>
      match join_pair fuel bnd P F (fst a) (snd a) (fst b) (snd b) with
      | Some F' => join_list fuel bnd P rest F'
      | None => None
      end
  end.

Lemma join_list_app fuel bnd P l l' F : join_list fuel bnd P (l ++ l') F =
  match join_list fuel bnd P l F with Some F' => join_list fuel bnd P l' F' | None => None end.
Proof.
  revert F. induction l as [|[a b] l IH]; intros F; [done|]. cbn [app join_list].
  destruct (join_pair fuel bnd P F a.1 a.2 b.1 b.2); [apply IH|done].
Qed.

Lemma walk_join fuel bnd P n ka offa sa kb offb sb F :
  for_n n (seam_iter fuel bnd P ka sa kb sb) (F, offa, offb) =
  match join_list fuel bnd P (walk n ka offa sa kb offb sb) F with
  | Some F' => Some (F', offa + n * sa, offb + n * sb) | None => None end.
Proof.
  revert F offa offb. induction n as [|n IH]; intros F offa offb.
  - simpl. repeat f_equal; lia.
  - cbn [for_n walk join_list seam_iter fst snd].
    destruct (join_pair fuel bnd P F ka offa kb offb) as [F1|]; [|done]. rewrite IH.
    destruct (join_list _ _ _ _ _); [|done].
    replace (offa + sa + n * sa) with (offa + S n * sa) by lia.
    by replace (offb + sb + n * sb) with (offb + S n * sb) by lia.
Qed.

(* SPEC: the partition records carry the partition rectangles *)
Definition geo (P : list pinfo) (rs : list prect) : Prop :=
  map (fun pi => PRect (pi_top pi) (pi_left pi) (pi_w pi) (pi_h pi)) P = rs.

Lemma geo_lookup P rs k r : geo P rs -> rs !! k = Some r ->
  exists pi, P !! k = Some pi /\ pi_w pi = r_w r /\ pi_h pi = r_h r.
Proof.
  intros <- Hk. rewrite list_lookup_fmap in Hk. destruct (P !! k) as [pi|]; [|done].
  injection Hk as <-. eauto.
Qed.

Lemma seam_join fuel bnd P rs lr ka kb F : geo P rs -> ka < length rs -> kb < length rs ->
  join_seam fuel bnd P lr ka kb F = join_list fuel bnd P (seam_words rs lr ka kb) F.
Proof.
  intros HG Ha Hb. apply lookup_lt_is_Some in Ha as [ra Ha]. apply lookup_lt_is_Some in Hb as [rb Hb].
  unfold join_seam, seam_words. rewrite Ha, Hb.
  destruct (geo_lookup _ _ _ _ HG Ha) as (pa & -> & Hw & Hh).
  destruct (geo_lookup _ _ _ _ HG Hb) as (pb & -> & Hw' & Hh').
  rewrite Hw, Hh, Hw'. destruct lr; rewrite walk_join; by destruct (join_list _ _ _ _ _).
Qed.

Lemma step_join fuel bnd P rs ks step lr F : geo P rs ->
  Forall (fun k => k + step < length rs) ks ->
  merge_step fuel bnd P ks step lr F = join_list fuel bnd P
    (flat_map (fun s => seam_words rs (snd s) (fst (fst s)) (snd (fst s)))
       (map (fun k => (k, k + step, lr)) ks)) F.
Proof.
  intros HG. revert F. induction ks as [|k ks IH]; intros F Hk; [done|].
  apply Forall_cons in Hk as [Hk Hks]. cbn [merge_step map flat_map fst snd].
  rewrite join_list_app, (seam_join fuel bnd P rs) by (auto; lia).
  destruct (join_list _ _ _ _ _); [|done]. by apply IH.
Qed.

(* SPEC: the partitions of a schedule exist *)
Definition sched_in (n : nat) (sched : list (list nat * nat * bool)) : Prop :=
  Forall (fun s => Forall (fun k => k + snd (fst s) < n) (fst (fst s))) sched.

Lemma seq_join fuel bnd P rs sched F : geo P rs -> sched_in (length rs) sched ->
  merge_seq fuel bnd P sched F = join_list fuel bnd P (sched_words rs sched) F.
Proof.
  intros HG. revert F. induction sched as [|[[ks step] lr] sched IH]; intros F Hs; [done|].
  apply Forall_cons in Hs as [Hk Hs]. unfold sched_words, seams. cbn [merge_seq flat_map fst snd].
  rewrite flat_map_app, join_list_app, (step_join fuel bnd P rs) by auto.
  cbn [fst snd]. destruct (join_list _ _ _ _ _); [|done]. by apply IH.
Qed.

(* ---------- the joins as pixel pairs ---------- *)

(* SPEC: the word w holds the label of pixel p *)
Definition word_px (rs : list prect) (cols : nat) (w : wref) (p : nat) : Prop :=
  exists r y x, rs !! fst w = Some r /\ y < r_h r /\ x < r_w r /\
    snd w = (y + 1) * (r_w r + 2) + (x + 1) /\ p = (r_top r + y) * cols + (r_left r + x).

(* SPEC: the pixel pairs along the common edge of two rectangles *)
Definition seam_px (cols : nat) (lr : bool) (ra rb : prect) : list (nat * nat) :=
  if lr then map (fun i => ((r_top ra + i) * cols + (r_left ra + (r_w ra - 1)),
                            (r_top rb + i) * cols + (r_left rb + 0))) (seq 0 (r_h ra))
  else map (fun i => ((r_top ra + (r_h ra - 1)) * cols + (r_left ra + i),
                      (r_top rb + 0) * cols + (r_left rb + i))) (seq 0 (r_w ra)).
(* SPEC: the pixel pairs of a seam and of a schedule *)
Definition px_of (rs : list prect) (cols : nat) (s : nat * nat * bool) : list (nat * nat) :=
  match rs !! fst (fst s), rs !! snd (fst s) with
  | Some ra, Some rb => seam_px cols (snd s) ra rb
  | _, _ => []
  end.
Definition sched_px (rs : list prect) (cols : nat) (sched : list (list nat * nat * bool)) : list (nat * nat) :=
  flat_map (px_of rs cols) (seams sched).

(* SPEC: the two words hold the labels of the two pixels *)
Definition pair_px (rs : list prect) (cols : nat) (w : wref * wref) (p : nat * nat) : Prop :=
  word_px rs cols (fst w) (fst p) /\ word_px rs cols (snd w) (snd p).

Lemma walk_px rs cols n o ka offa sa kb offb sb (f : nat -> nat * nat) :
  (forall i, o <= i < o + n -> pair_px rs cols ((ka, offa + (i - o) * sa), (kb, offb + (i - o) * sb)) (f i)) ->
  Forall2 (pair_px rs cols) (walk n ka offa sa kb offb sb) (map f (seq o n)).
Proof.
  revert o offa offb. induction n as [|n IH]; intros o offa offb H; [constructor|].
  cbn [walk seq map]. constructor.
  - specialize (H o ltac:(lia)). replace (offa + (o - o) * sa) with offa in H by lia.
    by replace (offb + (o - o) * sb) with offb in H by lia.
  - apply IH. intros i Hi. specialize (H i ltac:(lia)).
    replace (offa + sa + (i - S o) * sa) with (offa + (i - o) * sa) by nia.
    by replace (offb + sb + (i - S o) * sb) with (offb + (i - o) * sb) by nia.
Qed.

Lemma seam_words_px rs cols (lr : bool) ka kb ra rb : rs !! ka = Some ra -> rs !! kb = Some rb ->
  0 < r_w ra -> 0 < r_h ra -> 0 < r_w rb -> 0 < r_h rb ->
  (if lr then r_h ra <= r_h rb else r_w ra <= r_w rb) ->
  Forall2 (pair_px rs cols) (seam_words rs lr ka kb) (seam_px cols lr ra rb).
Proof.
  intros Ha Hb H1 H2 H3 H4 Hle. unfold seam_words, seam_px. rewrite Ha, Hb. destruct lr; apply walk_px; intros i Hi; split; cbn [fst snd].
  - exists ra, i, (r_w ra - 1). cbn [fst snd]. split; auto. split; [lia|]. split; [lia|]. split; [|done].
    replace (i - 0) with i by lia. nia.
  - exists rb, i, 0. cbn [fst snd]. split; auto. split; [lia|]. split; [lia|]. split; [|done].
    replace (i - 0) with i by lia. nia.
  - exists ra, (r_h ra - 1), i. cbn [fst snd]. split; auto. split; [lia|]. split; [lia|]. split; [|done].
    replace (i - 0) with i by lia. nia.
  - exists rb, 0, i. cbn [fst snd]. split; auto. split; [lia|]. split; [lia|]. split; [|done].
    replace (i - 0) with i by lia. nia.
Qed.

(* ---------- schedules that join every pair of neighbouring partitions once ---------- *)
(* SPEC: a pair of partitions next to each other, left-right or one above the other *)
Definition seam_ok (hpn vpn : nat) (s : nat * nat * bool) : Prop :=
  fst (fst s) < vpn * hpn /\
  if snd s then snd (fst s) = fst (fst s) + 1 /\ S (fst (fst s) mod hpn) < hpn
  else snd (fst s) = fst (fst s) + hpn /\ S (fst (fst s) / hpn) < vpn.
(* SPEC: every such pair is joined exactly once and nothing else *)
Record good_sched (hpn vpn : nat) (sched : list (list nat * nat * bool)) : Prop := {
  gs_in : sched_in (vpn * hpn) sched;
  gs_once : NoDup (seams sched);
  gs_all : forall s, s ∈ seams sched <-> seam_ok hpn vpn s
}.

Global Instance seam_ok_dec hpn vpn s : Decision (seam_ok hpn vpn s).
Proof. unfold seam_ok. destruct (snd s); apply _. Defined.
Global Instance sched_in_dec n sched : Decision (sched_in n sched).
Proof. unfold sched_in. apply _. Defined.

Lemma good_check hpn vpn sched : sched_in (vpn * hpn) sched -> NoDup (seams sched) ->
  Forall (seam_ok hpn vpn) (seams sched) ->
  Forall (fun k => (seam_ok hpn vpn (k, k + 1, true) -> (k, k + 1, true) ∈ seams sched) /\
                   (seam_ok hpn vpn (k, k + hpn, false) -> (k, k + hpn, false) ∈ seams sched))
    (seq 0 (vpn * hpn)) -> good_sched hpn vpn sched.
Proof.
  intros H1 H2 H3 H4. constructor; auto. intros [[ka kb] lr]. split.
  - rewrite Forall_forall in H3. apply H3.
  - intros Hs. pose proof Hs as [Hk Hlr]. cbn [fst snd] in Hk, Hlr.
    rewrite Forall_forall in H4. destruct (H4 ka) as [Ht Hf]. { apply elem_of_seq. lia. }
    destruct lr; destruct Hlr as [-> _]; auto.
Qed.
Lemma sched4_good : good_sched 2 2 sched4.
Proof. apply good_check; apply (bool_decide_unpack _); vm_compute; done. Qed.
Lemma sched32_good : good_sched 8 4 sched32.
Proof. apply good_check; apply (bool_decide_unpack _); vm_compute; done. Qed.
Lemma sched1_good : good_sched 1 1 [].
Proof. apply good_check; apply (bool_decide_unpack _); vm_compute; done. Qed.

Lemma NoDup_flat_map {A B} (f : A -> list B) l : NoDup l -> (forall x, x ∈ l -> NoDup (f x)) ->
  (forall x y z, x ∈ l -> y ∈ l -> z ∈ f x -> z ∈ f y -> x = y) -> NoDup (flat_map f l).
Proof.
  induction l as [|a l IH]; intros Hl Hf Hd; [constructor|]. apply NoDup_cons in Hl as [Ha Hl].
  cbn [flat_map]. apply NoDup_app. split; [apply Hf; left|]. split.
  - intros z Hz Hz'. apply elem_of_list_In, in_flat_map in Hz' as (y & Hy & Hz').
    apply elem_of_list_In in Hy, Hz'. assert (a = y) as ->; [|done].
    eapply (Hd a y z); auto; [left|by right].
  - apply IH; auto.
    + intros x Hx. apply Hf. by right.
    + intros x y z Hx Hy. apply Hd; by right.
Qed.

(* SPEC: q is the pixel to the right of p or the pixel below p *)
Definition next_px (cols p q : nat) : Prop :=
  (p / cols = q / cols /\ q mod cols = S (p mod cols)) \/
  (p mod cols = q mod cols /\ q / cols = S (p / cols)).

Section px.
Context (hpn vpn cols rows : nat) (Hh : 0 < hpn) (Hv : 0 < vpn) (Hc : hpn <= cols) (Hr : vpn <= rows).
Notation R := (rects hpn vpn cols rows).

Lemma coord y x : x < cols -> (y * cols + x) / cols = y /\ (y * cols + x) mod cols = x.
Proof.
  clear. intros Hx. split.
  - rewrite Nat.div_add_l, Nat.div_small by lia. lia.
  - rewrite Nat.add_comm, Nat.mod_add, Nat.mod_small by lia. lia.
Qed.

Lemma seam_rects s : seam_ok hpn vpn s -> exists v h, v < vpn /\ h < hpn /\
  fst (fst s) = v * hpn + h /\ R !! fst (fst s) = Some (rect_at hpn vpn cols rows v h) /\
  if snd s then S h < hpn /\ snd (fst s) = v * hpn + S h /\ R !! snd (fst s) = Some (rect_at hpn vpn cols rows v (S h))
  else S v < vpn /\ snd (fst s) = S v * hpn + h /\ R !! snd (fst s) = Some (rect_at hpn vpn cols rows (S v) h).
Proof.
  destruct s as [[ka kb] lr]. unfold seam_ok. cbn [fst snd]. intros [Hka Hlr].
  exists (ka / hpn), (ka mod hpn). pose proof (Nat.div_mod ka hpn ltac:(lia)).
  pose proof (Nat.mod_upper_bound ka hpn ltac:(lia)).
  assert (ka / hpn < vpn) by (apply Nat.div_lt_upper_bound; nia).
  assert (ka = ka / hpn * hpn + ka mod hpn) as He by nia.
  split; auto. split; auto. split; auto. split. { rewrite He at 1. by apply rects_at. }
  destruct lr; destruct Hlr as [-> Hl]; (split; [done|]).
  - assert (ka + 1 = ka / hpn * hpn + S (ka mod hpn)) as He' by lia. split; auto. rewrite He' at 1.
    by apply rects_at.
  - assert (ka + hpn = S (ka / hpn) * hpn + ka mod hpn) as He' by lia. split; auto. rewrite He' at 1.
    by apply rects_at.
Qed.

(* the pixels of the pairs of a seam lie in its two partitions and are neighbours *)
Lemma seam_px_in s p q : seam_ok hpn vpn s -> (p, q) ∈ px_of R cols s ->
  in_part R cols (fst (fst s)) p /\ in_part R cols (snd (fst s)) q /\
  (if snd s then p / cols = q / cols /\ q mod cols = S (p mod cols)
   else p mod cols = q mod cols /\ q / cols = S (p / cols)).
Proof.
  intros Hs Hin. destruct (seam_rects s Hs) as (v & h & Hv' & Hh' & Hka & Hra & Hb).
  unfold px_of in Hin. rewrite Hra in Hin. destruct (snd s).
  - destruct Hb as (Hh2 & Hkb & Hrb). rewrite Hrb in Hin. unfold seam_px in Hin.
    apply elem_of_list_fmap in Hin as (i & [= -> ->] & Hi%elem_of_seq). cbn [rect_at r_top r_left r_w r_h] in *.
    pose proof (cut_pos hpn cols h Hh' Hc). pose proof (cut_pos hpn cols (S h) Hh2 Hc).
    pose proof (cut_next hpn cols h Hh2). pose proof (cut_inside hpn cols (S h) Hh2).
    destruct (coord (cut_start vpn rows v + i) (cut_start hpn cols h + (cut_size hpn cols h - 1))) as [E1 E2]; [lia|].
    destruct (coord (cut_start vpn rows v + i) (cut_start hpn cols (S h) + 0)) as [E3 E4]; [lia|].
    rewrite Hka, Hkb. rewrite !part_at by auto. rewrite E1, E2, E3, E4. lia.
  - destruct Hb as (Hv2 & Hkb & Hrb). rewrite Hrb in Hin. unfold seam_px in Hin.
    apply elem_of_list_fmap in Hin as (i & [= -> ->] & Hi%elem_of_seq). cbn [rect_at r_top r_left r_w r_h] in *.
    pose proof (cut_pos vpn rows v Hv' Hr). pose proof (cut_pos vpn rows (S v) Hv2 Hr).
    pose proof (cut_next vpn rows v Hv2). pose proof (cut_inside hpn cols h Hh').
    destruct (coord (cut_start vpn rows v + (cut_size vpn rows v - 1)) (cut_start hpn cols h + i)) as [E1 E2]; [lia|].
    destruct (coord (cut_start vpn rows (S v) + 0) (cut_start hpn cols h + i)) as [E3 E4]; [lia|].
    rewrite Hka, Hkb. rewrite !part_at by auto. rewrite E1, E2, E3, E4. lia.
Qed.

Lemma next_seam p q : p < rows * cols -> q < rows * cols -> next_px cols p q ->
  partf hpn vpn cols rows p <> partf hpn vpn cols rows q -> exists s, seam_ok hpn vpn s /\ (p, q) ∈ px_of R cols s.
Proof.
  intros Hp Hq Hn Hne. assert (cols <> 0) by lia.
  assert (q mod cols < cols) as Hqx by (by apply Nat.mod_upper_bound).
  assert (q / cols < rows) as Hqy by (apply Nat.div_lt_upper_bound; lia).
  pose proof (Nat.div_mod p cols ltac:(lia)) as Dp. pose proof (Nat.div_mod q cols ltac:(lia)) as Dq.
  destruct (cut_idx_ok hpn cols (p mod cols)) as (Hh1 & Hh2); auto. { by apply Nat.mod_upper_bound. }
  destruct (cut_idx_ok vpn rows (p / cols)) as (Hv1 & Hv2); auto. { apply Nat.div_lt_upper_bound; lia. }
  set (h := cut_idx hpn cols (p mod cols)) in *. set (v := cut_idx vpn rows (p / cols)) in *.
  assert (in_part R cols (v * hpn + h) p) as Hpp. { apply part_at; auto. }
  destruct Hn as [[Hy Hx]|[Hx Hy]].
  - (* to the right *)
    assert (q mod cols = cut_start hpn cols h + cut_size hpn cols h) as Hedge.
    { destruct (le_lt_dec (cut_start hpn cols h + cut_size hpn cols h) (q mod cols)) as [Hge|Hlt]; [lia|].
      exfalso. apply Hne. transitivity (v * hpn + h).
      - apply partf_iff; auto.
      - symmetry. apply partf_iff; auto. apply part_at; auto. rewrite <-Hy. lia. }
    assert (S h < hpn) as Hhl.
    { destruct (le_lt_dec hpn (S h)) as [Hle|]; auto. exfalso. unfold cut_start, cut_size in Hedge.
      destruct (Nat.eqb_spec (S h) hpn); [|lia]. pose proof (Nat.mul_div_le cols hpn ltac:(lia)). nia. }
    exists ((v * hpn + h, v * hpn + S h), true). split.
    + unfold seam_ok. cbn [fst snd]. split; [nia|]. split; [lia|].
      rewrite Nat.add_comm, Nat.mod_add, Nat.mod_small by lia. done.
    + unfold px_of. cbn [fst snd]. rewrite !rects_at by auto. unfold seam_px. apply elem_of_list_fmap.
      exists (p / cols - cut_start vpn rows v). cbn [rect_at r_top r_left r_w r_h].
      rewrite (cut_next hpn cols h Hhl). split; [|apply elem_of_seq; lia].
      replace (cut_start vpn rows v + (p / cols - cut_start vpn rows v)) with (p / cols) by lia.
      f_equal; [|rewrite Hy]; lia.
  - assert (q / cols = cut_start vpn rows v + cut_size vpn rows v) as Hedge.
    { destruct (le_lt_dec (cut_start vpn rows v + cut_size vpn rows v) (q / cols)) as [Hge|Hlt]; [lia|].
      exfalso. apply Hne. transitivity (v * hpn + h).
      - apply partf_iff; auto.
      - symmetry. apply partf_iff; auto. apply part_at; auto. rewrite <-Hx. lia. }
    assert (S v < vpn) as Hvl.
    { destruct (le_lt_dec vpn (S v)) as [Hle|]; auto. exfalso. unfold cut_start, cut_size in Hedge.
      destruct (Nat.eqb_spec (S v) vpn); [|lia]. pose proof (Nat.mul_div_le rows vpn ltac:(lia)). nia. }
    exists ((v * hpn + h, S v * hpn + h), false). split.
    + unfold seam_ok. cbn [fst snd]. split; [nia|]. split; [lia|].
      rewrite Nat.div_add_l, Nat.div_small by lia. lia.
    + unfold px_of. cbn [fst snd]. rewrite !rects_at by auto. unfold seam_px. apply elem_of_list_fmap.
      exists (p mod cols - cut_start hpn cols h). cbn [rect_at r_top r_left r_w r_h].
      rewrite (cut_next vpn rows v Hvl). split; [|apply elem_of_seq; lia].
      replace (cut_start hpn cols h + (p mod cols - cut_start hpn cols h)) with (p mod cols) by lia.
      pose proof (cut_pos vpn rows v Hv1 Hr).
      replace (cut_start vpn rows v + (cut_size vpn rows v - 1)) with (p / cols) by lia.
      replace (cut_start vpn rows v + cut_size vpn rows v + 0) with (q / cols) by lia.
      f_equal; [|rewrite Hx]; lia.
Qed.

Lemma sched_px_iff sched p q : good_sched hpn vpn sched ->
  (p, q) ∈ sched_px R cols sched <->
  p < rows * cols /\ q < rows * cols /\ next_px cols p q /\
  partf hpn vpn cols rows p <> partf hpn vpn cols rows q.
Proof.
  intros [H1 H2 H3]. unfold sched_px. rewrite elem_of_list_In, in_flat_map. split.
  - intros (s & Hs & Hin). apply elem_of_list_In in Hs, Hin. apply H3 in Hs.
    destruct (seam_px_in s p q Hs Hin) as (Hp & Hq & Hn).
    assert (p < rows * cols) as Hpl by (eapply (part_inside hpn vpn); eauto).
    assert (q < rows * cols) as Hql by (eapply (part_inside hpn vpn); eauto).
    split; auto. split; auto. split. { unfold next_px. destruct (snd s); auto. }
    apply (partf_iff hpn vpn) in Hp, Hq; auto. rewrite Hp, Hq. destruct Hs as [_ Hs].
    destruct (snd s); lia.
  - intros (Hp & Hq & Hn & Hne). destruct (next_seam p q Hp Hq Hn Hne) as (s & Hs & Hin).
    exists s. split; apply elem_of_list_In; auto. by apply H3.
Qed.

Lemma sched_px_once sched : good_sched hpn vpn sched -> NoDup (sched_px R cols sched).
Proof.
  intros [H1 H2 H3]. unfold sched_px. apply NoDup_flat_map; auto.
  - intros s Hs. apply H3 in Hs. unfold px_of. destruct (seam_rects s Hs) as (v & h & Hv' & Hh' & Hka & Hra & Hb).
    rewrite Hra. destruct (snd s).
    + destruct Hb as (_ & _ & ->). unfold seam_px. apply NoDup_fmap_2_strong; [|apply NoDup_seq].
      intros i j _ _ [= He _]. nia.
    + destruct Hb as (_ & _ & ->). unfold seam_px. apply NoDup_fmap_2_strong; [|apply NoDup_seq].
      intros i j _ _ [= He _]. lia.
  - intros s s' [p q] Hs Hs' Hin Hin'. apply H3 in Hs, Hs'.
    destruct (seam_px_in s p q Hs Hin) as (Hp & Hq & Hn).
    destruct (seam_px_in s' p q Hs' Hin') as (Hp' & Hq' & Hn').
    destruct s as [[ka kb] lr], s' as [[ka' kb'] lr']. cbn [fst snd] in *.
    rewrite (part_unique hpn vpn cols rows Hh Hv p ka ka'), (part_unique hpn vpn cols rows Hh Hv q kb kb'); auto.
    destruct lr, lr'; auto; lia.
Qed.

Lemma sched_words_px sched : good_sched hpn vpn sched ->
  Forall2 (pair_px R cols) (sched_words R sched) (sched_px R cols sched).
Proof.
  intros [H1 H2 H3]. unfold sched_words, sched_px.
  assert (forall s, s ∈ seams sched -> seam_ok hpn vpn s) as Hok by (intros; by apply H3). clear H1 H2 H3.
  induction (seams sched) as [|s l IH]; [constructor|]. cbn [flat_map]. apply Forall2_app.
  - assert (seam_ok hpn vpn s) as Hs by (apply Hok; left).
    destruct (seam_rects s Hs) as (v & h & Hv' & Hh' & Hka & Hra & Hb). unfold px_of. rewrite Hra.
    destruct s as [[ka kb] lr]. cbn [fst snd] in *. destruct lr.
    + destruct Hb as (Hh2 & Hkb & Hrb). rewrite Hrb. eapply seam_words_px; eauto; cbn [rect_at r_w r_h]; auto using cut_pos.
    + destruct Hb as (Hv2 & Hkb & Hrb). rewrite Hrb. eapply seam_words_px; eauto; cbn [rect_at r_w r_h]; auto using cut_pos.
  - apply IH. intros s' Hs'. apply Hok. by right.
Qed.
End px.

(* ---------- joining all pairs of a list ---------- *)
(* SPEC: a view with the adjacencies of a list added *)
Definition add_edges (V : view) (l : list (nat * nat)) : view :=
  fold_left (fun V pq => add_edge V (fst pq) (snd pq)) l V.

Lemma add_edges_in V l p : vw_in (add_edges V l) p <-> vw_in V p.
Proof. revert V. induction l as [|[a b] l IH]; intros V; [done|]. unfold add_edges in *. simpl. by rewrite IH. Qed.
Lemma add_edges_gray V l p : vw_gray (add_edges V l) p = vw_gray V p.
Proof. revert V. induction l as [|[a b] l IH]; intros V; [done|]. unfold add_edges in *. simpl. by rewrite IH. Qed.
Lemma add_edges_adj V l x y : vw_adj (add_edges V l) x y <->
  vw_adj V x y \/ (x, y) ∈ l \/ (y, x) ∈ l.
Proof.
  revert V. induction l as [|[a b] l IH]; intros V.
  - simpl. rewrite !elem_of_nil. tauto.
  - unfold add_edges in *. simpl. rewrite IH, !elem_of_cons. simpl. split.
    + intros [[H|[[-> ->]|[-> ->]]]|H]; tauto.
    + intros [H|[[[= -> ->]|H]|[[= -> ->]|H]]]; tauto.
Qed.

Lemma region_at_shape bnd F F' P k off : length <$> F' = length <$> F ->
  region_at bnd F' P k off = region_at bnd F P k off.
Proof.
  intros Hs. unfold region_at. assert (length <$> F' !! k = length <$> F !! k) as Hk.
  { rewrite <-!list_lookup_fmap. by rewrite Hs. }
  destruct (P !! k); [|done]. destruct (F' !! k), (F !! k); try done. injection Hk as ->. done.
Qed.

Lemma join_list_ok V lab P rs cols bnd F N fuel ws ps :
  vsym V -> ctree V lab (tab F) -> card_is (vw_in V) N -> (N.of_nat N < 2 ^ 31)%N -> bounded F ->
  nregs F + 514 < fuel ->
  Forall2 (pair_px rs cols) ws ps ->
  Forall (fun pq => vw_in V (fst pq) /\ vw_in V (snd pq)) ps ->
  (forall w p, word_px rs cols w p -> vw_in V p -> region_at bnd F P (fst w) (snd w) = Some (lab p)) ->
  exists F', join_list fuel bnd P ws F = Some F' /\ frame F F' /\ ctree (add_edges V ps) lab (tab F').
Proof.
  intros HS HT HN Hsm HB Hf H2. revert V F HS HT HN HB Hf.
  induction H2 as [|[wa wb] [p q] ws ps Hw _ IH]; intros V F HS HT HN HB Hf Hin Hreg.
  - exists F. split; auto. split; auto. apply frame_refl.
  - apply Forall_cons in Hin as [[Hp Hq] Hin]. destruct Hw as [Hwa Hwb]. cbn [fst snd] in *.
    cbn [join_list]. unfold join_pair. rewrite (Hreg wa p Hwa Hp), (Hreg wb q Hwb Hq).
    pose proof (ctree_wf _ _ _ HT) as HW.
    destruct (ct_lab _ _ _ HT p Hp) as (vp & Hvp & _). destruct (get_tab _ _ _ Hvp) as (ap & Hap & ->).
    destruct (ct_lab _ _ _ HT q Hq) as (vq & Hvq & _). destruct (get_tab _ _ _ Hvq) as (aq & Haq & ->).
    destruct (real_ok F (lab p) ap fuel HW Hap) as (a & da & -> & A1 & A2 & A3 & A4 & _); [lia|].
    destruct (real_ok F (lab q) aq fuel HW Haq) as (b & db & -> & B1 & B2 & B3 & B4 & _); [lia|].
    assert (forall d, g_flag d <> 3 -> v_live (vr d) = true) as Hlv.
    { intros d Hd. simpl. destruct (Nat.eqb_spec (g_flag d) 3); done. }
    destruct (connect_ok V lab F N q p a b fuel) as (F1 & -> & HF1 & HT1); auto.
    { exists (vr ap), (vr da). split; auto. split; auto. split; [by apply tab_get|]. auto. }
    { exists (vr aq), (vr db). split; auto. split; auto. split; [by apply tab_get|]. auto. }
    destruct (IH (add_edge V p q) F1) as (F' & E1 & E2 & E3).
    + by apply vsym_add.
    + eapply ctree_ext; [exact HT1| | |]; try done. intros x y _ _. cbn. tauto.
    + done.
    + by eapply frame_bounded.
    + by rewrite (frame_nregs _ _ HF1).
    + done.
    + intros w' p' Hw' Hp'. rewrite (region_at_shape bnd F F1); [auto|]. apply HF1.
    + exists F'. split; auto. split; auto. by eapply frame_trans.
Qed.
